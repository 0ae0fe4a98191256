(* What is claimed of the one-shot mode (C84). *)
From Coq Require Import String Ascii List Sorted Bool Arith NArith QArith.
From Verif Require Import OsModel.
Import ListNotations.
Local Open Scope string_scope.

(* No character c in s. *)
Definition without (c : ascii) (s : string) : Prop := ~ In c (list_ascii_of_string s).
(* The file name extension of p is l. *)
Definition extension (p l : string) : Prop := exists a, p = a ++ "." ++ l /\ without "." l /\ without "/" l.

(* What a tree has at a path. *)
Inductive has : node -> path -> node -> Prop :=
| here : forall t, has t [] t
| there : forall l x t p n, In (x, t) l -> has t p n -> has (Dir l) (x :: p) n.
Definition is_dir (n : node) : Prop := exists l, n = Dir l.
(* What can be read at it. *)
Definition reads (n : node) (s : string) : Prop := n = File s \/ n = Link (Regular s).
(* t has a file, of any kind, at p. *)
Definition leaf (t : node) (p : path) (n : node) : Prop := has t p n /\ ~ is_dir n.
(* p is above q. *)
Definition above (p q : path) : Prop := exists x r, q = (p ++ x :: r)%list.

(* A directory names things once, in order (bytewise). *)
Definition lt (x y : string) : Prop := String.compare x y = Lt.
Inductive ordered : node -> Prop :=
| ordered_leaf : forall n, ~ is_dir n -> ordered n
| ordered_dir : forall l, StronglySorted (fun a b => lt (fst a) (fst b)) l -> (forall x n, In (x, n) l -> ordered n) -> ordered (Dir l).
(* Paths in the order of Walk. *)
Inductive earlier : path -> path -> Prop :=
| earlier_name : forall x y p q, lt x y -> earlier (x :: p) (y :: q)
| earlier_rest : forall x p q, earlier p q -> earlier (x :: p) (x :: q).


(* Nothing stops the walk at p, where n is: its entries can be listed; or the
   directories above can be made, n can be opened and read, and p be (over)written. *)
Definition reachable (troubles : path -> trouble) (d : dir) (p : path) : Prop :=
  troubles p <> NoMkdir /\ forall q s, above q p -> d q <> Some (AFile s).
Definition passes (troubles : path -> trouble) (d : dir) (p : path) (n : node) : Prop :=
  is_dir n /\ troubles p <> NoList \/
  ~ is_dir n /\ (troubles p = Fine \/ troubles p = NoList) /\ reachable troubles d p /\ (exists s, reads n s) /\ d p <> Some ADir.
(* Opening it waits for ever. *)
Definition blocks (troubles : path -> trouble) (d : dir) (p : path) (n : node) : Prop :=
  n = Fifo /\ reachable troubles d p /\ troubles p <> NoOpen.
(* d' has what can be read at n. *)
Definition copied_to (d' : dir) (p : path) (n : node) : Prop := exists s, reads n s /\ d' p = Some (AFile s).

(* The run that -request or -source ask for, and its language. *)
Definition hash : string := "0000000000000000000000000000000000000000".
Definition asked (read_file : string -> option string) (read_run : string -> option Run) (request source : string) (debug : bool) (r : Run) : Prop :=
  (exists text r0, request <> "" /\ read_file request = Some text /\ read_run text = Some r0 /\
     AttemptID r = AttemptID r0 /\ Source r = Source r0 /\ Language r = Language r0 /\ ProblemName r = ProblemName r0 /\ MaxScore r = MaxScore r0 /\
     Debug r = (debug || Debug r0)%bool /\ InputHash r = hash) \/
  (exists text, request = "" /\ source <> "" /\ read_file source = Some text /\ Source r = text /\ extension source (Language r) /\
     AttemptID r = 0%N /\ ProblemName r = "" /\ MaxScore r = Some 100%Q /\ Debug r = debug /\ InputHash r = hash).

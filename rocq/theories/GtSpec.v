(* C76: what is expected of the way from a repository to the runner's disk. *)
From Coq Require Import String Ascii List Bool ZArith.
From Verif Require Import GoStr InModel InSpec GtModel.
Import ListNotations.
Local Open Scope string_scope.

(* The tree has a file at r with this content. *)
Fixpoint blob_at (t : gtree) (r : path) (c : string) : Prop :=
  match t with
  | End => False
  | Blob name k rest => (r = [name] /\ k = c) \/ blob_at rest r c
  | Sub name sub rest => (exists r', r = name :: r' /\ blob_at sub r' c) \/ blob_at rest r c
  | LostBlob _ rest | LostSub _ rest | Link _ rest => blob_at rest r c
  end.
(* The sizes of its files. *)
Fixpoint bytes (t : gtree) : Z :=
  match t with
  | End => 0
  | Blob _ c rest => Z.of_nat (String.length c) + bytes rest
  | Sub _ sub rest => bytes sub + bytes rest
  | LostBlob _ rest | LostSub _ rest | Link _ rest => bytes rest
  end.
Fixpoint names (t : gtree) : list string :=
  match t with
  | End => []
  | Blob n _ rest | LostBlob n rest | Sub n _ rest | LostSub n rest | Link n rest => n :: names rest
  end.
(* A name of an entry of a git tree. *)
Definition git_name (s : string) : Prop := s <> "" /\ s <> "." /\ s <> ".." /\ ~ contains "/" s.
(* A tree: proper names, all different. *)
Fixpoint all_trees (P : gtree -> Prop) (t : gtree) : Prop :=
  match t with
  | End => True
  | Sub _ sub rest => P sub /\ all_trees P sub /\ all_trees P rest
  | Blob _ _ rest | LostBlob _ rest | LostSub _ rest | Link _ rest => all_trees P rest
  end.
Definition proper (t : gtree) : Prop := NoDup (names t) /\ forall n, In n (names t) -> git_name n.
Definition tree (t : gtree) : Prop := proper t /\ all_trees proper t.
(* The tree up to its first subtree or file that cannot be read (which stays, a lost
   subtree as an empty one); whether there is none. *)
Fixpoint readable_part (t : gtree) : gtree * bool :=
  match t with
  | End => (End, true)
  | Blob n c rest => let (r, b) := readable_part rest in (Blob n c r, b)
  | Link n rest => let (r, b) := readable_part rest in (Link n r, b)
  | LostBlob n _ => (LostBlob n End, false)
  | LostSub n _ => (Sub n End End, false)
  | Sub n sub rest =>
      let (s, b) := readable_part sub in
      if b then let (r, b) := readable_part rest in (Sub n s r, b) else (Sub n s End, false)
  end.
(* No name has a line feed or a carriage return. *)
Definition plain (t : gtree) : Prop := let ok t := forall n, In n (names t) -> ~ contains LF n /\ ~ contains CR n in ok t /\ all_trees ok t.
(* A subtree, a file that cannot be read. *)
Fixpoint lost_trees (t : gtree) : nat :=
  match t with
  | End => 0
  | LostSub _ rest => S (lost_trees rest)
  | Sub _ sub rest => lost_trees sub + lost_trees rest
  | Blob _ _ rest | LostBlob _ rest | Link _ rest => lost_trees rest
  end.
Fixpoint lost_blobs (t : gtree) : nat :=
  match t with
  | End => 0
  | LostBlob _ rest => S (lost_blobs rest)
  | Sub _ sub rest => lost_blobs sub + lost_blobs rest
  | Blob _ _ rest | LostSub _ rest | Link _ rest => lost_blobs rest
  end.
(* The disk has exactly the files of the tree below p. *)
Definition checked_out (f : fs) (p : path) (t : gtree) : Prop := forall r c, f (p ++ r)%list = Some (File c) <-> blob_at t r c.

(* archive/tar's reader gives the names of directories with a slash. *)
Definition slash (e : entry) : entry := match e with EDir n => EDir (n ++ "/") | e => e end.
(* Reading an archive gives what was written; reading one that lacks some of what is
   written when the writers are closed gives the first entries (the contents of the last
   may be cut), and if it ends well, all of them. *)
Definition codec (body trailer : list entry -> string) (untar : string -> bool * list entry * bool) : Prop :=
  (forall es, untar (body es ++ trailer es) = (true, map slash es, true)) /\
  (forall es t u, trailer es = t ++ u -> let '(readable, es', clean) := untar (body es ++ t) in
     (exists rest, map name_of (map slash es) = (map name_of es' ++ rest)%list) /\ (readable = true -> clean = true -> es' = map slash es)).

(* A place on the disk where directories can be made. *)
Definition accessible (f : fs) (d : path) : Prop := forall q r c, d = (q ++ r)%list -> f q <> Some (File c).

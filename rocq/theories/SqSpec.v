(* Vocabulary for what the status page says. *)
From Coq Require Import String List Arith ZArith NArith Bool Permutation.
From Verif Require Import GoBase RunModel RunSpec TrcModel SqModel.
Import ListNotations.
Local Open Scope nat_scope.

Definition bases (es : list sq_event) : list RunModel.event := map base_event es.

(* Priorities are those the grader has, and runs go to registered queues. *)
Definition well_formed (queues : list string) (e : sq_event) : Prop :=
  match e with XNew _ q p _ _ => In q queues /\ p < 4 | _ => True end.

(* No two goroutines hold the same run, from a counter that does not wrap around. *)
Definition undisturbed (c0 : N) (es : list sq_event) : Prop :=
  (c0 + N.of_nat (List.length es) < 2 ^ 64)%N /\ race_free_exec (RunModel.init c0) (bases es).

(* Who was handed which run, in order. *)
Fixpoint hands (x : sq) (es : list sq_event) : list (nat * string) :=
  match es with
  | [] => []
  | e :: es =>
    match e with
    | XGetRun n runner => match nth_error (queue (base x)) n with Some r => [(r, runner)] | None => [] end
    | _ => []
    end ++ hands (sq_step x e) es
  end.
(* The runner a run was handed to last. *)
Definition last_runner (h : list (nat * string)) (r : nat) : option string :=
  match rev (List.filter (fun e => Nat.eqb (fst e) r) h) with [] => None | e :: _ => Some (snd e) end.

(* What is known of run r. *)
Definition run_is (x : sq) (r : nat) (id : Z) (guid q : string) : Prop :=
  nth_error (ids x) r = Some id /\ nth_error (guids x) r = Some guid /\ nth_error (homes x) r = Some q.

Definition waiting (x : sq) (r : nat) : bool := existsb (Nat.eqb r) (queue (base x)).

(* All the states an execution goes through, the first one included. *)
Fixpoint visited (x : sq) (es : list sq_event) : list sq :=
  x :: match es with [] => [] | e :: es => visited (sq_step x e) es end.

(* The runs (of those there are at the end) that wait at all, or at some, of them. *)
Definition waiting_throughout (l : list sq) (n : nat) : nat :=
  List.length (List.filter (fun r => forallb (fun x => waiting x r) l) (seq 0 n)).
Definition waiting_sometime (l : list sq) (n : nat) : nat :=
  List.length (List.filter (fun r => existsb (fun x => waiting x r) l) (seq 0 n)).

(* The runs that are open, or on which a goroutine is still at work. *)
Definition unfinished_run (s : RunModel.state) (r : nat) : bool :=
  match nth_error (runs s) r with Some x => negb (closedF x) || Nat.eqb (workers s r) 1 | None => false end.
Definition unfinished (s : RunModel.state) : nat :=
  List.length (List.filter (unfinished_run s) (seq 0 (List.length (runs s)))).

(* Specification of C90. *)
From Coq Require Import String List Bool ZArith.
From Verif Require Import FeModel KeepModel.
Import ListNotations.
Local Open Scope Z_scope.

(* The grader knows of a run: it is in its memory, or the goroutine of the start has
   it in its list. *)
Definition in_hand (x : system) (id : Z) : Prop :=
  In id (work x) \/ exists i ids cur todo, nth_error (threads (service x)) i = Some (Startup ids, Injecting cur todo) /\ In id todo.
(* The grader was told of a run, and has not reported an error about it since: it
   queued it, or it was started when the run was in the database; after that the
   website did not put it back, the goroutine of the start did not skip it, and no
   UPDATE failed. *)
Fixpoint told_since (hs : list happening) (id : Z) (known told : bool) : bool :=
  match hs with
  | [] => told
  | Stores i :: hs => if i =? id then told_since hs id true false else told_since hs id known told
  | Serves (Queues _ i _ _) :: hs => told_since hs id known ((i =? id) || told)
  | Serves (Skips _ i) :: hs => told_since hs id known (negb (i =? id) && told)
  | Serves (Restarts _ _) :: hs => told_since hs id known known
  | Loses i :: hs => told_since hs id known (negb (i =? id) && told)
  | _ :: hs => told_since hs id known told
  end.
Definition told (hs : list happening) (id : Z) : Prop := told_since hs id false false = true.

(* Nothing goes wrong: no failing request, no skipped run, no failing UPDATE, no crash. *)
Definition fine (h : happening) : Prop :=
  match h with Serves (Answers _ st) => st = 200 | Serves (Skips _ _) | Serves (Restarts _ _) | Loses _ => False | _ => True end.
(* The grader is at rest: it has no run, and is not serving anything. *)
Definition at_rest (x : system) : Prop := work x = [] /\ forall i r t, nth_error (threads (service x)) i = Some (r, t) -> t = Gone.
(* A request about a run. *)
Definition about (id : Z) (r : request) : Prop :=
  match r with NewRun i _ => i = id | Grade _ ids => In id ids | Startup ids => In id ids end.

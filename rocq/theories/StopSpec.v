(* What C91 talks about, on what happened alone. *)
From Coq Require Import List Bool Arith.
From Verif Require Import StopModel.
Import ListNotations.

(* [a] happened, and [b] happened before it / did not. *)
Definition after (b a : event) (tr : list event) : Prop := exists t1 t2, tr = t1 ++ a :: t2 /\ In b t1.
Definition never_after (b : event) (bad : event -> Prop) (tr : list event) : Prop :=
  forall t1 t2 e, tr = t1 ++ b :: t2 -> In e t2 -> ~ bad e.

(* Request [r] of part [k] was over. *)
Definition over (k r : nat) (e : event) : Prop := e = Answers k r \/ e = Submits k r \/ e = Hijacks k r.
Definition was_over (k r : nat) (tr : list event) : Prop := exists e, In e tr /\ over k r e.

(* What main does: its part of what happened. *)
Definition by_main (e : event) : bool :=
  match e with Begins _ | SaysReady | Calls _ | Joins | Exits => true | _ => false end.
(* All of the start and the stop of [n] parts, in order. *)
Definition whole_life (n : nat) : list event :=
  map Begins (seq 0 n) ++ [SaysReady] ++ map Calls (seq 0 n) ++ [Joins; Exits].

(* The reports left to the worker, and those it took, in order. *)
Definition submitted (tr : list event) : list nat := flat_map (fun e => match e with Submits _ r => [r] | _ => [] end) tr.
Definition taken (ks : list kind) (tr : list event) : list nat :=
  flat_map (fun e => match e with Starts k r => match nth_error ks k with Some Worker => [r] | _ => [] end | _ => [] end) tr.
(* What happens when everybody is gone and only the process itself goes on. *)
Definition its_own (e : event) : Prop :=
  match e with Calls _ | Returns _ _ | Ends _ | Joins | Exits => True | _ => False end.

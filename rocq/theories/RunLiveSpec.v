(* Vocabulary for "every run comes to an end". *)
From Coq Require Import List Arith ZArith NArith Bool.
From Verif Require Import GoBase RunModel RunSpec.
Import ListNotations.

(* Every event of the list has an effect. *)
Fixpoint moves (s : state) (es : list event) : Prop :=
  match es with [] => True | e :: es => step s e <> s /\ moves (step s e) es end.
(* What an event can set off. *)
Definition sets_off (e : event) : nat :=
  match e with ENew m => 1 + 19 * Nat.max 1 m | EResult _ => 16 | _ => 0 end.
(* Nothing new comes in, neither runs nor results. *)
Definition internal (e : event) : Prop := match e with ENew _ | EResult _ => False | _ => True end.

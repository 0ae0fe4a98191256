(* C30: what users of the scoreboard loop rely on, on the log of what it received
   and requested (newest first) and on its inputs. *)
From Coq Require Import String List ZArith.
From Verif Require Import SbModel.
Import ListNotations.
Local Open Scope Z_scope.

(* An event of contest c was received at t and no update of c was requested
   since. *)
Definition unanswered (lg : list entry) (c : string) (t : Z) : Prop :=
  exists l1 l2, lg = l1 ++ Received c t :: l2 /\ forall t', ~ In (Requested c t') l1.

(* The aliases handed to the loop, in order, and those it received. *)
Fixpoint arrivals (ls : list step_label) : list string :=
  match ls with [] => [] | Arrive c :: ls => c :: arrivals ls | _ :: ls => arrivals ls end.
Fixpoint received (lg : list entry) : list string :=
  match lg with [] => [] | Received c _ :: lg => received lg ++ [c] | _ :: lg => received lg end.

(* The loop keeps up: time passes only when there is nothing for it to do, that
   is no alias to receive, and the timer neither fired nor due before then. *)
Definition prompt (interval t0 : Z) (ls : list step_label) : Prop :=
  forall l1 d l2, ls = l1 ++ Tick d :: l2 -> let s := run interval t0 l1 in
    pending s = [] /\
    match tm s with Armed None => True | Armed (Some due) => now s + Z.of_nat d <= due | _ => False end.

(* Vocabulary for how the tries of a run are used up. *)
From Coq Require Import List Arith ZArith NArith Bool.
From Verif Require Import GoBase RunModel RunSpec.
Import ListNotations.

(* In this execution no attempt succeeds, no upload says "judge error" (which would
   make the next attempt the last one) and the queue always has room for a retry. *)
Definition only_failures (s : state) (e : event) : Prop :=
  match e with
  | EStep t ch =>
    match nth_error (threads s) t with
    | Some (HProc _) => ch = ChFalse
    | Some (RQ4 _ _) => ch <> ChTrue
    | _ => True
    end
  | _ => True
  end.
Fixpoint fails_throughout (s : state) (es : list event) : Prop :=
  match es with [] => True | e :: es => only_failures s e /\ fails_throughout (step s e) es end.

(* The steps of a goroutine whose attempt failed with no tries left: it gives the run
   up, closing it. *)
Definition give_up_script (t : nat) : list event := repeat (EStep t ChFalse) 7.

(* Specification of token comparison. *)
From Coq Require Import String List Arith NArith ZArith Bool QArith.
From Verif Require Import TokModel TokSpec ValModel.
Import ListNotations.

(* The first position where two token sequences differ: (contestant, expected). *)
Fixpoint first_difference (eq : bytes -> bytes -> bool) (ex co : list bytes) : option (option bytes * option bytes) :=
  match ex, co with
  | [], [] => None
  | e :: _, [] => Some (None, Some e)
  | [], c :: _ => Some (Some c, None)
  | e :: ex', c :: co' => if eq e c then first_difference eq ex' co' else Some (Some c, Some e)
  end.

Definition texts (m : option token * option token) : option bytes * option bytes :=
  (option_map (fun t => fst (fst t)) (fst m), option_map (fun t => fst (fst t)) (snd m)).

(* A file: read to the end without error, with tokens below the limit. *)
Definition readable (P : N -> bool) (maxTok : N) (rd : reader) : Prop :=
  no_stall 0 (chunks rd) /\ final rd = EEOF /\
  Forall (fun t => (lenN t + 4 <= maxTok)%N) (toks P (concat (chunks rd))).
Definition contents (rd : reader) : bytes := concat (chunks rd).

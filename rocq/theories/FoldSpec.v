(* Case folding, specified by an equivalence on code points: canon r is the
   representative of the class of r. *)
From Coq Require Import List NArith Bool.
From Verif Require Import TokModel TokSpec.
Import ListNotations.
Local Open Scope N_scope.

(* The documentation of unicode.SimpleFold: among the code points equivalent to
   r, the smallest one above r if there is one, else the smallest one. *)
Definition simple_fold_for (canon SimpleFold : N -> N) : Prop :=
  forall r, canon (SimpleFold r) = canon r /\
    ((r < SimpleFold r /\ forall x, canon x = canon r -> r < x -> SimpleFold r <= x) \/
     (SimpleFold r <= r /\ (forall x, canon x = canon r -> x <= r) /\ (forall x, canon x = canon r -> SimpleFold r <= x))).

(* Two distinct ASCII characters are equivalent iff they are the two cases of
   one letter. *)
Definition upper (r : N) : Prop := 65 <= r <= 90.
Definition ascii_case (canon : N -> N) : Prop :=
  forall x y, x < y -> y < 128 -> (canon x = canon y <-> upper x /\ y = x + 32).

Definition same_caseless (canon : N -> N) (a b : bytes) : Prop :=
  Forall2 (fun c d => canon (fst c) = canon (fst d)) (chars a) (chars b).

(* A concrete instance: ASCII letters only. *)
Definition canon0 (r : N) : N := if (97 <=? r) && (r <=? 122) then r - 32 else r.
Definition SimpleFold0 (r : N) : N :=
  if (97 <=? r) && (r <=? 122) then r - 32 else if (65 <=? r) && (r <=? 90) then r + 32 else r.

(* Model of tokenCaselessEquals, runner/validator.go:105-107, i.e. of
   strings.EqualFold (Go 1.13).  unicode.SimpleFold is a parameter; what the
   theorems assume about it is in FoldSpec. *)
From Coq Require Import List Arith NArith Bool.
From Verif Require Import TokModel.
Import ListNotations.
Local Open Scope N_scope.

Section Fold.
Variable SimpleFold : N -> N.

(* for r != sr && r < tr { r = unicode.SimpleFold(r) } *)
Fixpoint orbit_loop (fuel : nat) (sr tr r : N) : N :=
  match fuel with
  | O => r
  | S f => if (negb (r =? sr)) && (r <? tr) then orbit_loop f sr tr (SimpleFold r) else r
  end.

(* One character of EqualFold: true means "continue". *)
Definition rune_eq (sr tr : N) : bool :=
  if tr =? sr then true
  else
    let (sr, tr) := if tr <? sr then (tr, sr) else (sr, tr) in
    if tr <? 0x80
    then (0x41 <=? sr) && (sr <=? 0x5A) && (tr =? sr + 0x20)
    else orbit_loop (N.to_nat tr) sr tr (SimpleFold sr) =? tr.

Fixpoint equal_fold (fuel : nat) (s t : bytes) : bool :=
  match fuel with
  | O => false
  | S f =>
    match s, t with
    | [], [] => true
    | [], _ | _, [] => false
    | _, _ => let (sr, ws) := decode s in
              let (tr, wt) := decode t in
              rune_eq sr tr && equal_fold f (skipn ws s) (skipn wt t)
    end
  end.
Definition EqualFold (s t : bytes) : bool := equal_fold (S (length s)) s t.
End Fold.

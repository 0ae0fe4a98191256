(* Specification of the numeric comparison: real numbers. *)
From Coq Require Import List Arith NArith ZArith Bool Reals.
From Flocq Require Import Core.
From Verif Require Import NumModel.
Import ListNotations.
Local Open Scope R_scope.

(* A decimal numeral and its value: optional '-', digits, optionally '.' and
   digits, at least one digit in all. *)
Definition digit (c : N) : Prop := (48 <= c <= 57)%N.
Fixpoint natural (acc : Z) (t : list N) : Z :=
  match t with [] => acc | c :: t' => natural (10 * acc + Z.of_N (c - 48)) t' end.
Definition decimal (t : list N) (v : R) : Prop :=
  exists (neg : bool) (ip fp : list N) (dot : bool),
    t = (if neg then [45%N] else []) ++ ip ++ (if dot then 46%N :: fp else []) /\
    (dot = false -> fp = []) /\
    Forall digit (ip ++ fp) /\ ip ++ fp <> [] /\
    v = (if neg then Ropp else fun x => x) (IZR (natural 0 (ip ++ fp)) / 10 ^ length fp).

(* The float64 nearest to x (ties to even), as a real number; 2^1024 and above
   stand for infinity. *)
Definition nearest (x : R) : R := round radix2 (FLT_exp (-1074) 53) ZnearestE x.
Definition max_finite_bound : R := bpow radix2 1024.

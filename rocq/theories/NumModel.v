(* Model of tokenNumericEquals, runner/validator.go:109-128, over IEEE 754
   binary64 numbers (Flocq's BinarySingleNaN: one NaN, which is all a comparison
   can see).

   strconv.ParseFloat(s, 64) is modelled on the strings the tokenizer can hand
   to it in token-numeric mode: the characters are '0'-'9', '.' and '-'
   (runner/tokenizer.go:45-47), so there are no exponents, hexadecimal digits,
   underscores, "Inf" or "NaN".  It is modelled by what its documentation
   promises: the nearest float64 to the decimal value, ties to even, and an
   error for a string outside the grammar or a value that rounds to infinity. *)
From Coq Require Import List Arith NArith ZArith Bool.
From Flocq Require Import IEEE754.BinarySingleNaN.
Import ListNotations.
Local Open Scope Z_scope.

Definition prec : Z := 53.
Definition emax : Z := 1024.
Lemma Hprec : FLX.Prec_gt_0 prec. Proof. reflexivity. Qed.
Lemma Hemax : Prec_lt_emax prec emax. Proof. reflexivity. Qed.
#[global] Existing Instance Hprec.
#[global] Existing Instance Hemax.
Definition float64 : Type := binary_float prec emax.

(* Digits. *)
Definition isdigit (c : N) : bool := ((48 <=? c) && (c <=? 57))%N.
Definition is_digits (t : list N) : bool := forallb isdigit t.
Definition dig_value (t : list N) : Z := fold_left (fun a c => 10 * a + Z.of_N (c - 48)) t 0.

(* (sign, digits before the dot, digits after the dot), or None: syntax error.
   Sign: optional '-'.  At most one '.'.  At least one digit. *)
Fixpoint cut_dot (t : list N) : list N * list N :=
  match t with
  | [] => ([], [])
  | c :: t' => if (c =? 46)%N then ([], t') else let (a, b) := cut_dot t' in (c :: a, b)
  end.
Definition cut_sign (t : list N) : bool * list N :=
  match t with c :: t' => if (c =? 45)%N then (true, t') else (false, t) | [] => (false, t) end.
Definition scan_decimal (t : list N) : option (bool * list N * list N) :=
  let (neg, body) := cut_sign t in
  let (ip, fp) := cut_dot body in
  if is_digits ip && is_digits fp && negb (match ip ++ fp with [] => true | _ => false end)
  then Some (neg, ip, fp) else None.

(* The float64 nearest to (-1)^neg * n / d, for positive n and d: the rounding
   step of a division (its overflow result is an infinity). *)
Definition round_ratio (neg : bool) (n d : positive) : float64 :=
  SF2B _ (proj1 (Bdiv_correct_aux prec emax Hprec Hemax mode_NE neg n 0 false d 0)).

(* strconv.ParseFloat(t, 64); None is a non-nil error. *)
Definition ParseFloat (t : list N) : option float64 :=
  match scan_decimal t with
  | None => None
  | Some (neg, ip, fp) =>
    match dig_value (ip ++ fp) with
    | Zpos n =>
      let f := round_ratio neg n (Z.to_pos (10 ^ Z.of_nat (length fp))) in
      if is_finite f then Some f else None
    | _ => Some (B754_zero neg)
    end
  end.

(* math.Max on two non-NaN arguments that are absolute values. *)
Definition fmax (x y : float64) : float64 := if Bleb x y then y else x.
Definition one_and_half : float64 := Bdiv mode_NE (binary_normalize prec emax Hprec Hemax mode_NE 3 0 false) (binary_normalize prec emax Hprec Hemax mode_NE 2 0 false).
(* 2.2250738585072014e-308, the float64 2^-1022 (line 116). *)
Definition SmallestNormal : float64 := binary_normalize prec emax Hprec Hemax mode_NE 1 (-1022) false.
Definition zero : float64 := B754_zero false.

(* lines 116-127, on parsed numbers *)
Definition float_equals (tolerance af bf : float64) : bool :=
  let diff := Babs (Bminus mode_NE bf af) in
  if Beqb af bf then true
  else if Bleb diff (Bmult mode_NE one_and_half tolerance) then true
  else if (Beqb af zero || Beqb bf zero || Bltb diff SmallestNormal)%bool
       then Bleb diff (Bmult mode_NE tolerance SmallestNormal)
       else Bleb (Bdiv mode_NE diff (fmax (Babs af) (Babs bf))) tolerance.

(* tokenNumericEquals *)
Definition tokenNumericEquals (tolerance : float64) (a b : list N) : bool :=
  match ParseFloat a, ParseFloat b with
  | Some af, Some bf => float_equals tolerance af bf
  | None, None => true
  | _, _ => false
  end.

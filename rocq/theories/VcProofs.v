From Coq Require Import List String Ascii ZArith NArith Bool QArith Qround Qabs Qpower Lia Lqa.
From Verif Require Import TokModel ValModel VcModel VcSpec.
Import ListNotations.
Local Open Scope string_scope.

(* ---- numbers ---- *)
Lemma half_even_bound q : (Qabs (inject_Z (half_even q) - q) <= 1 # 2)%Q.
Proof.
  unfold half_even. assert (L := Qfloor_le q). assert (U := Qlt_floor q). rewrite inject_Z_plus in U.
  change (inject_Z 1) with 1%Q in U.
  destruct (q - inject_Z (Qfloor q) ?= 1 # 2)%Q eqn:E.
  - apply Qeq_alt in E. destruct (Z.even (Qfloor q)); apply Qabs_Qle_condition; rewrite ?inject_Z_plus; change (inject_Z 1) with 1%Q; lra.
  - apply Qlt_alt in E. apply Qabs_Qle_condition. lra.
  - apply Qgt_alt in E. apply Qabs_Qle_condition. rewrite inject_Z_plus. change (inject_Z 1) with 1%Q. lra.
Qed.
Lemma half_even_tie q : (Qabs (inject_Z (half_even q) - q) == 1 # 2)%Q -> Z.even (half_even q) = true.
Proof.
  unfold half_even. assert (L := Qfloor_le q). assert (U := Qlt_floor q). rewrite inject_Z_plus in U.
  change (inject_Z 1) with 1%Q in U.
  destruct (q - inject_Z (Qfloor q) ?= 1 # 2)%Q eqn:E.
  - intros _. destruct (Z.even (Qfloor q)) eqn:V; [exact V|]. rewrite Z.even_add, V. reflexivity.
  - apply Qlt_alt in E. intros X. exfalso. revert X. apply Qlt_not_eq. 
    apply Qabs_case; intros _; lra.
  - apply Qgt_alt in E. intros X. exfalso. revert X. rewrite inject_Z_plus. change (inject_Z 1) with 1%Q. apply Qlt_not_eq.
    apply Qabs_case; intros _; lra.
Qed.
Lemma half_even_range q (a b : Z) : (inject_Z a <= q)%Q -> (q <= inject_Z b)%Q -> (a <= half_even q <= b)%Z.
Proof.
  intros A B. assert (H := half_even_bound q). apply Qabs_Qle_condition in H.
  assert (X : (inject_Z a - 1 < inject_Z (half_even q))%Q) by lra. assert (Y : (inject_Z (half_even q) < inject_Z b + 1)%Q) by lra.
  change 1%Q with (inject_Z 1) in X, Y. rewrite <- inject_Z_plus in Y. unfold Qminus in X. rewrite <- inject_Z_opp, <- inject_Z_plus in X.
  rewrite <- Zlt_Qlt in X, Y. lia.
Qed.
Lemma half_even_int z : half_even (inject_Z z) = z.
Proof. assert (H := half_even_range (inject_Z z) z z (Qle_refl _) (Qle_refl _)). lia. Qed.
Lemma half_even_eq p q : (p == q)%Q -> half_even p = half_even q.
Proof. intros E. unfold half_even. rewrite (Qfloor_comp p q E). assert (X : (p - inject_Z (Qfloor q) ?= 1 # 2)%Q = (q - inject_Z (Qfloor q) ?= 1 # 2)%Q) by (rewrite E; reflexivity). rewrite X. reflexivity. Qed.

Lemma two_to_pos e : (0 < two_to e)%Q.
Proof. apply Qpower_0_lt. reflexivity. Qed.
Lemma two_to_plus a b : (two_to (a + b) == two_to a * two_to b)%Q.
Proof. apply Qpower_plus. discriminate. Qed.
Lemma two_to_mono a b : (a <= b)%Z -> (two_to a <= two_to b)%Q.
Proof.
  intros H. replace b with (a + (b - a))%Z by lia. rewrite two_to_plus.
  assert (P := two_to_pos a). assert (X : (1 <= two_to (b - a))%Q).
  { unfold two_to. assert (K : (0 <= b - a)%Z) by lia. destruct (b - a)%Z as [|p|p]; [apply Qle_refl| |lia].
    change (2 ^ Z.pos p)%Q with (Qpower_positive 2 p). clear. rewrite <- (Qpower_positive_1 p). 
    apply (Qpower_le_compat_l) || idtac. 
    change (Qpower_positive 1 p) with (1 ^ (Z.pos p))%Q. rewrite Qpower_1. 
    change (Qpower_positive 2 p) with (2 ^ (Z.pos p))%Q. 
    assert (Z := Zpower_Qpower 2 (Z.pos p) ltac:(lia)). change (inject_Z 2) with 2%Q in Z. rewrite <- Z.
    change 1%Q with (inject_Z 1). rewrite <- Zle_Qle. assert (0 < 2 ^ Z.pos p)%Z by (apply Z.pow_pos_nonneg; lia). lia. }
  assert (Y := Qmult_le_l 1 (two_to (b - a)) (two_to a) P). lra.
Qed.

(* ---- Float64 ---- *)
Lemma log2_upper n : (0 < n)%Z -> (inject_Z n < two_to (Z.log2 n + 1))%Q.
Proof.
  intros P. assert (H := Z.log2_spec n P). assert (L := Z.log2_nonneg n). unfold two_to. change 2%Q with (inject_Z 2).
  rewrite <- Zpower_Qpower by lia. rewrite <- Zlt_Qlt. replace (Z.log2 n + 1)%Z with (Z.succ (Z.log2 n)) by lia. lia.
Qed.
Lemma log2_lower n : (0 < n)%Z -> (two_to (Z.log2 n) <= inject_Z n)%Q.
Proof.
  intros P. assert (H := Z.log2_spec n P). assert (L := Z.log2_nonneg n). unfold two_to. change 2%Q with (inject_Z 2).
  rewrite <- Zpower_Qpower by lia. rewrite <- Zle_Qle. lia.
Qed.
Definition ilog (q : Q) : Z := let k := (Z.log2 (Qnum q) - Z.log2 (Zpos (Qden q)))%Z in if Qle_bool (two_to k) q then k else (k - 1)%Z.
Lemma as_quotient q : (q * inject_Z (Zpos (Qden q)) == inject_Z (Qnum q))%Q.
Proof. destruct q as [n d]. unfold Qeq, Qmult, inject_Z. cbn [Qnum Qden]. rewrite !Pos.mul_1_r. lia. Qed.
Lemma ilog_spec q : (0 < q)%Q -> (two_to (ilog q) <= q /\ q < two_to (ilog q + 1))%Q.
Proof.
  intros P. assert (N : (0 < Qnum q)%Z). { destruct q as [n d]. unfold Qlt in P. cbn in P |- *. lia. }
  assert (E := as_quotient q). set (d := inject_Z (Z.pos (Qden q))) in *. set (n := inject_Z (Qnum q)) in *.
  assert (U1 := log2_upper (Qnum q) N). assert (L1 := log2_lower (Qnum q) N).
  assert (U2 := log2_upper (Z.pos (Qden q)) eq_refl). assert (L2 := log2_lower (Z.pos (Qden q)) eq_refl). fold d in U2, L2. fold n in U1, L1.
  unfold ilog. set (ln := Z.log2 (Qnum q)) in *. set (ld := Z.log2 (Z.pos (Qden q))) in *.
  assert (Dp : (0 < d)%Q) by (assert (X := two_to_pos ld); lra).
  assert (Up : (q < two_to (ln - ld + 1))%Q).
  { destruct (Qlt_le_dec q (two_to (ln - ld + 1))) as [X|X]; [exact X|exfalso].
    assert (Y : (two_to (ln + 1) <= n)%Q).
    { rewrite <- E. replace (ln + 1)%Z with ((ln - ld + 1) + ld)%Z by lia. rewrite two_to_plus.
      assert (A := two_to_pos ld). assert (B := two_to_pos (ln - ld + 1)). 
      apply (Qmult_le_r _ _ _ A) in X.
      assert (C2 := proj2 (Qmult_le_l _ _ q P) L2). lra. }
    lra. }
  assert (Lo : (two_to (ln - ld - 1) <= q)%Q).
  { destruct (Qlt_le_dec q (two_to (ln - ld - 1))) as [X|X]; [exfalso|exact X].
    assert (Y : (n < two_to ln)%Q).
    { rewrite <- E. replace ln with ((ln - ld - 1) + (ld + 1))%Z at 1 by lia. rewrite two_to_plus.
      assert (C1 := proj2 (Qmult_lt_l _ _ q P) U2). assert (A := two_to_pos (ld + 1)).
      assert (C2 := proj2 (Qmult_lt_r _ _ (two_to (ld + 1)) A) X). lra. }
    lra. }
  cbv zeta. destruct (Qle_bool (two_to (ln - ld)) q) eqn:B.
  - apply Qle_bool_iff in B. split; assumption.
  - split; [exact Lo|]. replace (ln - ld - 1 + 1)%Z with (ln - ld)%Z by lia.
    destruct (Qlt_le_dec q (two_to (ln - ld))) as [X|X]; [exact X|]. apply Qle_bool_iff in X. congruence.
Qed.
Lemma exponent_ilog q : exponent q = Z.max (ilog q - 52) (-1074).
Proof. reflexivity. Qed.

Lemma Float64_spec q : (0 < q)%Q -> exists m e, (Float64 q == inject_Z m * two_to e)%Q /\
  (0 <= m <= 2 ^ 53)%Z /\ (e = -1074 \/ (-1074 < e /\ 2 ^ 52 <= m))%Z /\ (Qabs (Float64 q - q) <= two_to e * (1 # 2))%Q /\
  (e = (-1074)%Z \/ two_to (e + 52) <= q)%Q /\
  ((Qabs (Float64 q - q) == two_to e * (1 # 2))%Q -> Z.even m = true).
Proof.
  intros P. destruct (ilog_spec q P) as (L & U). exists (half_even (q * two_to (- exponent q))), (exponent q).
  assert (F : Float64 q = (inject_Z (half_even (q * two_to (- exponent q))) * two_to (exponent q))%Q).
  { unfold Float64. destruct (Qle_bool q 0) eqn:B; [apply Qle_bool_iff in B; lra|reflexivity]. }
  rewrite F. set (e := exponent q) in *. set (m := half_even (q * two_to (- e))).
  assert (Pe := two_to_pos e). assert (Pn := two_to_pos (- e)).
  assert (I : (two_to e * two_to (- e) == 1)%Q). { rewrite <- two_to_plus. replace (e + - e)%Z with 0%Z by lia. reflexivity. }
  split; [reflexivity|]. split; [|split; [|split; [|split]]].
  - apply half_even_range.
    + change (inject_Z 0) with 0%Q. assert (X := Qmult_lt_0_compat q (two_to (- e)) P Pn). lra.
    + change (inject_Z (2 ^ 53)) with (inject_Z 2 ^ 53)%Q. 
      assert (X : (q <= two_to (e + 53))%Q).
      { apply Qle_trans with (two_to (ilog q + 1)); [lra|]. apply two_to_mono. unfold e. rewrite exponent_ilog. lia. }
      apply (Qmult_le_r _ _ _ Pn) in X. apply Qle_trans with (1 := X). rewrite two_to_plus.
      assert (Y : (two_to e * two_to 53 * two_to (- e) == two_to 53)%Q) by (rewrite <- (Qmult_1_l (two_to 53)) at 2; rewrite <- I; ring).
      rewrite Y. unfold two_to. change (inject_Z 2) with 2%Q. apply Qle_refl.
  - destruct (Z.eq_dec e (-1074)) as [X|X]; [left; exact X|right].
    assert (Y : e = (ilog q - 52)%Z) by (unfold e in *; rewrite exponent_ilog in *; lia). split; [unfold e in *; rewrite exponent_ilog in *; lia|].
    assert (Z1 : (inject_Z (2 ^ 52) <= q * two_to (- e))%Q).
    { assert (W : (two_to (e + 52) <= q)%Q) by (replace (e + 52)%Z with (ilog q) by lia; exact L).
      apply (Qmult_le_r _ _ _ Pn) in W. apply Qle_trans with (2 := W). rewrite two_to_plus.
      assert (V : (two_to e * two_to 52 * two_to (- e) == two_to 52)%Q) by (rewrite <- (Qmult_1_l (two_to 52)) at 2; rewrite <- I; ring).
      rewrite V. apply Qle_refl. }
    assert (Z2 : (q * two_to (- e) <= inject_Z (Z.max (2 ^ 52) (Qceiling (q * two_to (- e)))))%Q).
    { apply Qle_trans with (1 := Qle_ceiling _). rewrite <- Zle_Qle. lia. }
    exact (proj1 (half_even_range _ _ _ Z1 Z2)).
  - assert (B := half_even_bound (q * two_to (- e))). fold m in B.
    assert (X : (inject_Z m * two_to e - q == (inject_Z m - q * two_to (- e)) * two_to e)%Q).
    { assert (Y : (q == q * (two_to e * two_to (- e)))%Q) by (rewrite I; ring). rewrite Y at 1. ring. }
    rewrite X, Qabs_Qmult. rewrite (Qabs_pos (two_to e)) by lra. apply (Qmult_le_r _ _ _ Pe) in B. rewrite (Qmult_comm (two_to e)). exact B.
  - destruct (Z.eq_dec e (-1074)) as [X|X]; [left; exact X|right].
    replace (e + 52)%Z with (ilog q); [exact L|]. unfold e in *. rewrite exponent_ilog in *. lia.
  - intros H. apply half_even_tie. fold m.
    assert (X : (inject_Z m * two_to e - q == (inject_Z m - q * two_to (- e)) * two_to e)%Q).
    { assert (Y : (q == q * (two_to e * two_to (- e)))%Q) by (rewrite I; ring). rewrite Y at 1. ring. }
    rewrite X, Qabs_Qmult in H. rewrite (Qabs_pos (two_to e)) in H by lra. rewrite (Qmult_comm (two_to e)) in H.
    apply Qmult_inj_r in H; [exact H|]. intros K. rewrite K in Pe. discriminate Pe.
Qed.

Lemma Float64_unit q : (0 <= q)%Q -> (q <= 1)%Q -> (0 <= Float64 q)%Q /\ (Float64 q <= 1)%Q /\ (Qabs (Float64 q - q) <= 1 # (2 ^ 53))%Q.
Proof.
  intros A B. destruct (Qlt_le_dec 0 q) as [P|P].
  - destruct (Float64_spec q P) as (m & e & E & M & _ & K & L & _). destruct (ilog_spec q P) as (Lo & _).
    assert (Ee : (e <= -52)%Z).
    { destruct L as [->|L]; [lia|]. destruct (Z_le_gt_dec e (-52)) as [X|X]; [exact X|exfalso].
      assert (Y := two_to_mono 1 (e + 52) ltac:(lia)). assert (Z1 : (two_to 1 == 2)%Q) by reflexivity. lra. }
    assert (T := two_to_mono e (-52) Ee). assert (T' := two_to_pos e). assert (V : (two_to (-52) == 1 # (2 ^ 52))%Q) by reflexivity.
    assert (K2 : (Qabs (Float64 q - q) <= 1 # 2 ^ 53)%Q).
    { apply Qle_trans with (1 := K). apply Qle_trans with ((1 # 2 ^ 52) * (1 # 2))%Q; [|unfold Qle; cbn; lia].
      apply Qmult_le_r; [reflexivity|]. rewrite <- V. exact T. }
    split; [|split; [|exact K2]].
    + rewrite E. assert (X : (0 <= inject_Z m)%Q) by (change 0%Q with (inject_Z 0); rewrite <- Zle_Qle; lia).
      apply Qmult_le_0_compat; [exact X|lra].
    + destruct (Qlt_le_dec 1 (Float64 q)) as [X|X]; [exfalso|exact X].
      (* a multiple of 2^e greater than 1 is at least 1 + 2^e *)
      rewrite E in X.
      assert (I : (two_to e * two_to (- e) == 1)%Q). { rewrite <- two_to_plus. replace (e + - e)%Z with 0%Z by lia. reflexivity. }
      assert (Pn := two_to_pos (- e)).
      assert (Y : (two_to (- e) < inject_Z m)%Q).
      { apply (Qmult_lt_r _ _ _ Pn) in X. assert (W : (inject_Z m * two_to e * two_to (- e) == inject_Z m)%Q) by (rewrite <- (Qmult_1_r (inject_Z m)) at 2; rewrite <- I; ring). lra. }
      assert (Z1 : (two_to (- e) == inject_Z (2 ^ (- e)))%Q) by (unfold two_to; change 2%Q with (inject_Z 2); rewrite Zpower_Qpower by lia; reflexivity).
      rewrite Z1 in Y. rewrite <- Zlt_Qlt in Y.
      assert (Y2 : (inject_Z (2 ^ (- e) + 1) <= inject_Z m)%Q) by (rewrite <- Zle_Qle; lia).
      apply (Qmult_le_r _ _ _ T') in Y2. rewrite <- E in Y2. rewrite inject_Z_plus, <- Z1 in Y2. change (inject_Z 1) with 1%Q in Y2.
      assert (W : ((two_to (- e) + 1) * two_to e == 1 + two_to e)%Q) by (transitivity (two_to e * two_to (- e) + two_to e)%Q; [ring|rewrite I; reflexivity]). rewrite W in Y2.
      apply Qabs_Qle_condition in K. lra.
  - assert (Z : (q == 0)%Q) by lra. assert (F : Float64 q = 0%Q). { unfold Float64. destruct (Qle_bool q 0) eqn:X; [reflexivity|]. assert (Y : (q <= 0)%Q) by lra. apply Qle_bool_iff in Y. congruence. }
    rewrite F, Z. repeat split; discriminate.
Qed.

Lemma printed_shows v : (0 <= v)%Q -> (v <= 1)%Q -> exists h, shows (printed v) h /\ (0 <= h <= 100)%Z /\ (Qabs (inject_Z h / 100 - v) <= 1 # 200)%Q /\
  ((Qabs (inject_Z h - v * 100) == 1 # 2)%Q -> Z.even h = true).
Proof.
  intros A B. exists (half_even (v * 100)). assert (R : (0 <= half_even (v * 100) <= 100)%Z).
  { apply half_even_range; [change (inject_Z 0) with 0%Q; lra|change (inject_Z 100) with 100%Q; lra]. }
  split; [|split; [exact R|split; [|apply half_even_tie]]].
  - unfold printed. set (h := half_even (v * 100)) in *. exists (h / 100)%Z, (h / 10 mod 10)%Z, (h mod 10)%Z.
    assert (X1 := Z.mod_pos_bound h 10 eq_refl). assert (X2 := Z.mod_pos_bound (h / 10) 10 eq_refl).
    assert (X3 : (0 <= h / 100 < 10)%Z) by (split; [apply Z.div_pos; lia|apply Z.div_lt_upper_bound; lia]).
    split; [lia|]. split; [|reflexivity].
    replace (h / 100)%Z with (h / 10 / 10)%Z by (rewrite Z.div_div by lia; reflexivity).
    assert (Y1 := Z.div_mod h 10 ltac:(lia)). assert (Y2 := Z.div_mod (h / 10) 10 ltac:(lia)). lia.
  - assert (H := half_even_bound (v * 100)). apply Qabs_Qle_condition in H. apply Qabs_Qle_condition.
    unfold Qdiv. change (/ 100)%Q with (1 # 100)%Q. lra.
Qed.
Lemma dig_inj a b : (0 <= a < 10)%Z -> (0 <= b < 10)%Z -> dig a = dig b -> a = b.
Proof.
  intros A B. unfold dig. intros H. injection H as H.
  assert (X : N_of_ascii (ascii_of_N (48 + Z.to_N a)) = N_of_ascii (ascii_of_N (48 + Z.to_N b))).
  { assert (D : forall z, (0 <= z < 10)%Z -> (z = 0 \/ z = 1 \/ z = 2 \/ z = 3 \/ z = 4 \/ z = 5 \/ z = 6 \/ z = 7 \/ z = 8 \/ z = 9)%Z) by lia.
    destruct (D a A) as [?|D1]; [|repeat (destruct D1 as [?|D1]; [|])]; destruct (D b B) as [?|D2]; try (repeat (destruct D2 as [?|D2]; [|]));
      subst; cbn in H |- *; congruence. }
  rewrite !N_ascii_embedding in X by lia. lia.
Qed.
Lemma shows_inj s h h' : shows s h -> shows s h' -> h = h'.
Proof.
  intros (a & b & c & R & E & S) (a' & b' & c' & R' & E' & S'). rewrite S in S'. unfold dig in *. cbn in S'. injection S' as H1 H2 H3.
  assert (a = a') by (apply dig_inj; [lia|lia|unfold dig; cbn; congruence]).
  assert (b = b') by (apply dig_inj; [lia|lia|unfold dig; cbn; congruence]).
  assert (c = c') by (apply dig_inj; [lia|lia|unfold dig; cbn; congruence]). lia.
Qed.

(* ---- flags ---- *)
Lemma arg_spelled1 o : arg_of ("-" ++ name_of o) = Flag (name_of o) None /\ arg_of ("--" ++ name_of o) = Flag (name_of o) None.
Proof. destruct o; split; reflexivity. Qed.
Lemma arg_spelled2 o : arg_of ("-" ++ name_of o ++ "=" ++ value_of o) = Flag (name_of o) (Some (value_of o)) /\
  arg_of ("--" ++ name_of o ++ "=" ++ value_of o) = Flag (name_of o) (Some (value_of o)).
Proof. destruct o; split; reflexivity. Qed.
Lemma arg_plain s : plain s -> arg_of s = Plain.
Proof.
  intros [->|H]; [reflexivity|]. destruct s as [|a [|b t]]; [reflexivity|reflexivity|]. cbn.
  destruct (Ascii.eqb a "-") eqn:E; [|reflexivity]. apply Ascii.eqb_eq in E. subst a. exfalso. exact (H _ eq_refl).
Qed.

Section F.
Variable T : Type.
Variable default_tolerance : T.
Variable parse_tolerance : string -> option T.
Variable help_status : Z.
Notation flag_parse := (flag_parse T parse_tolerance help_status).
Notation set_flag := (set_flag T parse_tolerance).

Lemma flag_one o a st l : spelled o a -> flag_parse st (a ++ l) = match set_flag st (name_of o) (value_of o) with Some st' => flag_parse st' l | None => Datatypes.inl 2%Z end.
Proof.
  intros S. assert (N : (String.eqb (name_of o) "validator" || String.eqb (name_of o) "tolerance") = true) by (destruct o; reflexivity).
  inversion S as [o' E1 E2|o' E1 E2|o' E1 E2|o' E1 E2]; subst o' a; cbn [List.app VcModel.flag_parse].
  - rewrite (proj1 (arg_spelled1 o)), N. reflexivity.
  - rewrite (proj2 (arg_spelled1 o)), N. reflexivity.
  - rewrite (proj1 (arg_spelled2 o)), N. reflexivity.
  - rewrite (proj2 (arg_spelled2 o)), N. reflexivity.
Qed.

Definition readable_all (os : list option_) : Prop := forall t, In (Tolerance t) os -> parse_tolerance t <> None.
Lemma flags_read os a : all_spelled os a -> forall st l, readable_all os ->
  exists t, flag_parse st (a ++ l) = flag_parse {| validator := last_validator os (validator T st); tolerance := t |} l /\
    match last_tolerance os None with None => t = tolerance T st | Some x => parse_tolerance x = Some t end.
Proof.
  induction 1 as [|o os a b S A IH]; intros st l R.
  - exists (tolerance T st). split; [destruct st; reflexivity|reflexivity].
  - rewrite <- app_assoc. rewrite (flag_one o a st (b ++ l) S).
    assert (R' : readable_all os) by (intros t I; apply R; right; exact I).
    assert (Lt : forall os' x, last_tolerance os' (Some x) = match last_tolerance os' None with None => Some x | y => y end).
    { clear. intros os'. induction os' as [|[v|t] os' IHo]; intros x; cbn; [reflexivity|apply IHo|]. rewrite (IHo t). destruct (last_tolerance os' None); reflexivity. }
    destruct o as [v|t]; unfold VcModel.set_flag; cbn [name_of value_of String.eqb Ascii.eqb Bool.eqb last_validator last_tolerance].
    + destruct (IH {| validator := v; tolerance := tolerance T st |} l R') as (t & E & M). exists t. split; [exact E|exact M].
    + destruct (parse_tolerance t) as [tv|] eqn:P; [|exfalso; exact (R t (or_introl eq_refl) P)].
      destruct (IH {| validator := validator T st; tolerance := tv |} l R') as (t' & E & M). exists t'. split; [exact E|].
      rewrite (Lt os t). destruct (last_tolerance os None); [exact M|]. cbn in M. subst t'. exact P.
Qed.
End F.

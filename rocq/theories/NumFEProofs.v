From Coq Require Import List Arith NArith ZArith Bool Reals Lra Lia.
From Flocq Require Import Core IEEE754.BinarySingleNaN Relative Sterbenz Plus_error.
From Verif Require Import NumModel NumSpec NumProofs NumCmpProofs.
Import ListNotations.
Local Open Scope R_scope.
#[local] Existing Instance vexp.
Notation fmt := (generic_format radix2 fexp).

Lemma SN_pos : 0 < SN. Proof. apply bpow_gt_0. Qed.
Lemma SN_eq : SN = bpow radix2 (-1022). Proof. reflexivity. Qed.
Lemma SN_M : SN < M. Proof. apply bpow_lt. lia. Qed.
Lemma M_eq : M = bpow radix2 1024. Proof. reflexivity. Qed.
#[local] Opaque max_finite_bound SN.

Lemma Req_bool_sym x y : Req_bool x y = Req_bool y x.
Proof. destruct (Req_bool_spec x y), (Req_bool_spec y x); auto; congruence. Qed.

Lemma FE_refl T A : FE T A A = true.
Proof. unfold FE. rewrite Req_bool_true by auto. reflexivity. Qed.

Lemma FE_sym T A B : FE T A B = FE T B A.
Proof.
  unfold FE. rewrite (Rabs_minus_sym B A), (Req_bool_sym A B), (Rmax_comm (Rabs A)).
  rewrite (orb_comm (Req_bool A 0)). reflexivity.
Qed.

Lemma Rle_bool_mono d x y : x <= y -> Rle_bool d x = true -> Rle_bool d y = true.
Proof. intros H. destruct (Rle_bool_spec d x); [|discriminate]. intros _. apply Rle_bool_true. lra. Qed.

Lemma FE_mono T T' A B : T <= T' -> FE T A B = true -> FE T' A B = true.
Proof.
  intros HT. unfold FE. destruct (Req_bool A B); [reflexivity|]. cbn [orb].
  set (d := clamp (nearest (Rabs (B - A)))).
  assert (M2 : clamp (nearest (3 / 2 * T)) <= clamp (nearest (3 / 2 * T'))) by (apply clamp_le, nearest_le; lra).
  pose proof SN_pos as SP.
  assert (M3 : clamp (nearest (T * SN)) <= clamp (nearest (T' * SN))) by (apply clamp_le, nearest_le; nra).
  rewrite !orb_true_iff. intros [H|H].
  - left. eapply Rle_bool_mono; eauto.
  - right. destruct (_ || _ || _); eapply Rle_bool_mono; eauto.
Qed.

Lemma FE_abs T A B : Rabs (B - A) <= 3 / 2 * T -> FE T A B = true.
Proof.
  intros H. unfold FE. rewrite (Rle_bool_true (clamp _) (clamp (nearest (3 / 2 * T)))).
  - rewrite orb_true_r. reflexivity.
  - apply clamp_le, nearest_le, H.
Qed.

Lemma nearest_fmt x : fmt x -> nearest x = x.
Proof. intros. apply round_generic; auto with typeclass_instances. Qed.

Lemma sterbenz_abs A B : fmt A -> fmt B -> Rabs (B - A) <= 1 / 2 * Rabs A -> fmt (B - A).
Proof.
  intros FA FB H.
  destruct (Rle_dec 0 A) as [P|P].
  - rewrite (Rabs_pos_eq A) in H by auto. apply Rabs_le_inv in H. apply sterbenz; auto with typeclass_instances. lra.
  - rewrite (Rabs_left A) in H by lra. apply Rabs_le_inv in H.
    replace (B - A) with (- ((- B) - (- A))) by ring. apply generic_format_opp.
    apply sterbenz; auto using generic_format_opp with typeclass_instances. lra.
Qed.
Lemma sterbenz_max A B : fmt A -> fmt B -> Rabs (B - A) <= 1 / 2 * Rmax (Rabs A) (Rabs B) -> fmt (B - A).
Proof.
  intros FA FB H. destruct (Rle_dec (Rabs A) (Rabs B)) as [Q|Q].
  - rewrite Rmax_right in H by auto. rewrite Rabs_minus_sym in H.
    replace (B - A) with (- (A - B)) by ring. apply generic_format_opp. apply sterbenz_abs; auto.
  - rewrite Rmax_left in H by lra. apply sterbenz_abs; auto.
Qed.

Lemma FE_rel T A B : fmt A -> fmt B -> fmt T -> Rabs A < M -> Rabs B < M ->
  SN <= T <= 1 / 2 -> Rabs (B - A) <= T * Rmax (Rabs A) (Rabs B) -> FE T A B = true.
Proof.
  intros FA FB FT BA BB [T1 T2] H. pose proof SN_pos as SP. pose proof M_pos as MP.
  set (m := Rmax (Rabs A) (Rabs B)) in *.
  assert (Hm : 0 <= m) by (pose proof (Rmax_l (Rabs A) (Rabs B)); pose proof (Rabs_pos A); unfold m; lra).
  assert (HmM : m < M) by (unfold m; apply Rmax_lub_lt; auto).
  set (D := Rabs (B - A)) in *.
  assert (FD : fmt D) by (apply generic_format_abs, sterbenz_max; auto; fold D; fold m; nra).
  assert (HD0 : 0 <= D) by apply Rabs_pos.
  assert (HDM : D < M) by nra.
  assert (ED : clamp (nearest D) = D) by (rewrite nearest_fmt by auto; apply clamp_small; rewrite Rabs_pos_eq; auto).
  destruct (Rle_dec D (3 / 2 * T)) as [Q|Q]; [apply FE_abs; auto|].
  unfold FE. fold D. rewrite ED. fold m.
  destruct (Req_bool_spec A B) as [E|E]; [reflexivity|]. cbn [orb].
  apply orb_true_iff. right.
  destruct (Req_bool_spec A 0) as [A0|A0].
  { exfalso. assert (m = D). { unfold m, D. rewrite A0, Rminus_0_r, Rabs_R0. apply Rmax_right. apply Rabs_pos. }
    assert (0 < D) by lra. nra. }
  destruct (Req_bool_spec B 0) as [B0|B0].
  { exfalso. assert (m = D). { unfold m, D. rewrite B0, Rminus_0_l, Rabs_R0, Rabs_Ropp. apply Rmax_left. apply Rabs_pos. }
    assert (0 < D) by lra. nra. }
  destruct (Rlt_bool_spec D SN) as [S|S]; [lra|]. cbn [orb].
  unfold quot. rewrite Rlt_bool_true by auto. apply Rle_bool_true.
  assert (0 < m) by (apply Rabs_pos_lt in A0; pose proof (Rmax_l (Rabs A) (Rabs B)); unfold m; lra).
  assert (HQ : D / m <= T).
  { apply Rmult_le_reg_r with m; auto. unfold Rdiv. rewrite Rmult_assoc, Rinv_l by lra. lra. }
  replace T with (clamp (nearest T)).
  - apply clamp_le, nearest_le, HQ.
  - rewrite nearest_fmt by auto. apply clamp_small. rewrite Rabs_pos_eq by lra.
    apply Rle_lt_trans with 1; [lra|]. rewrite M_eq. change 1 with (bpow radix2 0). apply bpow_lt. lia.
Qed.

Definition u : R := / 9007199254740992.  (* 2^-53 *)
Lemma u_eq : / 2 * bpow radix2 (-53 + 1) = u.
Proof. unfold u. change (bpow radix2 (-53 + 1)) with (/ IZR (2 ^ 52)). change (2 ^ 52)%Z with 4503599627370496%Z. lra. Qed.
Lemma rel_err x : SN <= x -> x * (1 - u) <= nearest x <= x * (1 + u).
Proof.
  intros H. pose proof SN_pos.
  pose proof (relative_error_N_FLT radix2 (-1074) 53 ltac:(reflexivity) (fun x => negb (Z.even x)) x) as G.
  rewrite Rabs_pos_eq in G by lra. change (-1074 + 53 - 1)%Z with (-1022)%Z in G. rewrite <- SN_eq in G. specialize (G H).
  change (/ 2 * bpow radix2 (- (53) + 1)) with (/ 2 * bpow radix2 (-53 + 1)) in G. rewrite u_eq in G. apply Rabs_le_inv in G. unfold nearest. lra.
Qed.

Lemma inv_u x y : 0 <= x -> x * (1 - u) <= y -> x <= y * (1 + 2 * u).
Proof.
  intros X H. assert (U0 : 0 < u) by (unfold u; lra). assert (U1 : u < / 100) by (unfold u; lra).
  assert (x * (1 - u) * (1 + 2 * u) <= y * (1 + 2 * u)) by (apply Rmult_le_compat_r; lra).
  assert (x * 1 <= x * ((1 - u) * (1 + 2 * u))) by (apply Rmult_le_compat_l; nra). lra.
Qed.
Lemma sq_u x : 0 <= x -> x * (1 + 2 * u) * (1 + 2 * u) <= x * (1 + 8 * u).
Proof.
  intros X. assert (U0 : 0 < u) by (unfold u; lra). assert (U1 : u < / 100) by (unfold u; lra).
  rewrite Rmult_assoc. apply Rmult_le_compat_l; auto. nra.
Qed.

Lemma FE_sound T A B : SN <= T -> T <= bpow radix2 1000 -> FE T A B = true ->
  Rabs (B - A) <= (1 + 8 * u) * Rmax (3 / 2 * T) (T * Rmax (Rabs A) (Rabs B)).
Proof.
  intros T1 T2. pose proof SN_pos as SP. pose proof M_pos as MP.
  assert (TM : 2 * T < M).
  { apply Rle_lt_trans with (bpow radix2 1001).
    - change 1001%Z with (1 + 1000)%Z. rewrite bpow_plus. change (bpow radix2 1) with 2. lra.
    - rewrite M_eq. apply bpow_lt. lia. }
  assert (U0 : 0 < u) by (unfold u; lra). assert (U1 : u < / 100) by (unfold u; lra).
  set (m := Rmax (Rabs A) (Rabs B)).
  assert (Hm : 0 <= m) by (pose proof (Rmax_l (Rabs A) (Rabs B)); pose proof (Rabs_pos A); unfold m; lra).
  set (D := Rabs (B - A)). assert (HD0 : 0 <= D) by apply Rabs_pos.
  pose proof (Rmax_l (3 / 2 * T) (T * m)) as RL. pose proof (Rmax_r (3 / 2 * T) (T * m)) as RR.
  destruct (Rlt_dec D SN) as [S|S]; [intros _; nra|].
  pose proof (rel_err D ltac:(lra)) as RD.
  assert (G2 : clamp (nearest D) <= clamp (nearest (3 / 2 * T)) -> D <= (1 + 8 * u) * Rmax (3 / 2 * T) (T * m)).
  { intros H. pose proof (rel_err (3 / 2 * T) ltac:(lra)) as RT.
    assert (NT : nearest (3 / 2 * T) < M) by nra.
    rewrite (clamp_small (nearest (3 / 2 * T))) in H by (rewrite Rabs_pos_eq; auto; apply nearest_ge0; lra).
    assert (ND : nearest D < M).
    { destruct (Rlt_dec (nearest D) M); auto. exfalso. unfold clamp in H. rewrite Rle_bool_true in H by lra. lra. }
    rewrite (clamp_small (nearest D)) in H by (rewrite Rabs_pos_eq; auto; apply nearest_ge0; lra).
    assert (D * (1 - u) <= 3 / 2 * T * (1 + u)) by lra.
    assert (D <= 3 / 2 * T * (1 + 8 * u)) by nra. nra. }
  unfold FE. fold D. fold m.
  destruct (Req_bool_spec A B) as [E|E].
  { intros _. unfold D. rewrite E. replace (B - B) with 0 by ring. rewrite Rabs_R0. nra. }
  cbn [orb]. rewrite orb_true_iff. intros [H|H].
  - apply G2. destruct (Rle_bool_spec (clamp (nearest D)) (clamp (nearest (3 / 2 * T)))); auto. discriminate.
  - destruct (_ || _ || _) eqn:EB.
    + apply G2. destruct (Rle_bool_spec (clamp (nearest D)) (clamp (nearest (T * SN)))) as [Q|Q]; [|discriminate].
      eapply Rle_trans; [exact Q|]. apply clamp_le, nearest_le.
      assert (SN < 1) by (rewrite SN_eq; change 1 with (bpow radix2 0); apply bpow_lt; lia). nra.
    + apply orb_false_iff in EB. destruct EB as [EB _]. apply orb_false_iff in EB. destruct EB as [EA _].
      assert (A0 : A <> 0) by (destruct (Req_bool_spec A 0); [discriminate|auto]).
      assert (0 < m) by (apply Rabs_pos_lt in A0; pose proof (Rmax_l (Rabs A) (Rabs B)); unfold m; lra).
      unfold quot in H. destruct (Rlt_bool_spec (clamp (nearest D)) M) as [L|L].
      2:{ destruct (Rle_bool_spec M T); [lra|discriminate]. }
      assert (ND : nearest D < M).
      { destruct (Rlt_dec (nearest D) M); auto. exfalso. unfold clamp in L. rewrite Rle_bool_true in L by lra. lra. }
      rewrite (clamp_small (nearest D)) in H by (rewrite Rabs_pos_eq; auto; apply nearest_ge0; lra).
      set (x := nearest D / m) in *.
      destruct (Rle_bool_spec (clamp (nearest x)) T) as [Q|Q]; [|discriminate].
      assert (ND0 : 0 <= nearest D) by (apply nearest_ge0; lra).
      assert (X0 : 0 <= x) by (unfold x, Rdiv; apply Rmult_le_pos; auto; left; apply Rinv_0_lt_compat; auto).
      assert (NX : nearest x < M).
      { destruct (Rlt_dec (nearest x) M); auto. exfalso. unfold clamp in Q. rewrite Rle_bool_true in Q by lra. lra. }
      rewrite clamp_small in Q by (rewrite Rabs_pos_eq; auto; apply nearest_ge0; auto).
      assert (HX : x * (1 - u) <= T).
      { destruct (Rlt_dec x SN); [nra|]. pose proof (rel_err x ltac:(lra)). lra. }
      assert (EX : nearest D = x * m) by (unfold x, Rdiv; rewrite Rmult_assoc, Rinv_l by lra; ring).
      assert (H1 : x <= T * (1 + 2 * u)) by (apply inv_u; auto).
      assert (H2 : nearest D <= T * m * (1 + 2 * u)).
      { rewrite EX. replace (T * m * (1 + 2 * u)) with (T * (1 + 2 * u) * m) by ring. apply Rmult_le_compat_r; auto. }
      assert (H3 : D <= nearest D * (1 + 2 * u)) by (apply inv_u; lra).
      assert (TM0 : 0 <= T * m) by (apply Rmult_le_pos; lra).
      assert (H5 : nearest D * (1 + 2 * u) <= T * m * (1 + 2 * u) * (1 + 2 * u)) by (apply Rmult_le_compat_r; lra).
      pose proof (sq_u (T * m) TM0) as H6.
      assert (H7 : T * m * (1 + 8 * u) <= Rmax (3 / 2 * T) (T * m) * (1 + 8 * u)) by (apply Rmult_le_compat_r; lra). lra.
Qed.

Lemma FE_zero A B : fmt A -> fmt B -> Rabs A < M -> Rabs B < M -> FE 0 A B = true -> A = B.
Proof.
  intros FA FB BA BB. unfold FE. destruct (Req_bool_spec A B) as [E|E]; [auto|]. cbn [orb].
  pose proof SN_pos as SP. pose proof M_pos as MP.
  rewrite Rmult_0_r, Rmult_0_l, nearest_0. rewrite (clamp_small 0) by (rewrite Rabs_R0; auto).
  set (D := Rabs (B - A)).
  assert (ND : Rabs (nearest (B - A)) = nearest D) by apply nearest_abs.
  assert (NZ : nearest (B - A) <> 0).
  { apply round_plus_neq_0; auto using generic_format_opp with typeclass_instances. lra. }
  assert (NP : 0 < nearest D) by (rewrite <- ND; apply Rabs_pos_lt; auto).
  assert (CP : 0 < clamp (nearest D)).
  { unfold clamp. destruct (Rle_bool_spec M (nearest D)); auto. destruct (Rle_bool_spec (nearest D) (-M)); lra. }
  rewrite (Rle_bool_false (clamp (nearest D)) 0) by auto. cbn [orb].
  destruct (_ || _); [discriminate|].
  set (m := Rmax (Rabs A) (Rabs B)).
  assert (LB : m * bpow radix2 (-54) <= nearest D).
  { assert (HU : forall x, Rabs x * bpow radix2 (-54) <= ulp radix2 fexp (x / IZR radix2)).
    { intros x. pose proof (ulp_FLT_gt radix2 (-1074) 53 (x / IZR radix2)) as G. unfold Rdiv in *. rewrite Rabs_mult in G.
      change (IZR radix2) with 2 in *. rewrite (Rabs_pos_eq (/ 2)) in G by lra.
      change (-54)%Z with (-1 + - (53))%Z. rewrite bpow_plus. change (bpow radix2 (-1)) with (/ 2). lra. }
    assert (G1 : ulp radix2 fexp (B / IZR radix2) <= nearest D).
    { rewrite <- ND. apply (round_plus_ge_ulp radix2 fexp ZnearestE B (- A)); auto using generic_format_opp. }
    assert (G2 : ulp radix2 fexp (A / IZR radix2) <= nearest D).
    { unfold D. rewrite Rabs_minus_sym, <- nearest_abs. apply (round_plus_ge_ulp radix2 fexp ZnearestE A (- B)); auto using generic_format_opp.
      intros Q. apply NZ. replace (B - A) with (- (A - B)) by ring. rewrite nearest_opp. unfold nearest, Rminus. rewrite Q. ring. }
    pose proof (HU A). pose proof (HU B). unfold m, Rmax. destruct (Rle_dec _ _); lra. }
  unfold quot. destruct (Rlt_bool_spec (clamp (nearest D)) M) as [L|L].
  2:{ rewrite Rle_bool_false by auto. discriminate. }
  assert (NDM : nearest D < M).
  { destruct (Rlt_dec (nearest D) M); auto. exfalso. unfold clamp in L. rewrite Rle_bool_true in L by lra. lra. }
  rewrite (clamp_small (nearest D)) by (rewrite Rabs_pos_eq; lra).
  assert (m0 : 0 < m).
  { unfold m. destruct (Req_dec A 0) as [A0|A0]; [|apply Rabs_pos_lt in A0; pose proof (Rmax_l (Rabs A) (Rabs B)); lra].
    assert (B <> 0) by congruence. apply Rabs_pos_lt in H. pose proof (Rmax_r (Rabs A) (Rabs B)). lra. }
  assert (X1 : bpow radix2 (-54) <= nearest D / m).
  { apply Rmult_le_reg_r with m; auto. unfold Rdiv. rewrite Rmult_assoc, Rinv_l by lra. lra. }
  assert (X2 : bpow radix2 (-54) <= nearest (nearest D / m)).
  { rewrite <- (nearest_fmt (bpow radix2 (-54))); [apply nearest_le; auto|].
    apply generic_format_bpow. unfold FLT_exp; lia. }
  pose proof (bpow_gt_0 radix2 (-54)) as BP.
  rewrite Rle_bool_false; [discriminate|].
  unfold clamp. destruct (Rle_bool_spec M (nearest (nearest D / m))); auto. destruct (Rle_bool_spec (nearest (nearest D / m)) (-M)); lra.
Qed.

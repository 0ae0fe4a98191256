From Coq Require Import List Arith NArith ZArith Bool Reals Lra Lia.
From Flocq Require Import Core IEEE754.BinarySingleNaN Relative Sterbenz.
From Verif Require Import NumModel NumSpec NumProofs.
Import ListNotations.
Local Open Scope R_scope.

Notation M := max_finite_bound.
Lemma M_pos : 0 < M. Proof. apply bpow_gt_0. Qed.
#[local] Opaque max_finite_bound.

(* value of a float with infinities as +-2^1024 *)
Definition V (f : float64) : R :=
  match f with B754_infinity s => if s then - M else M | _ => B2R f end.
Definition clamp (r : R) : R := if Rle_bool M r then M else if Rle_bool r (- M) then - M else r.

Lemma clamp_le x y : x <= y -> clamp x <= clamp y.
Proof.
  pose proof M_pos. intros. unfold clamp.
  destruct (Rle_bool_spec M x), (Rle_bool_spec M y), (Rle_bool_spec x (-M)), (Rle_bool_spec y (-M)); lra.
Qed.
Lemma clamp_small x : Rabs x < M -> clamp x = x.
Proof.
  intros H. apply Rabs_lt_inv in H. unfold clamp. destruct (Rle_bool_spec M x); [lra|]. destruct (Rle_bool_spec x (-M)); lra.
Qed.
Lemma clamp_opp x : clamp (- x) = - clamp x.
Proof.
  pose proof M_pos. unfold clamp.
  destruct (Rle_bool_spec M x), (Rle_bool_spec M (- x)), (Rle_bool_spec x (-M)), (Rle_bool_spec (- x) (-M)); lra.
Qed.
Lemma clamp_ge0 x : 0 <= x -> 0 <= clamp x.
Proof. pose proof M_pos. intros. unfold clamp. destruct (Rle_bool_spec M x), (Rle_bool_spec x (-M)); lra. Qed.
Lemma clamp_abs x : Rabs (clamp x) = clamp (Rabs x).
Proof.
  destruct (Rle_dec 0 x) as [H|H].
  - rewrite !Rabs_pos_eq; auto. apply clamp_ge0; auto.
  - rewrite (Rabs_left x) by lra. rewrite clamp_opp, <- Rabs_Ropp, <- clamp_opp. apply Rabs_pos_eq. apply clamp_ge0. lra.
Qed.

Lemma B2R_lt (f : float64) : Rabs (B2R f) < M.
Proof. apply abs_B2R_lt_emax. Qed.
Lemma V_finite f : is_finite f = true -> V f = B2R f.
Proof. destruct f; cbn; auto. discriminate. Qed.
Lemma V_nearest (f : float64) : nearest (B2R f) = B2R f.
Proof. apply round_generic; auto with typeclass_instances. apply (generic_format_B2R prec emax f). Qed.

Lemma V_leb x y : is_nan x = false -> is_nan y = false -> Bleb x y = Rle_bool (V x) (V y).
Proof.
  pose proof M_pos as MP.
  assert (F : forall s f, is_finite f = true -> Bleb (B754_infinity s) f = Rle_bool (if s : bool then - M else M) (V f) /\
                                           Bleb f (B754_infinity s) = Rle_bool (V f) (if s then - M else M)).
  { intros s f Hf. rewrite (V_finite f Hf). pose proof (B2R_lt f) as HL. apply Rabs_lt_inv in HL.
    destruct f as [sf|sf| |sf m e Hb]; try discriminate; cbn [Bleb SpecFloat.SFleb SpecFloat.SFcompare B2SF]; split.
    all: destruct s; try (rewrite Rle_bool_true; [reflexivity|lra]); try (rewrite Rle_bool_false; [reflexivity|lra]). }
  destruct (is_finite x) eqn:FX; destruct (is_finite y) eqn:FY.
  - intros _ _. rewrite !V_finite by auto. apply Bleb_correct; auto.
  - destruct y as [|s| |]; try discriminate. intros _ _. apply (F s x FX).
  - destruct x as [|s| |]; try discriminate. intros _ _. apply (F s y FY).
  - destruct x as [|s| |], y as [|s'| |]; try discriminate. intros _ _. destruct s, s'; cbn; symmetry; try (apply Rle_bool_true; lra); apply Rle_bool_false; lra.
Qed.

(* results of an operation *)
Lemma V_of_result (f : float64) (r : R) (s : bool) :
  (if Rlt_bool (Rabs (nearest r)) M then B2R f = nearest r /\ is_finite f = true else B2SF f = SpecFloat.S754_infinity s) ->
  (Rabs (nearest r) >= M -> s = Rlt_bool r 0) ->
  is_nan f = false /\ V f = clamp (nearest r).
Proof.
  pose proof M_pos as MP. intros H HS. destruct (Rlt_bool_spec (Rabs (nearest r)) M) as [HL|HL].
  - destruct H as [H1 H2]. rewrite V_finite, clamp_small by auto. split; auto. destruct f; auto; discriminate.
  - assert (f = B754_infinity s) as -> by (apply B2SF_inj; exact H). split; auto. cbn.
    specialize (HS (Rle_ge _ _ HL)). subst s. unfold clamp.
    destruct (Rlt_bool_spec r 0) as [Q|Q].
    + assert (nearest r <= 0) by (rewrite <- nearest_0; apply nearest_le; lra).
      rewrite Rabs_left1 in HL by auto. destruct (Rle_bool_spec M (nearest r)); [lra|]. destruct (Rle_bool_spec (nearest r) (- M)); lra.
    + pose proof (nearest_ge0 r Q). rewrite Rabs_pos_eq in HL by auto. destruct (Rle_bool_spec M (nearest r)); lra.
Qed.

Lemma Bsign_neg (f : float64) : B2R f < 0 -> Bsign f = true.
Proof.
  destruct f as [s|s| |s m e H]; cbn; try lra. destruct s; auto. intros Q. exfalso.
  assert (0 <= F2R (Float radix2 (Z.pos m) e)) by (apply F2R_ge_0; cbn; lia). cbn in *. lra.
Qed.
Lemma Bsign_pos (f : float64) : 0 < B2R f -> Bsign f = false.
Proof.
  destruct f as [s|s| |s m e H]; cbn; try lra. destruct s; auto. intros Q. exfalso.
  assert (F2R (Float radix2 (Z.neg m) e) <= 0) by (apply F2R_le_0; cbn; lia). cbn in *. lra.
Qed.

Lemma V_mult x y : is_finite x = true -> is_finite y = true ->
  is_nan (Bmult mode_NE x y) = false /\ V (Bmult mode_NE x y) = clamp (nearest (B2R x * B2R y)).
Proof.
  intros FX FY. apply (V_of_result _ _ (xorb (Bsign x) (Bsign y))).
  - pose proof (Bmult_correct prec emax Hprec Hemax mode_NE x y) as G. rewrite rnd_eq in G. change (bpow radix2 emax) with M in G.
    destruct (Rlt_bool _ _); [|exact G]. destruct G as (G1 & G2 & _). rewrite G2, FX, FY. auto.
  - intros HB. assert (NZ : B2R x * B2R y <> 0).
    { intros Q. rewrite Q, nearest_0, Rabs_R0 in HB. pose proof M_pos. lra. }
    destruct (Rtotal_order (B2R x) 0) as [X|[X|X]]; [rewrite (Bsign_neg x X)|rewrite X in NZ; lra|rewrite (Bsign_pos x X)];
    (destruct (Rtotal_order (B2R y) 0) as [Y|[Y|Y]]; [rewrite (Bsign_neg y Y)|rewrite Y in NZ; lra|rewrite (Bsign_pos y Y)]); cbn; symmetry.
    + apply Rlt_bool_false. nra.
    + apply Rlt_bool_true. nra.
    + apply Rlt_bool_true. nra.
    + apply Rlt_bool_false. nra.
Qed.

Lemma V_div x y : is_finite x = true -> is_finite y = true -> B2R y <> 0 ->
  is_nan (Bdiv mode_NE x y) = false /\ V (Bdiv mode_NE x y) = clamp (nearest (B2R x / B2R y)).
Proof.
  intros FX FY NY. apply (V_of_result _ _ (xorb (Bsign x) (Bsign y))).
  - pose proof (Bdiv_correct prec emax Hprec Hemax mode_NE x y NY) as G. rewrite rnd_eq in G. change (bpow radix2 emax) with M in G.
    destruct (Rlt_bool _ _); [|exact G]. destruct G as (G1 & G2 & _). rewrite G2, FX. auto.
  - intros HB. assert (NX : B2R x <> 0).
    { intros Q. unfold Rdiv in HB. rewrite Q, Rmult_0_l, nearest_0, Rabs_R0 in HB. pose proof M_pos. lra. }
    assert (I1 : forall u, 0 < u -> 0 < / u) by (intros; apply Rinv_0_lt_compat; auto).
    assert (I2 : forall u, u < 0 -> / u < 0) by (intros; apply Rinv_lt_0_compat; auto).
    unfold Rdiv.
    destruct (Rtotal_order (B2R x) 0) as [X|[X|X]]; [rewrite (Bsign_neg x X)|lra|rewrite (Bsign_pos x X)];
    (destruct (Rtotal_order (B2R y) 0) as [Y|[Y|Y]]; [rewrite (Bsign_neg y Y); apply I2 in Y|lra|rewrite (Bsign_pos y Y); apply I1 in Y]); cbn; symmetry.
    + apply Rlt_bool_false. nra.
    + apply Rlt_bool_true. nra.
    + apply Rlt_bool_true. nra.
    + apply Rlt_bool_false. nra.
Qed.

Lemma V_minus x y : is_finite x = true -> is_finite y = true ->
  is_nan (Bminus mode_NE x y) = false /\ V (Bminus mode_NE x y) = clamp (nearest (B2R x - B2R y)).
Proof.
  intros FX FY. pose proof (Bminus_correct prec emax Hprec Hemax mode_NE x y FX FY) as G. rewrite rnd_eq in G. change (bpow radix2 emax) with M in G.
  apply (V_of_result _ _ (Bsign x)).
  - destruct (Rlt_bool _ _); [|exact (proj1 G)]. destruct G as (G1 & G2 & _). auto.
  - intros HB. rewrite Rlt_bool_false in G by lra. destruct G as [_ G].
    destruct (Bsign x) eqn:SX; symmetry; [apply Rlt_bool_true|apply Rlt_bool_false].
    + assert (~ 0 < B2R x) by (intros Q; apply Bsign_pos in Q; congruence).
      assert (~ B2R y < 0) by (intros Q; apply Bsign_neg in Q; rewrite Q in G; discriminate).
      destruct (Req_dec (B2R x - B2R y) 0) as [E|]; [|lra]. rewrite E, nearest_0, Rabs_R0 in HB. pose proof M_pos. lra.
    + assert (~ B2R x < 0) by (intros Q; apply Bsign_neg in Q; congruence).
      assert (~ 0 < B2R y) by (intros Q; apply Bsign_pos in Q; rewrite Q in G; discriminate). lra.
Qed.

Lemma V_abs x : V (Babs x) = Rabs (V x).
Proof.
  destruct x as [s|s| |s m e H]; cbn.
  - symmetry; apply Rabs_R0.
  - pose proof M_pos. destruct s; [rewrite Rabs_Ropp|]; rewrite Rabs_pos_eq; lra.
  - symmetry; apply Rabs_R0.
  - rewrite <- F2R_Zabs. destruct s; reflexivity.
Qed.

Definition diff (a b : float64) : float64 := Babs (Bminus mode_NE b a).
Lemma V_diff a b : is_finite a = true -> is_finite b = true ->
  is_nan (diff a b) = false /\ V (diff a b) = clamp (nearest (Rabs (B2R b - B2R a))).
Proof.
  intros FA FB. unfold diff. destruct (V_minus b a FB FA) as [H1 H2]. rewrite is_nan_Babs, V_abs, H2, clamp_abs, nearest_abs. auto.
Qed.

Lemma V_15 : is_finite one_and_half = true /\ B2R one_and_half = 3 / 2.
Proof. split; [reflexivity|]. vm_compute. lra. Qed.
Lemma V_SN : is_finite SmallestNormal = true /\ B2R SmallestNormal = bpow radix2 (-1022).
Proof.
  split; [reflexivity|].
  assert (B2SF SmallestNormal = SpecFloat.S754_finite false 4503599627370496 (-1074)) as E by (vm_compute; reflexivity).
  rewrite <- SF2R_B2SF, E. cbn [SF2R cond_Zopp].
  change (Z.pos 4503599627370496) with (2 ^ 52)%Z. unfold F2R. cbn [Fnum Fexp].
  change (IZR (2 ^ 52)) with (IZR (Zpower radix2 52)). rewrite IZR_Zpower by lia. rewrite <- bpow_plus. reflexivity.
Qed.

Lemma V_ltb x y : is_nan x = false -> is_nan y = false -> Bltb x y = Rlt_bool (V x) (V y).
Proof.
  intros NX NY.
  assert (Bltb x y = negb (Bleb y x)) as ->.
  { unfold Bltb, Bleb, SpecFloat.SFltb, SpecFloat.SFleb.
    pose proof (Bcompare_swap prec emax x y) as S. unfold Bcompare in S. rewrite S.
    destruct (SpecFloat.SFcompare (B2SF x) (B2SF y)) as [[]|] eqn:E; auto.
    exfalso. destruct x as [sx|[]| |[] mx ex hx], y as [sy|[]| |[] my ey hy]; cbn in E; try discriminate;
    destruct (Z.compare ex ey); try discriminate; destruct (Pos.compare_cont _ _ _); discriminate. }
  rewrite V_leb by auto. destruct (Rle_bool_spec (V y) (V x)); symmetry; [apply Rlt_bool_false|apply Rlt_bool_true]; auto.
Qed.

Lemma nan_finite (x : float64) : is_finite x = true -> is_nan x = false.
Proof. destruct x; auto; discriminate. Qed.

Lemma V_fmax a b : is_finite a = true -> is_finite b = true ->
  is_finite (fmax (Babs a) (Babs b)) = true /\ B2R (fmax (Babs a) (Babs b)) = Rmax (Rabs (B2R a)) (Rabs (B2R b)).
Proof.
  intros FA FB. unfold fmax. rewrite Bleb_correct by (rewrite is_finite_Babs; auto). rewrite !B2R_Babs.
  destruct (Rle_bool_spec (Rabs (B2R a)) (Rabs (B2R b))) as [H|H].
  - rewrite is_finite_Babs, B2R_Babs. split; auto. symmetry; apply Rmax_right; auto.
  - rewrite is_finite_Babs, B2R_Babs. split; auto. symmetry; apply Rmax_left; lra.
Qed.

Definition SN : R := bpow radix2 (-1022).
Definition quot (d m : R) : R := if Rlt_bool d M then clamp (nearest (d / m)) else M.
Definition FE (T A B : R) : bool :=
  let d := clamp (nearest (Rabs (B - A))) in
  (Req_bool A B || Rle_bool d (clamp (nearest (3 / 2 * T))) ||
   (if Req_bool A 0 || Req_bool B 0 || Rlt_bool d SN then Rle_bool d (clamp (nearest (T * SN)))
    else Rle_bool (quot d (Rmax (Rabs A) (Rabs B))) T))%bool.

Lemma V_lt_M x : V x < M -> is_nan x = false -> 0 <= V x -> is_finite x = true /\ B2R x = V x.
Proof. pose proof M_pos. destruct x as [|[]| |]; cbn; try lra; try discriminate; auto. Qed.
Lemma V_ge_M x : M <= V x -> x = B754_infinity false.
Proof.
  pose proof M_pos. destruct (is_finite x) eqn:F.
  - rewrite V_finite by auto. intros. pose proof (B2R_lt x) as L. apply Rabs_lt_inv in L. lra.
  - destruct x as [|[]| |]; try discriminate; cbn; try lra. reflexivity.
Qed.

Lemma float_equals_FE t a b : is_finite t = true -> is_finite a = true -> is_finite b = true ->
  float_equals t a b = FE (B2R t) (B2R a) (B2R b).
Proof.
  intros FT FA FB. unfold float_equals, FE. fold (diff a b).
  destruct (V_diff a b FA FB) as [ND VD]. destruct V_15 as [F15 E15]. destruct V_SN as [FS ES].
  rewrite Beqb_correct by auto.
  destruct (Req_bool (B2R a) (B2R b)); [reflexivity|]. cbn [orb].
  rewrite (V_leb (diff a b)) by (auto; apply V_mult; auto).
  rewrite VD, (proj2 (V_mult one_and_half t F15 FT)), E15.
  destruct (Rle_bool _ (clamp (nearest (3 / 2 * B2R t)))); [reflexivity|]. cbn [orb].
  rewrite !(Beqb_correct _ _ _ zero) by auto. cbn [B2R zero].
  rewrite V_ltb, VD, (V_finite SmallestNormal), ES by auto. change (bpow radix2 (-1022)) with SN.
  destruct (Req_bool_spec (B2R a) 0) as [HA|HA]; cbn [orb].
  { rewrite V_leb, VD by (auto; apply V_mult; auto). rewrite (proj2 (V_mult t SmallestNormal FT FS)), ES. reflexivity. }
  destruct (Req_bool_spec (B2R b) 0) as [HB|HB]; cbn [orb].
  { rewrite V_leb, VD by (auto; apply V_mult; auto). rewrite (proj2 (V_mult t SmallestNormal FT FS)), ES. reflexivity. }
  destruct (Rlt_bool (clamp (nearest (Rabs (B2R b - B2R a)))) SN).
  { rewrite V_leb, VD by (auto; apply V_mult; auto). rewrite (proj2 (V_mult t SmallestNormal FT FS)), ES. reflexivity. }
  destruct (V_fmax a b FA FB) as [FM EM].
  assert (MN : B2R (fmax (Babs a) (Babs b)) <> 0).
  { rewrite EM. apply Rabs_pos_lt in HA. pose proof (Rmax_l (Rabs (B2R a)) (Rabs (B2R b))). lra. }
  unfold quot. rewrite <- VD.
  destruct (Rlt_bool_spec (V (diff a b)) M) as [HL|HL].
  - assert (0 <= V (diff a b)) as HP by (rewrite VD; apply clamp_ge0, nearest_ge0, Rabs_pos).
    destruct (V_lt_M _ HL ND HP) as [FD ED].
    destruct (V_div _ _ FD FM MN) as [NQ VQ]. rewrite V_leb by (auto using nan_finite). rewrite VQ, ED, EM, (V_finite t) by auto. reflexivity.
  - apply V_ge_M in HL. rewrite HL.
    destruct (fmax (Babs a) (Babs b)) as [|?| |s m e h] eqn:EF; try discriminate; [cbn in MN; lra|].
    assert (s = false) as ->.
    { assert (Bsign (fmax (Babs a) (Babs b)) = false) as Q.
      { apply Bsign_pos. rewrite EF, EM in *. rewrite <- EM in *. cbn [B2R] in *. 
        pose proof (Rmax_l (Rabs (B2R a)) (Rabs (B2R b))). pose proof (Rabs_pos (B2R a)). lra. }
      rewrite EF in Q. exact Q. }
    cbn [Bdiv xorb]. rewrite V_leb by (auto using nan_finite). rewrite (V_finite t) by auto. reflexivity.
Qed.

From Coq Require Import List Arith NArith ZArith Bool Reals Lra Lia.
From Flocq Require Import Core IEEE754.BinarySingleNaN Relative Sterbenz.
From Verif Require Import NumModel NumSpec.
Import ListNotations.
Local Open Scope R_scope.

Lemma fold_natural t : forall a, fold_left (fun a c => (10 * a + Z.of_N (c - 48))%Z) t a = natural a t.
Proof. induction t; intros; cbn; auto. Qed.
Lemma dig_natural t : dig_value t = natural 0 t.
Proof. apply fold_natural. Qed.

Lemma isdigit_spec c : isdigit c = true <-> digit c.
Proof.
  unfold isdigit, digit. rewrite andb_true_iff, !N.leb_le. reflexivity.
Qed.
Lemma is_digits_spec t : is_digits t = true <-> Forall digit t.
Proof.
  unfold is_digits. rewrite forallb_forall, Forall_forall. split; intros H c Hc; apply isdigit_spec; auto.
Qed.

Lemma cut_dot_spec t : exists dot, t = fst (cut_dot t) ++ (if dot : bool then 46%N :: snd (cut_dot t) else []) /\ (dot = false -> snd (cut_dot t) = []).
Proof.
  induction t as [|c t (d & IH1 & IH2)]; cbn.
  - exists false. auto.
  - destruct (N.eqb_spec c 46) as [->|H]; cbn.
    + exists true. split; auto. discriminate.
    + destruct (cut_dot t) as [a b]. cbn in *. exists d. split; auto. f_equal. exact IH1.
Qed.
Lemma cut_dot_digits ip r : Forall digit ip -> (r = [] \/ exists fp, r = 46%N :: fp) -> cut_dot (ip ++ r) = (ip, match r with [] => [] | _ :: f => f end).
Proof.
  intros H HR. induction H as [|c ip HD HF IH]; cbn.
  - destruct HR as [->|(fp & ->)]; reflexivity.
  - destruct (N.eqb_spec c 46) as [->|Hn]; [destruct HD; lia|]. rewrite IH. reflexivity.
Qed.

Lemma scan_decimal_spec t neg ip fp : scan_decimal t = Some (neg, ip, fp) <->
  exists dot : bool, t = (if neg : bool then [45%N] else []) ++ ip ++ (if dot then 46%N :: fp else []) /\
    (dot = false -> fp = []) /\ Forall digit (ip ++ fp) /\ ip ++ fp <> [].
Proof.
  unfold scan_decimal. split.
  - destruct (cut_sign t) as [n body] eqn:ES. destruct (cut_dot body) as [i f] eqn:ED.
    destruct (is_digits i && is_digits f && _) eqn:EC; [|discriminate]. intros E; injection E as -> -> ->.
    apply andb_prop in EC. destruct EC as [EC E3]. apply andb_prop in EC. destruct EC as [E1 E2].
    apply is_digits_spec in E1. apply is_digits_spec in E2.
    destruct (cut_dot_spec body) as (dot & B1 & B2). rewrite ED in B1, B2. cbn in B1, B2. exists dot.
    rewrite <- B1. split.
    + unfold cut_sign in ES. destruct t as [|c t']; [injection ES as <- <-; reflexivity|].
      destruct (N.eqb_spec c 45) as [->|]; injection ES as <- <-; reflexivity.
    + split; auto. split; [apply Forall_app; auto|]. intros Q. rewrite Q in E3. discriminate.
  - intros (dot & -> & HD & HF & HN). apply Forall_app in HF. destruct HF as [HI HP].
    assert (EC : cut_sign ((if neg then [45%N] else []) ++ ip ++ (if dot then 46%N :: fp else [])) = (neg, ip ++ (if dot then 46%N :: fp else []))).
    { destruct neg; [reflexivity|]. cbn [app]. destruct ip as [|c ip]; cbn.
      - destruct dot; reflexivity.
      - inversion HI as [|? ? Hc]; subst. destruct (N.eqb_spec c 45) as [->|]; [destruct Hc; lia|reflexivity]. }
    rewrite EC, cut_dot_digits; auto.
    2:{ destruct dot; eauto. }
    assert ((match (if dot then 46%N :: fp else []) with [] => [] | _ :: f => f end) = fp) as -> by (destruct dot; auto; symmetry; auto).
    rewrite (proj2 (is_digits_spec ip) HI), (proj2 (is_digits_spec fp) HP). cbn.
    destruct (ip ++ fp); [congruence|reflexivity].
Qed.

Lemma decimal_scan t v : decimal t v <-> exists neg ip fp, scan_decimal t = Some (neg, ip, fp) /\
  v = (if neg : bool then Ropp else fun x => x) (IZR (natural 0 (ip ++ fp)) / 10 ^ length fp).
Proof.
  split.
  - intros (neg & ip & fp & dot & H1 & H2 & H3 & H4 & H5). exists neg, ip, fp. split; auto.
    apply scan_decimal_spec. eauto.
  - intros (neg & ip & fp & H1 & H2). apply scan_decimal_spec in H1. destruct H1 as (dot & H3 & H4 & H5 & H6).
    exists neg, ip, fp, dot. auto.
Qed.

Lemma natural_nonneg t : forall a, (0 <= a)%Z -> (0 <= natural a t)%Z.
Proof. induction t as [|c t IH]; intros a H; cbn [natural]; auto. apply IH. pose proof (N2Z.is_nonneg (c - 48)); lia. Qed.

(* round *)
Notation fexp := (FLT_exp (-1074) 53).
Lemma rnd_eq x : round radix2 (SpecFloat.fexp prec emax) (round_mode mode_NE) x = nearest x.
Proof. reflexivity. Qed.
#[local] Instance vexp : Valid_exp fexp.
Proof. apply FLT_exp_valid. reflexivity. Qed.

Lemma nearest_opp x : nearest (- x) = - nearest x.
Proof. apply round_NE_opp. Qed.
Lemma nearest_abs x : Rabs (nearest x) = nearest (Rabs x).
Proof.
  unfold Rabs at 2. destruct (Rcase_abs x) as [H|H].
  - rewrite nearest_opp. apply Rabs_left1. rewrite <- (round_0 radix2 fexp ZnearestE).
    apply round_le; auto with typeclass_instances. lra.
  - apply Rabs_pos_eq. rewrite <- (round_0 radix2 fexp ZnearestE).
    apply round_le; auto with typeclass_instances. lra.
Qed.
Lemma nearest_le x y : x <= y -> nearest x <= nearest y.
Proof. intros. apply round_le; auto with typeclass_instances. Qed.
Lemma nearest_0 : nearest 0 = 0.
Proof. apply round_0. auto with typeclass_instances. Qed.
Lemma nearest_ge0 x : 0 <= x -> 0 <= nearest x.
Proof. intros. rewrite <- nearest_0. apply nearest_le; auto. Qed.

Lemma round_ratio_spec neg n d :
  let v := (if neg : bool then Ropp else fun x => x) (IZR (Zpos n) / IZR (Zpos d)) in
  if Rlt_bool (Rabs (nearest v)) max_finite_bound
  then is_finite (round_ratio neg n d) = true /\ B2R (round_ratio neg n d) = nearest v
  else is_finite (round_ratio neg n d) = false.
Proof.
  intros v. unfold round_ratio.
  destruct (Bdiv_correct_aux prec emax Hprec Hemax mode_NE neg n 0 false d 0) as [V C] eqn:E. cbn [proj1].
  set (x := F2R (Float radix2 (cond_Zopp neg (Zpos n)) 0)) in *.
  set (y := F2R (Float radix2 (cond_Zopp false (Zpos d)) 0)) in *.
  assert (HV : x / y = v).
  { unfold x, y, v, F2R. cbn [Fnum Fexp bpow cond_Zopp]. rewrite !Rmult_1_r. destruct neg; cbn [cond_Zopp]; auto.
    rewrite opp_IZR. unfold Rdiv. ring. }
  pose proof C as C'. rewrite HV in C'. rewrite rnd_eq in C'. change (bpow radix2 emax) with max_finite_bound in C'.
  destruct (Rlt_bool (Rabs (nearest v)) max_finite_bound).
  - destruct C' as (C1 & C2 & C3). rewrite is_finite_SF2B, B2R_SF2B. auto.
  - rewrite is_finite_SF2B. rewrite C'. reflexivity.
Qed.

Lemma parse_spec t :
  match ParseFloat t with
  | Some f => is_finite f = true /\ exists v, decimal t v /\ Rabs (nearest v) < max_finite_bound /\ B2R f = nearest v
  | None => forall v, decimal t v -> max_finite_bound <= Rabs (nearest v)
  end.
Proof.
  unfold ParseFloat. destruct (scan_decimal t) as [[[neg ip] fp]|] eqn:ES.
  2:{ intros v H. apply decimal_scan in H. destruct H as (? & ? & ? & H & _). congruence. }
  rewrite dig_natural.
  pose proof (natural_nonneg (ip ++ fp) 0 ltac:(lia)) as HN.
  assert (HD : forall v, decimal t v <-> v = (if neg then Ropp else fun x => x) (IZR (natural 0 (ip ++ fp)) / 10 ^ length fp)).
  { intros v. rewrite decimal_scan, ES. split.
    - intros (? & ? & ? & H1 & H2). injection H1 as -> -> ->. exact H2.
    - intros H. exists neg, ip, fp. auto. }
  destruct (natural 0 (ip ++ fp)) as [|n|n] eqn:En; [| |lia].
  - split; [reflexivity|]. exists 0.
    assert (Z0 : (if neg then Ropp else fun x : R => x) (0 / 10 ^ length fp) = 0) by (destruct neg; unfold Rdiv; rewrite Rmult_0_l; ring).
    split; [apply HD; auto|]. rewrite nearest_0, Rabs_R0. split; [apply bpow_gt_0|reflexivity].
  - pose proof (round_ratio_spec neg n (Z.to_pos (10 ^ Z.of_nat (length fp)))) as G. cbn zeta in G.
    assert (E10 : IZR (Z.pos (Z.to_pos (10 ^ Z.of_nat (length fp)))) = 10 ^ length fp).
    { rewrite Z2Pos.id by (apply Z.pow_pos_nonneg; lia). rewrite <- pow_IZR. reflexivity. }
    rewrite E10 in G.
    set (v := (if neg then Ropp else fun x : R => x) (IZR (Z.pos n) / 10 ^ length fp)) in *.
    destruct (Rlt_bool_spec (Rabs (nearest v)) max_finite_bound) as [HL|HL].
    + destruct G as [G1 G2]. rewrite G1. split; auto. exists v. rewrite HD. auto.
    + rewrite G. intros w Hw. apply HD in Hw. subst w. exact HL.
Qed.

From Coq Require Import String List Arith NArith ZArith Bool QArith Reals Permutation Lia Lra Setoid.
From Flocq Require Import Core IEEE754.BinarySingleNaN.
From Verif Require Import TokModel ValModel NumModel GradeModel GradeSpec GradeProofs.
Import ListNotations.
Local Open Scope nat_scope.

(* ---- math.Max is the maximum of a total order ---- *)
Local Open Scope R_scope.
Definition kclass (x : float64) : Z :=
  match x with B754_nan => 1 | B754_infinity true => -1 | B754_infinity false => 2 | _ => 0 end.
Definition kval (x : float64) : R := B2R x.
Definition ksign (x : float64) : Z := match x with B754_zero true => 0 | _ => 1 end.
Definition kle (x y : float64) : Prop :=
  (kclass x < kclass y)%Z \/ kclass x = kclass y /\ (kval x < kval y \/ kval x = kval y /\ (ksign x <= ksign y)%Z).
Lemma kle_total x y : kle x y \/ kle y x.
Proof.
  unfold kle. destruct (Z.lt_trichotomy (kclass x) (kclass y)) as [|[|]]; [auto| |auto].
  destruct (Rtotal_order (kval x) (kval y)) as [|[|]]; [left; right; auto| |right; right; auto].
  destruct (Z.le_gt_cases (ksign x) (ksign y)); [left; right; auto|right; right; split; [auto|right; split; [auto|lia]]].
Qed.
Lemma kle_trans x y z : kle x y -> kle y z -> kle x z.
Proof.
  unfold kle. intros [A|[A1 A]] [B|[B1 B]]; try (left; lia).
  right. split; [lia|]. destruct A as [A|[A2 A]], B as [B|[B2 B]]; [left; lra|left; lra|left; lra|right; split; [lra|lia]].
Qed.
Lemma kle_antisym x y : kle x y -> kle y x -> x = y.
Proof.
  unfold kle. intros [A|[A1 A]] [B|[B1 B]]; try lia.
  destruct A as [A|[A2 A]], B as [B|[B2 B]]; try lra.
  assert (S : ksign x = ksign y) by lia. unfold kval in *.
  assert (E0 : forall s m e (h : SpecFloat.bounded 53 1024 m e = true), B2R (B754_finite s m e h) <> 0).
  { intros s m e h. cbn. intros X. apply eq_0_F2R in X. destruct s; discriminate X. }
  destruct x as [[]|[]| |s m e h], y as [[]|[]| |s' m' e' h']; cbn in A1, S; try reflexivity; try discriminate;
    try (exfalso; (apply (E0 s m e h) || apply (E0 s' m' e' h')); cbn in A2 |- *; (exact A2 || (symmetry; exact A2)); fail).
  apply B2R_inj; auto.
Qed.
Lemma kclass_fin x : kclass x = 0%Z -> is_finite x = true.
Proof. destruct x as [|[]| |]; cbn; auto; discriminate. Qed.
Lemma kfin_class x : is_finite x = true -> kclass x = 0%Z.
Proof. destruct x as [|[]| |]; cbn; auto; discriminate. Qed.
Lemma fmaxx_spec x y : (fmaxx x y = x /\ kle y x) \/ (fmaxx x y = y /\ kle x y).
Proof.
  destruct (is_finite x) eqn:Fx; destruct (is_finite y) eqn:Fy.
  - assert (E : fmaxx x y = if (Beqb x y && match x with B754_zero _ => true | _ => false end)%bool then (if Bsign x then y else x)
       else if Bltb y x then x else y) by (destruct x as [|[]| |], y as [|[]| |]; try discriminate; reflexivity).
    rewrite E. unfold kle. rewrite !kfin_class by auto. rewrite Beqb_correct, Bltb_correct by auto. unfold kval.
    destruct (Req_bool_spec (B2R x) (B2R y)) as [Q|Q].
    + cbn [andb]. assert (Z0 : match x with B754_zero _ => true | _ => false end = true -> ksign y <> 0%Z \/ y = B754_zero true).
      { intros _. destruct y as [[]|[]| |]; cbn; auto; left; discriminate. }
      destruct x as [s| | |s m e h]; try discriminate.
      * destruct s; cbn [Bsign].
        -- right. split; auto. right. split; auto. right. split; auto. destruct y as [[]| | |]; cbn; lia.
        -- left. split; auto. right. split; auto. right. split; auto. destruct y as [[]| | |]; cbn; lia.
      * rewrite Rlt_bool_false by lra. right. split; auto. right. split; auto. right. split; auto.
        destruct y as [s'| | |]; cbn; try lia; try discriminate.
        exfalso. cbn in Q. apply eq_0_F2R in Q. destruct s; discriminate Q.
    + cbn [andb]. destruct (Rlt_bool_spec (B2R y) (B2R x)); [left|right]; (split; [auto|]; right; split; [auto|left; lra]).
  - destruct y as [|[]| |]; try discriminate; destruct x as [|[]| |]; try discriminate; unfold kle; cbn;
      ((left; split; [reflexivity|left; lia]) || (right; split; [reflexivity|left; lia])).
  - destruct x as [|[]| |]; try discriminate; destruct y as [|[]| |]; try discriminate; unfold kle; cbn;
      ((left; split; [reflexivity|left; lia]) || (right; split; [reflexivity|left; lia])).
  - destruct x as [|[]| |]; try discriminate; destruct y as [|[]| |]; try discriminate; unfold kle; cbn;
      ((left; split; [reflexivity|left; lia]) || (right; split; [reflexivity|left; lia]) ||
       (left; split; [reflexivity|right; split; [reflexivity|right; split; [reflexivity|lia]]])).
Qed.
Lemma fmaxx_comm x y : fmaxx x y = fmaxx y x.
Proof.
  destruct (fmaxx_spec x y) as [[-> A]|[-> A]], (fmaxx_spec y x) as [[-> B]|[-> B]]; auto; apply kle_antisym; auto.
Qed.
Lemma kle_refl x : kle x x.
Proof. destruct (kle_total x x); auto. Qed.
Lemma fmaxx_ub x y : kle x (fmaxx x y) /\ kle y (fmaxx x y).
Proof. destruct (fmaxx_spec x y) as [[-> A]|[-> A]]; auto using kle_refl. Qed.
Lemma fmaxx_lub x y m : kle x m -> kle y m -> kle (fmaxx x y) m.
Proof. destruct (fmaxx_spec x y) as [[-> A]|[-> A]]; auto. Qed.
Lemma fmaxx_assoc x y z : fmaxx (fmaxx x y) z = fmaxx x (fmaxx y z).
Proof.
  destruct (fmaxx_ub x y), (fmaxx_ub y z), (fmaxx_ub (fmaxx x y) z), (fmaxx_ub x (fmaxx y z)).
  apply kle_antisym; repeat apply fmaxx_lub; eauto using kle_trans.
Qed.
Local Close Scope R_scope.

(* ---- aggregation in arrival order ---- *)
Definition child (a : arrival) : bool := match atype a with Problemsetter => false | _ => true end.
Definition children (l : list arrival) : list arrival := filter child l.
Definition parents (l : list arrival) : list arrival := filter (fun a => negb (child a)) l.
Lemma agg_fold l : forall g,
  let g' := fold_left agg_step l g in
  gverdict g' = worse (gverdict g) (worst (map (fun a => mverdict (ameta a)) (children l))) /\
  gwall g' = fold_left fmaxx (map (fun a => mwall (ameta a)) (children l)) (gwall g) /\
  gparent g' = match rev (parents l) with a :: _ => Some (ameta a) | [] => gparent g end.
Proof.
  induction l as [|a l IH]; intros g; cbn [fold_left].
  - cbn. rewrite worse_OK_r. auto.
  - specialize (IH (agg_step g a)). cbn zeta in *. destruct IH as (-> & -> & ->).
    unfold agg_step, children, parents. cbn [filter]. unfold child. destruct (atype a) eqn:E; cbn [negb map worst fold_left rev gverdict gwall gparent].
    + split; auto. split; auto. destruct (rev (filter _ l)) as [|b t]; reflexivity.
    + split; [rewrite worse_assoc; auto|]. split; auto.
    + split; [rewrite worse_assoc; auto|]. split; auto.
Qed.
Lemma filter_perm {A} (f : A -> bool) l l' : Permutation l l' -> Permutation (filter f l) (filter f l').
Proof.
  induction 1; cbn; auto.
  - destruct (f x); auto.
  - destruct (f x), (f y); auto. apply perm_swap.
  - etransitivity; eauto.
Qed.
Lemma worst_perm l l' : Permutation l l' -> worst l = worst l'.
Proof. intros H. apply (is_worst_unique _ _ l'); [eapply is_worst_perm; [exact H|]|]; apply worst_is. Qed.
Lemma fold_perm {A} (f : A -> A -> A) (HC : forall x y, f x y = f y x) (HA : forall x y z, f (f x y) z = f x (f y z)) l l' :
  Permutation l l' -> forall a, fold_left f l a = fold_left f l' a.
Proof.
  induction 1; intros a; cbn; auto.
  - rewrite HA, (HC y x), <- HA. auto.
  - rewrite IHPermutation1. auto.
Qed.
Lemma aggregate_verdict l : length (parents l) <= 1 ->
  mverdict (aggregate l) =
    let v := worst (map (fun a => mverdict (ameta a)) (children l)) in
    match parents l with
    | [p] => if (negb (veqb (mverdict (ameta p)) OK) && veqb v OK)%bool then parent_verdict (ameta p) else v
    | _ => v
    end.
Proof.
  intros H. unfold aggregate. cbn [mverdict]. destruct (agg_fold l agg0) as (A & _ & B). rewrite A, B, worse_OK_l.
  destruct (parents l) as [|p [|q t]]; cbn in *; auto. lia.
Qed.
Lemma aggregate_perm l l' : Permutation l l' -> length (parents l) <= 1 ->
  mverdict (aggregate l) = mverdict (aggregate l') /\ mwall (aggregate l) = mwall (aggregate l').
Proof.
  intros H H1. assert (HC : Permutation (children l) (children l')) by (apply filter_perm; auto).
  assert (HP : Permutation (parents l) (parents l')) by (apply filter_perm; auto).
  split.
  - rewrite !aggregate_verdict; auto; [|rewrite <- (Permutation_length HP); auto].
    cbn zeta. rewrite (worst_perm _ _ (Permutation_map _ HC)).
    destruct (parents l) as [|p [|q t]]; cbn in H1; [|
      |lia].
    + apply Permutation_nil in HP. rewrite HP. auto.
    + apply Permutation_length_1_inv in HP. rewrite HP. auto.
  - unfold aggregate. cbn [mwall]. destruct (agg_fold l agg0) as (_ & A & _). destruct (agg_fold l' agg0) as (_ & B & _). rewrite A, B.
    apply fold_perm; [apply fmaxx_comm|apply fmaxx_assoc|]. apply Permutation_map. auto.
Qed.
Lemma individual_perm l l' : Permutation l l' -> Permutation (individual l) (individual l').
Proof.
  intros H. unfold individual. pose proof (Permutation_length H) as HL.
  destruct l as [|a [|b l]], l' as [|a' [|b' l']]; cbn in HL; try lia; auto; try discriminate.
  apply (Permutation_map (fun a => (aname a, ameta a))) in H. exact H.
Qed.


(* ---- the resources of a case ---- *)
Lemma agg_resources l : forall g, Forall (fun a => is_finite (mwall (ameta a)) = true /\ (0 <= mmem (ameta a))%Z) l -> is_finite (gwall g) = true -> (0 <= gmem g)%Z ->
  let g' := fold_left agg_step l g in
  gtime g' = fold_left (fun t a => Bplus mode_NE t (mtime (ameta a))) (children l) (gtime g) /\
  (forall a, In a (children l) -> (B2R (mwall (ameta a)) <= B2R (gwall g'))%R) /\ (B2R (gwall g) <= B2R (gwall g'))%R /\
  (gwall g' = gwall g \/ exists a, In a (children l) /\ gwall g' = mwall (ameta a)) /\
  (forall a, In a (children l) -> (mmem (ameta a) <= gmem g')%Z) /\ (gmem g <= gmem g')%Z.
Proof.
  induction l as [|a l IH]; intros g HF W M; cbn zeta; cbn [fold_left children filter].
  - repeat split; auto; [intros a []|lra|intros a []|lia].
  - inversion HF as [|? ? [W1 M1] HF']; subst.
    assert (MX : is_finite (fmaxx (gwall g) (mwall (ameta a))) = true /\ (B2R (gwall g) <= B2R (fmaxx (gwall g) (mwall (ameta a))))%R /\
                 (B2R (mwall (ameta a)) <= B2R (fmaxx (gwall g) (mwall (ameta a))))%R /\ (fmaxx (gwall g) (mwall (ameta a)) = gwall g \/ fmaxx (gwall g) (mwall (ameta a)) = mwall (ameta a))).
    { assert (KL : forall x y, is_finite x = true -> is_finite y = true -> kle x y -> (B2R x <= B2R y)%R).
      { intros x y X Y [K|[_ K]]; [rewrite !kfin_class in K by auto; lia|]. unfold kval in K. destruct K as [K|[K _]]; lra. }
      destruct (fmaxx_spec (gwall g) (mwall (ameta a))) as [[E K]|[E K]]; rewrite E; repeat split; auto; try lra; apply KL; auto. }
    destruct MX as (X1 & X2 & X3 & X4).
    assert (ST : child a = false /\ gwall (agg_step g a) = gwall g /\ gmem (agg_step g a) = gmem g /\ gtime (agg_step g a) = gtime g \/
                 child a = true /\ gwall (agg_step g a) = fmaxx (gwall g) (mwall (ameta a)) /\ gmem (agg_step g a) = (gmem g + Z.max (gmem g) (mmem (ameta a)))%Z /\
                 gtime (agg_step g a) = Bplus mode_NE (gtime g) (mtime (ameta a))).
    { unfold child, agg_step, fadd. destruct (atype a); cbn; auto. }
    specialize (IH (agg_step g a) HF'). cbn zeta in IH. change (filter child l) with (children l). destruct ST as [(C & E1 & E2 & E3)|(C & E1 & E2 & E3)]; rewrite C; rewrite E1, E2, E3 in IH.
    + apply IH; auto.
    + destruct IH as (A1 & A2 & A3 & A4 & A5 & A6); [auto|lia|]. cbn [fold_left]. split; [auto|]. split; [|split; [|split; [|split]]].
      * intros b [<-|I]; [lra|auto].
      * lra.
      * destruct A4 as [A4|(b & I & A4)]; [|right; exists b; split; [right; auto|auto]]. destruct X4 as [X4|X4]; [left; congruence|]. right. exists a. split; [left; auto|congruence].
      * intros b [<-|I]; [lia|auto].
      * lia.
Qed.

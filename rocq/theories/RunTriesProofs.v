(* How the tries of a run are used up. *)
From Coq Require Import List Arith ZArith NArith Bool Lia.
From Verif Require Import GoBase RunModel RunSpec RunProofs RunBoundsProofs RunLinProofs RunLinFacts RunTriesSpec.
Import ListNotations.

Definition rq1 (r : nat) (p : pc) : nat := match p with RQ1 r' _ _ => at_ r r' | _ => 0 end.
Definition cling (p : pc) : bool :=
  match p with CL0 _ _ | CL1 _ _ | CL1b _ _ | CL1c _ _ | CL2 _ _ _ | CL3 _ _ _ | CL4 _ _ => true | _ => false end.
Definition lasting (p : pc) : bool :=
  match p with RQ0 _ l _ | RQ0b _ l _ | RQ1 _ l _ | RQ2 _ l _ => l | _ => false end.

Definition Kat (s : state) (r : nat) (x : rstate) : Prop :=
  (Z.of_nat (hand r (inflights s)) + tries x = Z.of_nat (maxtries x) + Z.of_nat (b2n (mon x)) + Z.of_nat (sumf (rq1 r) (threads s)))%Z /\
  (tries x <= Z.of_nat (maxtries x))%Z /\
  (closedF x = true \/ (exists t p, nth_error (threads s) t = Some p /\ worker p = Some r /\ cling p = true) ->
     (tries x <= 0)%Z /\ (tries x < Z.of_nat (maxtries x))%Z /\ mon x = false).
Record K (s : state) : Prop := {
  K_at : forall r x, nth_error (runs s) r = Some x -> Kat s r x;
  K_last : forall t p, nth_error (threads s) t = Some p -> lasting p = false }.

Lemma rq1_other r p : worker p <> Some r -> rq1 r p = 0.
Proof. destruct p; cbn; auto. intros H. unfold at_. destruct (Nat.eqb_spec r0 r); congruence. Qed.

Lemma hand_app r l y : hand r (l ++ [y]) = hand r l + at_ r (irun y).
Proof. unfold hand. rewrite sumf_app. cbn. lia. Qed.

(* A step of the only worker of run r. *)
Lemma K_work s s' t p p' r x x' : L s -> K s -> nth_error (threads s) t = Some p -> worker p = Some r -> nth_error (runs s) r = Some x ->
  runs s' = upd (runs s) r x' -> threads s' = upd (threads s) t p' -> (forall r', hand r' (inflights s') = hand r' (inflights s)) ->
  (worker p' = Some r \/ worker p' = None) -> maxtries x' = maxtries x -> lasting p' = false ->
  (tries x' - Z.of_nat (b2n (mon x')) - Z.of_nat (rq1 r p') = tries x - Z.of_nat (b2n (mon x)) - Z.of_nat (rq1 r p))%Z ->
  (tries x' <= tries x)%Z ->
  (closedF x' = true \/ (worker p' = Some r /\ cling p' = true) -> (tries x' <= 0)%Z /\ (tries x' < Z.of_nat (maxtries x))%Z /\ mon x' = false) ->
  K s'.
Proof.
  intros HL HK Ht W Hx ER ET EH W' EM EL EQ LE CC.
  assert (TN : forall t' q, nth_error (threads s') t' = Some q -> (t' = t /\ q = p') \/ (t' <> t /\ nth_error (threads s) t' = Some q)).
  { intros t' q H. rewrite ET in H. destruct (Nat.eq_dec t t') as [<-|N].
    - rewrite (nth_error_upd_eq _ _ _ _ Ht) in H. injection H as <-. auto.
    - rewrite nth_error_upd_neq in H by auto. auto. }
  assert (TN' : forall t' q, nth_error (upd (threads s) t p') t' = Some q -> (t' = t /\ q = p') \/ (t' <> t /\ nth_error (threads s) t' = Some q))
    by (rewrite <- ET; exact TN).
  split.
  - intros r' z H. rewrite ER in H. destruct (Nat.eq_dec r r') as [<-|N].
    + rewrite (nth_error_upd_eq _ _ _ _ Hx) in H. injection H as <-. destruct (K_at _ HK r x Hx) as (A & B & C).
      pose proof (sumf_upd (rq1 r) _ _ _ p' Ht) as S1. unfold Kat. rewrite EH, ET, EM. split; [|split].
      * lia.
      * lia.
      * intros [D|(t' & q & D & Wq & Cq)]; [apply CC; auto|]. destruct (TN' _ _ D) as [[-> ->]|[Nt D']]; [apply CC; auto|].
        exfalso. apply Nt. eapply (worker_unique s); eauto.
    + rewrite nth_error_upd_neq in H by auto. destruct (K_at _ HK r' z H) as (A & B & C).
      pose proof (sumf_upd (rq1 r') _ _ _ p' Ht) as S1. rewrite (rq1_other r' p) in S1 by congruence.
      rewrite (rq1_other r' p') in S1 by (destruct W'; congruence).
      unfold Kat. rewrite EH, ET. split; [|split]; [lia|exact B|].
      intros [D|(t' & q & D & Wq & Cq)]; [apply C; auto|]. destruct (TN' _ _ D) as [[-> ->]|[Nt D']]; [destruct W'; congruence|].
      apply C. right. eauto.
  - intros t' q H. destruct (TN _ _ H) as [[-> ->]|[_ H']]; [exact EL|]. eapply (K_last _ HK); eauto.
Qed.

(* Steps that leave the runs alone. *)
Lemma K_ext s s' : K s -> runs s' = runs s -> (forall r, hand r (inflights s') = hand r (inflights s)) ->
  (forall r, sumf (rq1 r) (threads s') = sumf (rq1 r) (threads s)) ->
  (forall t p, nth_error (threads s') t = Some p -> nth_error (threads s) t = Some p \/ (lasting p = false /\ cling p = false)) -> K s'.
Proof.
  intros HK ER EH ES ET. split.
  - intros r x H. rewrite ER in H. destruct (K_at _ HK r x H) as (A & B & C). unfold Kat. rewrite EH, ES. split; [exact A|]. split; [exact B|].
    intros [D|(t & p & D & W & Q)]; [apply C; auto|]. destruct (ET _ _ D) as [D'|[_ D']]; [|congruence]. apply C. right. eauto.
  - intros t p H. destruct (ET _ _ H) as [H'|[H' _]]; [|exact H']. eapply (K_last _ HK); eauto.
Qed.

Lemma K_thread s s' t p p' : K s -> nth_error (threads s) t = Some p -> runs s' = runs s -> threads s' = upd (threads s) t p' ->
  (forall r, hand r (inflights s') = hand r (inflights s)) -> (forall r, rq1 r p' = rq1 r p) -> lasting p' = false -> cling p' = false -> K s'.
Proof.
  intros HK Ht ER ET EH EQ EL EC. apply (K_ext s); auto.
  - intros r. rewrite ET. pose proof (sumf_upd (rq1 r) _ _ _ p' Ht). rewrite (EQ r) in H. lia.
  - intros t' q H. rewrite ET in H. destruct (Nat.eq_dec t t') as [<-|N].
    + rewrite (nth_error_upd_eq _ _ _ _ Ht) in H. injection H as <-. auto.
    + rewrite nth_error_upd_neq in H by auto. auto.
Qed.

Lemma hand_upd inf i y z r : nth_error inf i = Some y -> irun z = irun y -> hand r (upd inf i z) = hand r inf.
Proof. intros H E. apply hand_map. eapply map_upd_same; eauto. Qed.

Lemma upd_same {A} (l : list A) r x : nth_error l r = Some x -> upd l r x = l.
Proof. revert r. induction l as [|h l IH]; intros [|r] H; cbn in *; try congruence. f_equal. apply IH, H. Qed.

Lemma remove_is s r x : L s -> nth_error (runs s) r = Some x -> mon x = true ->
  runs (remove s (attempt x)) = upd (runs s) r (with_mon x false) /\ threads (remove s (attempt x)) = threads s /\
  forall r', hand r' (inflights (remove s (attempt x))) = hand r' (inflights s).
Proof.
  intros HL Hx M. destruct (L_mon _ HL r x Hx M) as (i & y & A & B & C & D). unfold remove. rewrite A, B, C, Hx. cbn.
  split; [reflexivity|]. split; [reflexivity|]. intros r'. eapply hand_upd; eauto.
Qed.

Lemma K_step s e : Valid s -> race_free s e -> L s -> only_failures s e -> K s -> K (step s e).
Proof.
  intros HV HRF HL HF HK. destruct e as [m|n|a|t ch]; cbn [step].
  - (* ENew *)
    unfold new_run. set (nx := mkR m _ _ _ _ _ _ _ _).
    assert (ZH : hand (length (runs s)) (inflights s) = 0).
    { apply sumf_zero. pose proof (V_i _ HV) as V. rewrite Forall_forall in *. intros y Hy. specialize (V y Hy).
      unfold at_. destruct (Nat.eqb_spec (irun y) (length (runs s))); lia. }
    assert (ZW : forall t p, nth_error (threads s) t = Some p -> worker p <> Some (length (runs s))).
    { intros t p Ht W. pose proof (nth_error_Forall _ _ _ _ (V_t _ HV) Ht) as [G _]. specialize (G _ W). lia. }
    assert (ZQ : sumf (rq1 (length (runs s))) (threads s) = 0).
    { apply sumf_zero. rewrite Forall_forall. intros p Hp. apply In_nth_error in Hp. destruct Hp as [t Ht]. apply rq1_other. eapply ZW; eauto. }
    split; cbn [runs threads inflights].
    + intros r x H. apply nth_error_app_inv in H. destruct H as [H|[-> ->]].
      * exact (K_at _ HK r x H).
      * unfold Kat. cbn [inflights threads]. rewrite ZH, ZQ. cbn. split; [lia|]. split; [lia|].
        intros [D|(t & p & D & W & _)]; [discriminate|]. exfalso. eapply ZW; eauto.
    + exact (K_last _ HK).
  - (* EGetRun *)
    destruct (nth_error (queue s) n) as [r0|] eqn:E; auto. apply (K_ext s); auto; cbn [threads].
    + intros r. rewrite sumf_app. cbn. lia.
    + intros t p H. apply nth_error_app_inv in H. destruct H as [H|[_ ->]]; auto.
  - (* EResult *)
    destruct (mget (mapping s) a) as [i|] eqn:Em; auto. destruct (nth_error (inflights s) i) as [y|] eqn:E; auto.
    apply (K_ext s); auto; cbn [threads spawn set_inf inflights runs].
    + intros r. eapply hand_upd; eauto.
    + intros r. rewrite sumf_app. cbn. lia.
    + intros t p H. apply nth_error_app_inv in H. destruct H as [H|[_ ->]]; auto.
  - destruct (nth_error (threads s) t) as [p|] eqn:Ht; auto. cbn [only_failures] in HF. rewrite Ht in HF.
    assert (PK : forall r, worker p = Some r -> exists x, nth_error (runs s) r = Some x /\ pcok p x).
    { intros r W. pose proof (nth_error_Forall _ _ _ _ (V_t _ HV) Ht) as [G _]. specialize (G _ W).
      destruct (nth_error (runs s) r) as [x|] eqn:Ex; [|apply nth_error_None in Ex; lia].
      exists x. split; auto. eapply (L_pc _ HL); eauto. }
    assert (RES : forall k, worker (resume k) = None /\ lasting (resume k) = false /\ cling (resume k) = false /\ forall r, rq1 r (resume k) = 0)
      by (intros []; repeat split).
    pose proof (K_last _ HK _ _ Ht) as LA.
    assert (CA : forall r x, worker p = Some r -> nth_error (runs s) r = Some x -> closedF x = true \/ cling p = true ->
      (tries x <= 0)%Z /\ (tries x < Z.of_nat (maxtries x))%Z /\ mon x = false).
    { intros r x W Hx D. destruct (K_at _ HK r x Hx) as (_ & _ & C). apply C. destruct D; [left; auto|right; eauto]. }
    assert (AT : forall r, at_ r r = 1) by (intros; unfold at_; rewrite Nat.eqb_refl; reflexivity).
    destruct p; cbn [step_thread]; auto; cbn [lasting] in LA; cbn [cling] in CA.
    + (* GR0 *) destruct (PK r eq_refl) as (x & Hx & H1 & H2). rewrite Hx.
      eapply (K_work s _ t _ (GR1 r) r x (with_running x)); eauto; try reflexivity; cbn; auto; try lia. intros [D|[_ D]]; congruence.
    + (* GR1 *) destruct (PK r eq_refl) as (x & Hx & H1 & H2). rewrite Hx. set (s1 := mkS _ _ _ _ _ _).
      assert (RN : forall r' z, nth_error (runs s1) r' = Some z -> (r' = r /\ z = with_mon x true) \/ (r' <> r /\ nth_error (runs s) r' = Some z)).
      { intros r' z H. cbn in H. destruct (Nat.eq_dec r r') as [<-|N].
        - rewrite (nth_error_upd_eq _ _ _ _ Hx) in H. injection H as <-. auto.
        - rewrite nth_error_upd_neq in H by auto. auto. }
      assert (TN : forall t' q, nth_error (threads s1) t' = Some q -> (cling q = false /\ lasting q = false) \/ (t' <> t /\ nth_error (threads s) t' = Some q)).
      { intros t' q H. cbn in H. apply nth_error_app_inv in H. destruct H as [H|[_ ->]]; [|left; split; reflexivity].
        destruct (Nat.eq_dec t t') as [<-|N].
        - rewrite (nth_error_upd_eq _ _ _ _ Ht) in H. injection H as <-. left; split; reflexivity.
        - rewrite nth_error_upd_neq in H by auto. auto. }
      assert (SQ : forall r', sumf (rq1 r') (threads s1) = sumf (rq1 r') (threads s)).
      { intros r'. cbn [threads s1]. rewrite sumf_app. pose proof (sumf_upd (rq1 r') _ _ _ Done Ht) as U. cbn in *. lia. }
      split.
      * intros r' z H. unfold Kat. rewrite SQ. cbn [inflights s1]. rewrite hand_app. cbn [irun]. destruct (RN _ _ H) as [[-> ->]|[N H']].
        -- destruct (K_at _ HK r x Hx) as (A & B & C). rewrite AT. cbn [with_mon tries maxtries mon closedF b2n]. rewrite H1 in A. cbn [b2n] in A. split; [lia|]. split; [lia|].
           intros [D|(t' & q & D & W & Q)]; [congruence|]. destruct (TN _ _ D) as [[D' _]|[Nt D']]; [congruence|].
           exfalso. apply Nt. eapply (worker_unique s); eauto; reflexivity.
        -- destruct (K_at _ HK r' z H') as (A & B & C). replace (at_ r' r) with 0 by (unfold at_; destruct (Nat.eqb_spec r r'); congruence).
           rewrite Nat.add_0_r. split; [exact A|]. split; [exact B|].
           intros [D|(t' & q & D & W & Q)]; [apply C; auto|]. destruct (TN _ _ D) as [[D' _]|[Nt D']]; [congruence|]. apply C. right. eauto.
      * intros t' q H. destruct (TN _ _ H) as [[_ D]|[_ D]]; [exact D|]. eapply (K_last _ HK); eauto.
    + (* TConn *) destruct (nth_error (inflights s) i) as [y|] eqn:Hy; auto.
      assert (RCV : K (if connected y then set_thread (set_inf s i (mkI (irun y) (iatt y) false (iready y) (tmo y) (ntclose y))) t (TRdy i) else s)).
      { destruct (connected y); auto. eapply (K_thread s _ t _ (TRdy i)); eauto; try reflexivity. cbn. intros r. eapply hand_upd; eauto. }
      destruct ch; auto. eapply (K_thread s _ t _ (RQ0 (irun y) false (KTimer i))); eauto; reflexivity.
    + (* TRdy *) destruct (nth_error (inflights s) i) as [y|] eqn:Hy; auto.
      assert (RCV : K (if iready y then set_thread (set_inf s i (mkI (irun y) (iatt y) (connected y) false (tmo y) (ntclose y))) t (TFin i) else s)).
      { destruct (iready y); auto. eapply (K_thread s _ t _ (TFin i)); eauto; try reflexivity. cbn. intros r. eapply hand_upd; eauto. }
      destruct ch; auto. eapply (K_thread s _ t _ (RQ0 (irun y) false (KTimer i))); eauto; reflexivity.
    + (* TSend *) destruct (nth_error (inflights s) i) as [y|] eqn:Hy; auto. destruct (tmo y); auto.
      eapply (K_thread s _ t _ (TDrain i)); eauto; try reflexivity. cbn. intros r. eapply hand_upd; eauto.
    + (* TFin *) destruct (nth_error (inflights s) i) as [y|] eqn:Hy; auto.
      eapply (K_thread s _ t _ Done); eauto; try reflexivity. cbn. intros r. eapply hand_upd; eauto.
    + (* HProc *) subst ch. eapply (K_thread s _ t _ (RQ0 r false KEnd)); eauto; reflexivity.
    + (* RQ0 *) destruct (PK r eq_refl) as (x & Hx & H1 & H2). rewrite Hx, H1.
      eapply (K_thread s _ t _ (RQ0b r last k)); eauto; reflexivity.
    + (* RQ0b *) destruct (PK r eq_refl) as (x & Hx & H1 & H2). rewrite Hx, H1.
      destruct (remove_is s r x HL Hx H1) as (E1 & E2 & E3).
      eapply (K_work s _ t _ (RQ1 r last k) r x (with_mon x false)); eauto; cbn; rewrite ?E2; auto; rewrite ?H1, ?AT; cbn; try lia.
      intros [D|[_ D]]; congruence.
    + (* RQ1 *) destruct (PK r eq_refl) as (x & Hx & H1 & H2). rewrite Hx.
      destruct (K_at _ HK r x Hx) as (_ & B & _).
      assert (W' : forall b : bool, worker (if b then CL0 r k else RQ2 r last k) = Some r) by (intros []; reflexivity).
      assert (L' : forall b : bool, lasting (if b then CL0 r k else RQ2 r last k) = false) by (intros []; auto).
      assert (Q' : forall b : bool, rq1 r (if b then CL0 r k else RQ2 r last k) = 0) by (intros []; auto).
      eapply (K_work s _ t _ _ r x (with_tries x (tries x - 1))); eauto; try reflexivity; auto.
      * rewrite Q'. cbn. rewrite AT. lia.
      * cbn. lia.
      * cbn. destruct (Z.leb_spec (tries x - 1) 0); intros [D|[_ D]]; try congruence; [|discriminate]. split; [lia|]. split; [lia|auto].
    + (* RQ2 *) destruct (PK r eq_refl) as (x & Hx & H1 & H2). rewrite Hx. subst last.
      eapply (K_thread s _ t _ (RQ3 r k)); eauto; reflexivity.
    + (* RQ3 *) destruct (PK r eq_refl) as (x & Hx & H1 & H2). rewrite Hx.
      eapply (K_work s _ t _ (RQ4 r k) r x (with_attempt x (next_id (counter s)))); eauto; try reflexivity; cbn; auto; try lia. intros [D|[_ D]]; congruence.
    + (* RQ4 *) destruct (RES k) as (R1 & R2 & R3 & R4).
      destruct ch; [congruence|..]; (eapply (K_thread s _ t _ (resume k)); eauto; try reflexivity; intros r'; rewrite R4; reflexivity).
    + (* CL0 *) destruct (PK r eq_refl) as (x & Hx & H1). cbn in H1. rewrite Hx, H1. destruct (CA r x eq_refl Hx (or_intror eq_refl)) as (C1 & C2 & C3).
      eapply (K_work s _ t _ (CL1 r k) r x (with_closed x)); eauto; try reflexivity; cbn; auto; lia.
    + (* CL1 *) destruct (PK r eq_refl) as (x & Hx & H1). rewrite Hx. destruct (CA r x eq_refl Hx (or_intror eq_refl)) as (C1 & C2 & C3). rewrite C3.
      eapply (K_work s _ t _ (CL2 r false k) r x x); eauto; try reflexivity; cbn; auto; try lia. symmetry. apply upd_same. exact Hx.
    + (* CL1b *) destruct (PK r eq_refl) as (x & Hx & H1 & _). destruct (CA r x eq_refl Hx (or_intror eq_refl)) as (C1 & C2 & C3). congruence.
    + (* CL1c *) destruct (PK r eq_refl) as (x & Hx & H1 & _). destruct (CA r x eq_refl Hx (or_intror eq_refl)) as (C1 & C2 & C3). congruence.
    + (* CL2 *) destruct (PK r eq_refl) as (x & Hx & H1 & H2). destruct (CA r x eq_refl Hx (or_intror eq_refl)) as (C1 & C2 & C3).
      destruct (RES k) as (R1 & R2 & R3 & R4).
      destruct ch; [eapply (K_work s _ t _ (resume k) r x x)|eapply (K_work s _ t _ (CL3 r pp k) r x x)|eapply (K_work s _ t _ (CL3 r pp k) r x x)];
        eauto; try reflexivity; try (symmetry; apply upd_same; exact Hx); rewrite ?R4; cbn; auto; lia.
    + (* CL3 *) destruct (PK r eq_refl) as (x & Hx & H1 & H2). rewrite Hx. destruct (CA r x eq_refl Hx (or_intror eq_refl)) as (C1 & C2 & C3).
      destruct (RES k) as (R1 & R2 & R3 & R4).
      destruct pp; [eapply (K_work s _ t _ (CL4 r k) r x (with_ready x))|eapply (K_work s _ t _ (resume k) r x (with_ready x))]; eauto; try reflexivity; rewrite ?R4; cbn; auto; lia.
    + (* CL4 *) destruct (PK r eq_refl) as (x & Hx & H1 & H2). rewrite Hx. destruct (CA r x eq_refl Hx (or_intror eq_refl)) as (C1 & C2 & C3).
      destruct (RES k) as (R1 & R2 & R3 & R4).
      eapply (K_work s _ t _ (resume k) r x (with_post x)); eauto; try reflexivity; rewrite ?R4; cbn; auto; lia.
Qed.

Lemma K_init c : K (init c).
Proof. split; cbn; intros; repeat match goal with H : nth_error [] ?i = Some _ |- _ => destruct i; discriminate H end. Qed.

Lemma valid_step s e : reachable s -> Valid s -> Valid (step s e).
Proof. intros R _. apply reachable_valid. apply reachable_step. exact R. Qed.

Lemma K_exec es : forall s, reachable s -> (counter s + N.of_nat (length es) < 2 ^ 64)%N -> Valid s -> L s -> K s ->
  race_free_exec s es -> fails_throughout s es -> K (exec s es) /\ L (exec s es).
Proof.
  induction es as [|e es IH]; intros s R HN HV HL HK RF FT; [auto|].
  rewrite exec_cons. destruct RF as [RF RF']. destruct FT as [FT FT']. cbn [length] in HN.
  assert (C1 : (counter s + 1 < 2 ^ 64)%N) by lia. pose proof (counter_step s e C1) as C2.
  apply IH; auto.
  - apply reachable_step. exact R.
  - lia.
  - apply valid_step; auto.
  - apply L_step; auto.
  - apply K_step; auto.
Qed.

Lemma K_from_init c0 es : (c0 + N.of_nat (length es) < 2 ^ 64)%N -> race_free_exec (init c0) es -> fails_throughout (init c0) es ->
  K (exec (init c0) es) /\ L (exec (init c0) es).
Proof.
  intros HN RF FT. assert (R : reachable (init c0)) by (exists c0, []; reflexivity).
  apply K_exec; auto; [apply reachable_valid; exact R|apply init_L|apply K_init].
Qed.

Lemma rq1_works r p : rq1 r p <= works_on r p.
Proof. destruct p; cbn; try lia. unfold works_on. cbn. unfold at_. destruct (_ =? _); lia. Qed.

Lemma all_tries_used_l c0 es r x : (c0 + N.of_nat (length es) < 2 ^ 64)%N -> race_free_exec (init c0) es -> fails_throughout (init c0) es ->
  nth_error (runs (exec (init c0) es)) r = Some x ->
  (closedF x = true -> handouts (exec (init c0) es) r = Nat.max 1 (maxtries x)) /\
  (queued (exec (init c0) es) r = 1 -> (Z.of_nat (handouts (exec (init c0) es) r) + tries x = Z.of_nat (maxtries x))%Z).
Proof.
  intros HN RF FT Hx. destruct (K_from_init c0 es HN RF FT) as [HK HL].
  assert (R : reachable (exec (init c0) es)) by (exists c0, es; reflexivity).
  pose proof (handouts_bounded_l _ r x R Hx) as UB. rewrite !handouts_hand in *.
  generalize dependent (exec (init c0) es). intros s Hx HK HL R UB.
  destruct (K_at _ HK r x Hx) as (A & B & C). split.
  - intros CL. destruct (C (or_introl CL)) as (C1 & C2 & C3). rewrite C3 in A. cbn [b2n] in A.
    assert (Z : sumf (rq1 r) (threads s) = 0).
    { apply sumf_zero. rewrite Forall_forall. intros p Hp. apply In_nth_error in Hp. destruct Hp as [t Ht].
      destruct p; cbn; auto. unfold at_. destruct (Nat.eqb_spec r0 r) as [->|]; auto. destruct (L_pc _ HL _ _ _ _ Ht eq_refl Hx). congruence. }
    lia.
  - intros Q. destruct (L_q _ HL r x Hx Q) as [M _]. rewrite M in A. cbn [b2n] in A.
    pose proof (L_one _ HL r) as O. assert (W : workers s r = 0) by lia.
    assert (Z : sumf (rq1 r) (threads s) <= workers s r) by (apply sumf_le; intros; apply rq1_works). lia.
Qed.

(* A handler whose attempt failed. *)
Lemma failed_upload_l c0 es t r x last : let s := exec (init c0) es in
  (c0 + N.of_nat (length es) < 2 ^ 64)%N -> race_free_exec (init c0) es ->
  nth_error (threads s) t = Some (HProc r) -> nth_error (runs s) r = Some x -> (2 <= tries x)%Z ->
  let s' := exec s (EStep t (if last : bool then ChLast else ChFalse) :: requeue_script t) in
  exists x', nth_error (runs s') r = Some x' /\ closedF x' = false /\ tries x' = (if last then 1 else tries x - 1)%Z /\
    attempt x' = next_id (counter s) /\ mget (mapping s') (attempt x) = None /\
    queue s' = queue s ++ [r] /\ nth_error (threads s') t = Some Done.
Proof.
  cbn zeta. intros HN HR Ht Hx HT. pose proof (L_from_init _ _ HN HR) as HL.
  generalize dependent (exec (init c0) es). intros s Ht Hx HL.
  destruct (L_pc _ HL _ _ _ _ Ht eq_refl Hx) as [HM HC]. destruct (L_mon _ HL r x Hx HM) as (i & y & B1 & B2 & B3 & B4).
  destruct s as [c rs q m inf th]. cbn [threads runs mapping inflights queue counter] in *.
  rewrite exec_cons. cbn [step threads]. rewrite Ht.
  assert (ST : step_thread (mkS c rs q m inf th) t (HProc r) (if last then ChLast else ChFalse) = mkS c rs q m inf (upd th t (RQ0 r last KEnd)))
    by (destruct last; reflexivity).
  rewrite ST. rewrite (requeue_script_l c rs q m inf _ t r x i y last KEnd); auto; [|eapply nth_error_upd_eq; eauto].
  eexists. cbn [threads runs mapping inflights queue counter]. split; [eapply nth_error_upd_eq; eauto|]. rewrite upd_upd. cbn.
  repeat split; auto.
  - rewrite mget_mdel, N.eqb_refl. reflexivity.
  - eapply nth_error_upd_eq; eauto.
Qed.

Lemma give_up_script_l c rs q m inf th t r x i y last k :
  nth_error th t = Some (RQ0 r last k) -> nth_error rs r = Some x -> mon x = true -> closedF x = false -> (tries x <= 1)%Z ->
  mget m (attempt x) = Some i -> nth_error inf i = Some y -> irun y = r ->
  exec (mkS c rs q m inf th) (give_up_script t) =
  mkS c (upd rs r (with_ready (with_closed (with_tries (with_mon x false) (tries x - 1)%Z)))) q (mdel m (attempt x))
    (upd inf i (mkI (irun y) (iatt y) true true (tmo y) (ntclose y))) (upd th t (resume k)).
Proof.
  intros Ht Hx HM HC HT B1 B2 B3.
  assert (RE : forall p, nth_error (upd rs r p) r = Some p) by (intros; eapply nth_error_upd_eq; eauto).
  assert (TE : forall p, nth_error (upd th t p) t = Some p) by (intros; eapply nth_error_upd_eq; eauto).
  unfold give_up_script. cbn [repeat].
  rewrite exec_cons. cbn [step threads]. rewrite Ht. cbn [step_thread runs]. rewrite Hx, HM.
  unfold set_thread, set_run. cbn [counter runs queue mapping inflights threads].
  rewrite exec_cons. cbn [step threads]. rewrite TE. cbn [step_thread runs]. rewrite Hx, HM.
  unfold remove. unfold set_thread, set_run. cbn [counter runs queue mapping inflights threads].
  rewrite B1, B2, B3, Hx. cbn [counter runs queue mapping inflights threads]. rewrite ?upd_upd.
  rewrite exec_cons. cbn [step threads]. rewrite TE. cbn [step_thread runs]. rewrite RE.
  unfold set_thread, set_run. cbn [counter runs queue mapping inflights threads]. rewrite ?upd_upd.
  change (tries (with_mon x false)) with (tries x).
  destruct (Z.leb_spec (tries x - 1) 0) as [Q|Q]; [|lia].
  rewrite exec_cons. cbn [step threads]. rewrite TE. cbn [step_thread runs]. rewrite RE. cbn [closedF with_tries with_mon]. rewrite HC.
  unfold set_thread, set_run. cbn [counter runs queue mapping inflights threads]. rewrite ?upd_upd.
  rewrite exec_cons. cbn [step threads]. rewrite TE. cbn [step_thread runs]. rewrite RE. cbn [mon with_closed with_tries with_mon].
  unfold set_thread, set_run. cbn [counter runs queue mapping inflights threads]. rewrite ?upd_upd.
  rewrite exec_cons. cbn [step threads]. rewrite TE. cbn [step_thread runs].
  unfold set_thread, set_run. cbn [counter runs queue mapping inflights threads]. rewrite ?upd_upd.
  rewrite exec_cons. cbn [step threads]. rewrite TE. cbn [step_thread runs]. rewrite RE.
  unfold set_thread, set_run. cbn [counter runs queue mapping inflights threads]. rewrite ?upd_upd.
  cbn [exec fold_left]. reflexivity.
Qed.

Lemma out_of_tries_l c0 es t r x k ch : let s := exec (init c0) es in
  (c0 + N.of_nat (length es) < 2 ^ 64)%N -> race_free_exec (init c0) es -> race_free s (EStep t ch) ->
  (nth_error (threads s) t = Some (HProc r) /\ ch <> ChTrue /\ k = KEnd) \/
  (exists i y, (nth_error (threads s) t = Some (TConn i) \/ nth_error (threads s) t = Some (TRdy i)) /\ ch = ChTrue /\
     nth_error (inflights s) i = Some y /\ irun y = r /\ k = KTimer i) ->
  nth_error (runs s) r = Some x -> (tries x <= 1)%Z ->
  let s' := exec s (EStep t ch :: give_up_script t) in
  exists x', nth_error (runs s') r = Some x' /\ closedF x' = true /\ nready x' = S (nready x) /\
    mget (mapping s') (attempt x) = None /\ queue s' = queue s /\ counter s' = counter s /\
    nth_error (threads s') t = Some (match k with KEnd => Done | KTimer i => TSend i end).
Proof.
  cbn zeta. intros HN HR RF Hst Hx HT. pose proof (L_from_init _ _ HN HR) as HL.
  assert (R : reachable (exec (init c0) es)) by (exists c0, es; reflexivity).
  generalize dependent (exec (init c0) es). intros s RF Hst Hx HL R.
  assert (E : exists last p, nth_error (threads s) t = Some p /\ step s (EStep t ch) = set_thread s t (RQ0 r last k)).
  { destruct Hst as [(Ht & Hc & ->)|(i & y & Ht & -> & Hy & <- & ->)].
    - exists (match ch with ChLast => true | _ => false end), (HProc r). split; [exact Ht|]. cbn [step]. rewrite Ht. cbn [step_thread]. destruct ch; [congruence|reflexivity|reflexivity].
    - exists false. destruct Ht as [Ht|Ht]; (eexists; split; [exact Ht|]; cbn [step]; rewrite Ht; cbn [step_thread]; rewrite Hy; reflexivity). }
  destruct E as (last & p & Ht & E). rewrite exec_cons, E.
  assert (HM : mon x = true /\ closedF x = false).
  { destruct Hst as [(Ht' & Hc & ->)|(i & y & Ht' & -> & Hy & <- & ->)].
    - exact (L_pc _ HL _ _ _ _ Ht' eq_refl Hx).
    - destruct (RF i y Ht' Hy) as [M W]. destruct (L_map _ HL _ _ M) as (y' & x' & A & B & C & D & F).
      assert (y' = y) by congruence; subst y'. assert (x' = x) by congruence; subst x'. split; [exact F|].
      pose proof (L_rest _ HL (irun y) x Hx) as RR. pose proof (L_q _ HL (irun y) x Hx) as Q. pose proof (L_one _ HL (irun y)) as O.
      destruct (Nat.eq_dec (queued s (irun y)) 1) as [q|q]; [destruct (Q q); congruence|]. destruct RR as [[? ?]|[? ?]]; [lia|auto|congruence]. }
  destruct HM as [HM HC].
  destruct (L_mon _ HL r x Hx HM) as (i & y & B1 & B2 & B3 & B4).
  destruct s as [c rs q m inf th]. cbn [threads runs mapping inflights queue counter set_thread] in *. unfold set_thread. cbn [threads runs mapping inflights queue counter].
  rewrite (give_up_script_l c rs q m inf _ t r x i y last k); auto; [|eapply nth_error_upd_eq; eauto].
  eexists. cbn [threads runs mapping inflights queue counter]. split; [eapply nth_error_upd_eq; eauto|]. rewrite upd_upd. cbn.
  repeat split; auto.
  - rewrite mget_mdel, N.eqb_refl. reflexivity.
  - erewrite nth_error_upd_eq by eauto. destruct k; reflexivity.
Qed.

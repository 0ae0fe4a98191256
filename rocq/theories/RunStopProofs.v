(* The timer of an attempt that is over stops. *)
From Coq Require Import List Arith ZArith NArith Bool Lia.
From Verif Require Import GoBase RunModel RunSpec RunProofs RunBoundsProofs RunTimerProofs RunLinProofs RunLinFacts RunTriesSpec RunTriesProofs.
Import ListNotations.

Definition waits (i : nat) (p : pc) : Prop := p = TConn i \/ p = TRdy i.
Definition told (p : pc) (y : istate) : Prop := iready y = true /\ (forall i, p = TConn i -> connected y = true).
Definition D (s : state) : Prop := forall t p i y, nth_error (threads s) t = Some p -> waits i p -> nth_error (inflights s) i = Some y ->
  mget (mapping s) (iatt y) = Some i \/ told p y.

Lemma waits_timer i p : waits i p -> tw i p = 1.
Proof. intros [->| ->]; unfold tw; cbn; unfold at_; rewrite Nat.eqb_refl; reflexivity. Qed.

Lemma one_timer s i y t t' p p' : T s -> nth_error (inflights s) i = Some y -> nth_error (threads s) t = Some p -> nth_error (threads s) t' = Some p' ->
  waits i p -> waits i p' -> t = t'.
Proof.
  intros HT Hy H1 H2 W1 W2. destruct (Nat.eq_dec t t'); auto. exfalso.
  pose proof (sumf_two (tw i) _ _ _ _ _ n H1 H2) as S2. rewrite (waits_timer i p W1), (waits_timer i p' W2) in S2.
  destruct (HT i y Hy) as [A _]. lia.
Qed.

(* Frame: threads move to places that do not wait, inflights keep what the timer needs. *)
Lemma D_frame s s' : D s -> mapping s' = mapping s ->
  (forall t p i, nth_error (threads s') t = Some p -> waits i p -> nth_error (threads s) t = Some p) ->
  (forall i y', nth_error (inflights s') i = Some y' -> exists y, nth_error (inflights s) i = Some y /\ iatt y' = iatt y /\
     (iready y = true -> iready y' = true) /\ (connected y = true -> connected y' = true)) -> D s'.
Proof.
  intros HD EM ET EI t p i y' Ht W Hy. destruct (EI _ _ Hy) as (y & Hy0 & E & R & C). rewrite EM, E.
  destruct (HD t p i y (ET _ _ _ Ht W) W Hy0) as [A|[A B]]; [left; exact A|right]. split; auto. intros j Ej. apply C. eapply B; eauto.
Qed.

Lemma inf_upd inf i y z : nth_error inf i = Some y -> iatt z = iatt y -> (iready y = true -> iready z = true) -> (connected y = true -> connected z = true) ->
  forall j y', nth_error (upd inf i z) j = Some y' -> exists y, nth_error inf j = Some y /\ iatt y' = iatt y /\
     (iready y = true -> iready y' = true) /\ (connected y = true -> connected y' = true).
Proof.
  intros Hy E R C j y' H. destruct (Nat.eq_dec i j) as [<-|N].
  - rewrite (nth_error_upd_eq _ _ _ _ Hy) in H. injection H as <-. eauto 6.
  - rewrite nth_error_upd_neq in H by auto. eauto 6.
Qed.

Lemma thread_upd th t p p' : nth_error th t = Some p -> (forall i, ~ waits i p') ->
  forall t' q i, nth_error (upd th t p') t' = Some q -> waits i q -> nth_error th t' = Some q.
Proof.
  intros Ht N t' q i H W. destruct (Nat.eq_dec t t') as [<-|Nt].
  - rewrite (nth_error_upd_eq _ _ _ _ Ht) in H. injection H as <-. destruct (N i W).
  - rewrite nth_error_upd_neq in H by auto. exact H.
Qed.

Lemma same_inf (inf : list istate) : forall j y', nth_error inf j = Some y' -> exists y, nth_error inf j = Some y /\ iatt y' = iatt y /\
     (iready y = true -> iready y' = true) /\ (connected y = true -> connected y' = true).
Proof. eauto 6. Qed.

Lemma D_set s t p p' s' : D s -> nth_error (threads s) t = Some p -> (forall i, ~ waits i p') -> threads s' = upd (threads s) t p' ->
  mapping s' = mapping s -> inflights s' = inflights s -> D s'.
Proof. intros HD Ht N ET EM EI. apply (D_frame s); auto; [rewrite ET; eapply thread_upd; eauto|rewrite EI; apply same_inf]. Qed.

Lemma D_remove s t p p' r x : L s -> D s -> nth_error (threads s) t = Some p -> (forall i, ~ waits i p') -> nth_error (runs s) r = Some x -> mon x = true ->
  D (set_thread (remove s (attempt x)) t p').
Proof.
  intros HL HD Ht N Hx M. destruct (L_mon _ HL r x Hx M) as (i0 & y0 & A & B & C & E).
  unfold remove. rewrite A, B. intros t' q i y' H W Hy. cbn [set_thread threads inflights mapping] in *.
  pose proof (thread_upd _ _ _ _ Ht N _ _ _ H W) as H'.
  destruct (Nat.eq_dec i0 i) as [<-|Ni].
  - rewrite (nth_error_upd_eq _ _ _ _ B) in Hy. injection Hy as <-. right. split; cbn; auto.
  - rewrite nth_error_upd_neq in Hy by auto. rewrite mget_mdel. destruct (N.eqb_spec (attempt x) (iatt y')) as [Ea|Na].
    + exfalso. apply Ni. eapply (L_idist _ HL); eauto. congruence.
    + eapply HD; eauto.
Qed.

Lemma no_waits p : match p with TConn _ | TRdy _ => False | _ => True end -> forall i, ~ waits i p.
Proof. intros H i [->| ->]; exact H. Qed.
Lemma no_waits_resume k : forall i, ~ waits i (resume k).
Proof. intros i [H|H]; destruct k; discriminate. Qed.

Lemma D_step s e : Valid s -> L s -> T s -> D s -> D (step s e).
Proof.
  intros HV HL HT HD. destruct e as [m|n|a|t ch]; cbn [step].
  - apply (D_frame s); auto. apply same_inf.
  - destruct (nth_error (queue s) n) as [r0|] eqn:E; auto. apply (D_frame s); auto; [|apply same_inf].
    intros t p i H W. cbn in H. apply nth_error_app_inv in H. destruct H as [H|[_ ->]]; auto. destruct W; discriminate.
  - destruct (mget (mapping s) a) as [i|] eqn:Em; auto. destruct (nth_error (inflights s) i) as [y|] eqn:E; auto.
    apply (D_frame s); auto.
    + intros t p j H W. cbn in H. apply nth_error_app_inv in H. destruct H as [H|[_ ->]]; auto. destruct W; discriminate.
    + cbn. eapply inf_upd; eauto.
  - destruct (nth_error (threads s) t) as [p|] eqn:Ht; auto.
    assert (PK : forall r, worker p = Some r -> exists x, nth_error (runs s) r = Some x /\ pcok p x).
    { intros r W. pose proof (nth_error_Forall _ _ _ _ (V_t _ HV) Ht) as [G _]. specialize (G _ W).
      destruct (nth_error (runs s) r) as [x|] eqn:Ex; [|apply nth_error_None in Ex; lia].
      exists x. split; auto. eapply (L_pc _ HL); eauto. }
    assert (ST : forall p' s', (forall i, ~ waits i p') -> threads s' = upd (threads s) t p' -> mapping s' = mapping s -> inflights s' = inflights s -> D s')
      by (intros; eapply D_set; eauto).
    destruct p; cbn [step_thread]; auto.
    + destruct (nth_error (runs s) r); auto. eapply ST; try reflexivity. apply no_waits. exact I.
    + (* GR1 *) destruct (PK r eq_refl) as (x & Hx & H1 & H2). rewrite Hx.
      intros t' q i y' H W Hy. cbn [threads inflights mapping] in *.
      assert (FR : forall j w, nth_error (inflights s) j = Some w -> iatt w <> attempt x).
      { intros j w Hw. eapply (L_fp _ HL t (GR1 r)); eauto; cbn; auto. }
      rewrite mget_mset. apply nth_error_app_inv in Hy. destruct Hy as [Hy|[Hi ->]].
      * destruct (N.eqb_spec (attempt x) (iatt y')) as [Ea|_]; [exfalso; eapply FR; eauto|].
        apply nth_error_app_inv in H. destruct H as [H|[_ ->]].
        -- eapply HD; eauto. eapply thread_upd; eauto. apply no_waits. exact I.
        -- exfalso. assert (i < length (inflights s)) by (apply nth_error_Some; congruence). destruct W as [W|W]; [injection W as W; lia|discriminate].
      * cbn [iatt]. rewrite N.eqb_refl. left. congruence.
    + (* TConn *) destruct (nth_error (inflights s) i) as [y|] eqn:Hy; auto.
      assert (RCV : D (if connected y then set_thread (set_inf s i (mkI (irun y) (iatt y) false (iready y) (tmo y) (ntclose y))) t (TRdy i) else s)).
      { destruct (connected y) eqn:Cy; auto. intros t' q j y' H W Hy'. cbn [threads inflights mapping set_thread set_inf] in *.
        destruct (Nat.eq_dec i j) as [<-|Nj].
        - rewrite (nth_error_upd_eq _ _ _ _ Hy) in Hy'. injection Hy' as <-. cbn [iatt].
          destruct (Nat.eq_dec t t') as [<-|Nt].
          + rewrite (nth_error_upd_eq _ _ _ _ Ht) in H. injection H as <-.
            destruct (HD t (TConn i) i y Ht (or_introl eq_refl) Hy) as [A|[A B]]; [left; exact A|right]. split; [exact A|]. discriminate.
          + rewrite nth_error_upd_neq in H by auto. exfalso. apply Nt. eapply (one_timer s i y); eauto. left. reflexivity.
        - rewrite nth_error_upd_neq in Hy' by auto. destruct (Nat.eq_dec t t') as [<-|Nt].
          + rewrite (nth_error_upd_eq _ _ _ _ Ht) in H. injection H as <-. destruct W as [W|W]; congruence.
          + rewrite nth_error_upd_neq in H by auto. eapply HD; eauto. }
      destruct ch; auto. eapply ST; try reflexivity. apply no_waits. exact I.
    + (* TRdy *) destruct (nth_error (inflights s) i) as [y|] eqn:Hy; auto.
      assert (RCV : D (if iready y then set_thread (set_inf s i (mkI (irun y) (iatt y) (connected y) false (tmo y) (ntclose y))) t (TFin i) else s)).
      { destruct (iready y) eqn:Cy; auto. intros t' q j y' H W Hy'. cbn [threads inflights mapping set_thread set_inf] in *.
        destruct (Nat.eq_dec t t') as [<-|Nt].
        - rewrite (nth_error_upd_eq _ _ _ _ Ht) in H. injection H as <-. destruct W; discriminate.
        - rewrite nth_error_upd_neq in H by auto. destruct (Nat.eq_dec i j) as [<-|Nj].
          + exfalso. apply Nt. eapply (one_timer s i y); eauto. right. reflexivity.
          + rewrite nth_error_upd_neq in Hy' by auto. eapply HD; eauto. }
      destruct ch; auto. eapply ST; try reflexivity. apply no_waits. exact I.
    + destruct (nth_error (inflights s) i) as [y|] eqn:Hy; auto. destruct (tmo y); auto.
      apply (D_frame s); auto; cbn; [eapply thread_upd; eauto; apply no_waits; exact I|eapply inf_upd; eauto].
    + destruct (nth_error (inflights s) i) as [y|] eqn:Hy; auto.
      apply (D_frame s); auto; cbn; [eapply thread_upd; eauto; apply no_waits; exact I|eapply inf_upd; eauto].
    + destruct ch; (eapply ST; try reflexivity; apply no_waits; exact I).
    + destruct (nth_error (runs s) r) as [x|]; auto. destruct (mon x); (eapply ST; try reflexivity; apply no_waits; exact I).
    + destruct (PK r eq_refl) as (x & Hx & H1 & H2). rewrite Hx, H1. eapply D_remove; eauto. apply no_waits; exact I.
    + destruct (nth_error (runs s) r) as [x|]; auto. destruct (_ <=? _)%Z; (eapply ST; try reflexivity; apply no_waits; exact I).
    + destruct (nth_error (runs s) r) as [x|]; auto. destruct last; (eapply ST; try reflexivity; apply no_waits; exact I).
    + destruct (nth_error (runs s) r) as [x|]; auto. eapply ST; try reflexivity; apply no_waits; exact I.
    + destruct ch; (eapply ST; try reflexivity; (apply no_waits_resume || apply no_waits; exact I)).
    + destruct (nth_error (runs s) r) as [x|]; auto. destruct (closedF x); (eapply ST; try reflexivity; (apply no_waits_resume || apply no_waits; exact I)).
    + destruct (nth_error (runs s) r) as [x|]; auto. destruct (mon x); (eapply ST; try reflexivity; apply no_waits; exact I).
    + destruct (nth_error (runs s) r) as [x|]; auto. destruct (mon x); (eapply ST; try reflexivity; apply no_waits; exact I).
    + destruct (PK r eq_refl) as (x & Hx & H1 & H2). rewrite Hx, H1. eapply D_remove; eauto. apply no_waits; exact I.
    + destruct ch; (eapply ST; try reflexivity; (apply no_waits_resume || apply no_waits; exact I)).
    + destruct (nth_error (runs s) r) as [x|]; auto. destruct pp; (eapply ST; try reflexivity; (apply no_waits_resume || apply no_waits; exact I)).
    + destruct (nth_error (runs s) r) as [x|]; auto. eapply ST; try reflexivity; apply no_waits_resume.
Qed.

Lemma D_exec es : forall s, reachable s -> (counter s + N.of_nat (length es) < 2 ^ 64)%N -> L s -> D s -> race_free_exec s es -> D (exec s es).
Proof.
  induction es as [|e es IH]; intros s R HN HL HD RF; [auto|].
  rewrite exec_cons. destruct RF as [RF RF']. cbn [length] in HN.
  assert (C1 : (counter s + 1 < 2 ^ 64)%N) by lia. pose proof (counter_step s e C1) as C2. pose proof (reachable_valid _ R) as HV.
  apply IH; auto.
  - apply reachable_step. exact R.
  - lia.
  - apply L_step; auto.
  - apply D_step; auto. apply T_reachable. exact R.
Qed.

Lemma timer_stops_l c0 es t i y : let s := exec (init c0) es in
  (c0 + N.of_nat (length es) < 2 ^ 64)%N -> race_free_exec (init c0) es ->
  nth_error (threads s) t = Some (TConn i) \/ nth_error (threads s) t = Some (TRdy i) ->
  nth_error (inflights s) i = Some y -> mget (mapping s) (iatt y) <> Some i ->
  exists n y', let s' := exec s (repeat (EStep t ChFalse) n) in
    nth_error (threads s') t = Some Done /\ nth_error (inflights s') i = Some y' /\ ntclose y' = S (ntclose y) /\ tmo y' = tmo y /\
    runs s' = runs s /\ queue s' = queue s /\ mapping s' = mapping s.
Proof.
  cbn zeta. intros HN RF Ht Hy NM.
  assert (HD : D (exec (init c0) es)).
  { apply D_exec; auto; [exists c0, []; reflexivity|apply init_L|]. intros ? ? ? ? H. cbn in H. destruct t0; discriminate. }
  generalize dependent (exec (init c0) es). intros s Ht Hy NM HD.
  assert (FIN : forall th inf m rs q c y1, nth_error th t = Some (TRdy i) -> nth_error inf i = Some y1 -> iready y1 = true ->
    exec (mkS c rs q m inf th) (repeat (EStep t ChFalse) 2) =
    mkS c rs q m (upd inf i (mkI (irun y1) (iatt y1) (connected y1) false (tmo y1) (S (ntclose y1)))) (upd th t Done)).
  { intros th inf m rs q c y1 H1 H2 H3. cbn [repeat]. rewrite exec_cons. cbn [step threads]. rewrite H1. cbn [step_thread inflights]. rewrite H2, H3.
    unfold set_thread, set_inf. cbn [counter runs queue mapping inflights threads].
    rewrite exec_cons. cbn [step threads]. rewrite (nth_error_upd_eq _ _ _ _ H1). cbn [step_thread inflights]. rewrite (nth_error_upd_eq _ _ _ _ H2).
    unfold set_thread, set_inf. cbn [counter runs queue mapping inflights threads irun iatt connected iready tmo ntclose]. rewrite !upd_upd. reflexivity. }
  destruct s as [c rs q m inf th]. cbn [threads runs mapping inflights queue counter] in *.
  destruct Ht as [Ht|Ht].
  - destruct (HD t _ i y Ht (or_introl eq_refl) Hy) as [A|[A B]]; [contradiction|]. specialize (B i eq_refl).
    set (y1 := mkI (irun y) (iatt y) false (iready y) (tmo y) (ntclose y)).
    exists 3. eexists. change (repeat (EStep t ChFalse) 3) with (EStep t ChFalse :: repeat (EStep t ChFalse) 2). rewrite exec_cons. cbn [step threads]. rewrite Ht. cbn [step_thread inflights]. rewrite Hy, B.
    unfold set_thread, set_inf. cbn [counter runs queue mapping inflights threads]. fold y1.
    rewrite (FIN _ _ m rs q c y1); [|eapply nth_error_upd_eq; eauto|eapply nth_error_upd_eq; eauto|exact A].
    cbn [counter runs queue mapping inflights threads]. rewrite !upd_upd. split; [eapply nth_error_upd_eq; eauto|]. split; [eapply nth_error_upd_eq; eauto|]. cbn. auto.
  - destruct (HD t _ i y Ht (or_intror eq_refl) Hy) as [A|[A _]]; [contradiction|].
    exists 2. eexists. rewrite (FIN _ _ m rs q c y) by assumption.
    cbn [counter runs queue mapping inflights threads]. split; [eapply nth_error_upd_eq; eauto|]. split; [eapply nth_error_upd_eq; eauto|]. cbn. auto.
Qed.

(* Race-free executions: every run is in exactly one place. *)
From Coq Require Import List Arith ZArith NArith Bool Lia.
From Verif Require Import GoBase RunModel RunSpec RunProofs RunBoundsProofs.
Import ListNotations.

Lemma mget_mdel m a b : mget (mdel m a) b = if N.eqb a b then None else mget m b.
Proof.
  unfold mget, mdel. induction m as [|[k v] m IH]; cbn.
  - destruct (N.eqb a b); reflexivity.
  - destruct (N.eqb_spec k a) as [->|Hk]; cbn.
    + rewrite IH. destruct (N.eqb_spec a b); reflexivity.
    + destruct (N.eqb_spec k b) as [->|Hk2].
      * destruct (N.eqb_spec a b); [congruence|reflexivity].
      * exact IH.
Qed.

Lemma mget_mset m a i b : mget (mset m a i) b = if N.eqb a b then Some i else mget m b.
Proof.
  unfold mset. pose proof (mget_mdel m a b) as H. unfold mget in *. cbn.
  destruct (N.eqb_spec a b); [reflexivity|]. exact H.
Qed.

Lemma sumf_two {A} (f : A -> nat) l i j x y :
  i <> j -> nth_error l i = Some x -> nth_error l j = Some y -> f x + f y <= sumf f l.
Proof.
  revert i j; induction l as [|h t IH]; intros [|i] [|j] N Hx Hy; simpl in *; try discriminate; try lia.
  - injection Hx as ->. apply (sumf_ge f) in Hy. lia.
  - injection Hy as ->. apply (sumf_ge f) in Hx. lia.
  - assert (i <> j) by lia. specialize (IH _ _ H Hx Hy). lia.
Qed.

Definition pcok (p : pc) (x : rstate) : Prop :=
  match p with
  | GR0 _ | GR1 _ | RQ1 _ _ _ | RQ2 _ _ _ | RQ3 _ _ | RQ4 _ _ => mon x = false /\ closedF x = false
  | HProc _ | RQ0 _ _ _ | RQ0b _ _ _ => mon x = true /\ closedF x = false
  | CL0 _ _ => closedF x = false
  | CL1 _ _ => closedF x = true
  | CL1b _ _ | CL1c _ _ => mon x = true /\ closedF x = true
  | CL2 _ _ _ | CL3 _ _ _ | CL4 _ _ => mon x = false /\ closedF x = true
  | _ => True
  end.

Definition needs_fresh (p : pc) : Prop :=
  match p with GR0 _ | GR1 _ | RQ4 _ _ => True | _ => False end.

Record L (s : state) : Prop := {
  L_one : forall r, queued s r + workers s r <= 1;
  L_q : forall r x, nth_error (runs s) r = Some x -> queued s r = 1 -> mon x = false /\ closedF x = false;
  L_rest : forall r x, nth_error (runs s) r = Some x -> queued s r + workers s r = 0 ->
     (mon x = true /\ closedF x = false) \/ (mon x = false /\ closedF x = true);
  L_mon : forall r x, nth_error (runs s) r = Some x -> mon x = true ->
     exists i y, mget (mapping s) (attempt x) = Some i /\ nth_error (inflights s) i = Some y /\ irun y = r /\ iatt y = attempt x;
  L_map : forall a i, mget (mapping s) a = Some i ->
     exists y x, nth_error (inflights s) i = Some y /\ iatt y = a /\ nth_error (runs s) (irun y) = Some x /\ attempt x = a /\ mon x = true;
  L_pc : forall t p r x, nth_error (threads s) t = Some p -> worker p = Some r -> nth_error (runs s) r = Some x -> pcok p x;
  L_nopanic : ~ In Panic (threads s);
  L_att : forall r x, nth_error (runs s) r = Some x -> (attempt x <= counter s)%N;
  L_iatt : forall i y, nth_error (inflights s) i = Some y -> (iatt y <= counter s)%N;
  L_dist : forall r1 r2 x1 x2, nth_error (runs s) r1 = Some x1 -> nth_error (runs s) r2 = Some x2 -> attempt x1 = attempt x2 -> r1 = r2;
  L_idist : forall i1 i2 y1 y2, nth_error (inflights s) i1 = Some y1 -> nth_error (inflights s) i2 = Some y2 -> iatt y1 = iatt y2 -> i1 = i2;
  L_fq : forall r x i y, nth_error (runs s) r = Some x -> queued s r = 1 -> nth_error (inflights s) i = Some y -> iatt y <> attempt x;
  L_fp : forall t p r x i y, nth_error (threads s) t = Some p -> needs_fresh p -> worker p = Some r ->
     nth_error (runs s) r = Some x -> nth_error (inflights s) i = Some y -> iatt y <> attempt x
}.

Lemma works_on_eq r p : worker p = Some r -> works_on r p = 1.
Proof. intros H. unfold works_on. rewrite H, Nat.eqb_refl. reflexivity. Qed.
Lemma works_on_neq r p : worker p <> Some r -> works_on r p = 0.
Proof. intros H. unfold works_on. destruct (worker p) as [r'|]; auto. destruct (Nat.eqb_spec r' r); congruence. Qed.

Lemma worker_unique s r t1 t2 p1 p2 : L s -> nth_error (threads s) t1 = Some p1 -> nth_error (threads s) t2 = Some p2 ->
  worker p1 = Some r -> worker p2 = Some r -> t1 = t2.
Proof.
  intros HL H1 H2 W1 W2. destruct (Nat.eq_dec t1 t2); auto. exfalso.
  pose proof (sumf_two (works_on r) _ _ _ _ _ n H1 H2). rewrite !works_on_eq in H by auto.
  pose proof (L_one _ HL r). unfold workers in *. lia.
Qed.

Lemma init_L c : L (init c).
Proof.
  split; cbn; intros;
    repeat match goal with H : nth_error [] ?i = Some _ |- _ => destruct i; discriminate H end;
    auto; try discriminate.
Qed.

Lemma in_upd' {A} (l : list A) i x y : In y (upd l i x) -> y = x \/ In y l.
Proof. revert i; induction l as [|h t IH]; intros [|i]; simpl; intros H; auto; intuition. apply IH in H0. intuition. Qed.

(* A step of the unique worker of run r that keeps mon and attempt. *)
Lemma L_work s t p p' r x x' :
  L s -> nth_error (threads s) t = Some p -> worker p = Some r -> nth_error (runs s) r = Some x ->
  mon x' = mon x -> attempt x' = attempt x -> p' <> Panic ->
  ((worker p' = Some r /\ pcok p' x' /\ (needs_fresh p' -> needs_fresh p)) \/
   (worker p' = None /\ mon x' = false /\ closedF x' = true)) ->
  L (set_thread (set_run s r x') t p').
Proof.
  intros HL Ht Hw Hr Em Ea Np HC.
  assert (Hnp' : forall t' q r', t' <> t -> nth_error (threads s) t' = Some q -> worker q = Some r' -> r' <> r).
  { intros t' q r' N H1 H2 ->. apply N. eapply (worker_unique s); eauto. }
  assert (WK : forall r', workers (set_thread (set_run s r x') t p') r' + works_on r' p = workers s r' + works_on r' p').
  { intros r'. apply (sumf_upd (works_on r') _ _ _ p' Ht). }
  assert (Wr : works_on r p = 1) by (apply works_on_eq; auto).
  assert (Wn : forall r', r' <> r -> works_on r' p = 0 /\ works_on r' p' = 0).
  { intros r' N. split; apply works_on_neq; [congruence|]. destruct HC as [[-> _]|[-> _]]; congruence. }
  assert (Wp : works_on r p' <= 1) by (unfold works_on; destruct (worker p') as [q|]; [destruct (Nat.eqb q r)|]; lia).
  assert (RN : forall r' y, nth_error (runs (set_thread (set_run s r x') t p')) r' = Some y ->
     (r' = r /\ y = x') \/ (r' <> r /\ nth_error (runs s) r' = Some y)).
  { intros r' y H. cbn in H. destruct (Nat.eq_dec r r') as [<-|N].
    - rewrite (nth_error_upd_eq _ _ _ _ Hr) in H. injection H as <-. auto.
    - rewrite nth_error_upd_neq in H by auto. auto. }
  assert (TN : forall t' q, nth_error (threads (set_thread (set_run s r x') t p')) t' = Some q ->
     (t' = t /\ q = p') \/ (t' <> t /\ nth_error (threads s) t' = Some q)).
  { intros r' y H. cbn in H. destruct (Nat.eq_dec t r') as [<-|N].
    - rewrite (nth_error_upd_eq _ _ _ _ Ht) in H. injection H as <-. auto.
    - rewrite nth_error_upd_neq in H by auto. auto. }
  assert (Q : forall r', queued (set_thread (set_run s r x') t p') r' = queued s r') by reflexivity.
  assert (W1 : workers s r >= 1) by (pose proof (sumf_ge (works_on r) _ _ _ Ht); unfold workers in *; lia).
  assert (Q1 : queued s r = 0) by (pose proof (L_one _ HL r); lia).
  split.
  - intros r'. rewrite Q. specialize (WK r'). pose proof (L_one _ HL r').
    destruct (Nat.eq_dec r' r) as [->|N]; [lia|]. destruct (Wn _ N). lia.
  - intros r' y H HQ. rewrite Q in HQ. destruct (RN _ _ H) as [[-> ->]|[N H']]; [lia|]. eapply (L_q _ HL); eauto.
  - intros r' y H HQ. rewrite Q in HQ. specialize (WK r'). destruct (RN _ _ H) as [[-> ->]|[N H']].
    + destruct HC as [[W _]|[_ [C D]]]; [|auto]. rewrite (works_on_eq _ _ W) in WK. lia.
    + destruct (Wn _ N). eapply (L_rest _ HL); eauto. lia.
  - intros r' y H HM. destruct (RN _ _ H) as [[-> ->]|[N H']].
    + rewrite Ea. eapply (L_mon _ HL); eauto; congruence.
    + eapply (L_mon _ HL); eauto.
  - intros a i H. destruct (L_map _ HL a i H) as (y & z & A & B & C & D & E).
    cbn. destruct (Nat.eq_dec (irun y) r) as [Er|N].
    + exists y, x'. rewrite Er in *. repeat split; auto; try congruence. eapply nth_error_upd_eq; eauto.
    + exists y, z. repeat split; auto. rewrite nth_error_upd_neq; auto.
  - intros t' q r' y H W H2. destruct (TN _ _ H) as [[-> ->]|[N H']].
    + destruct HC as [[W' [C _]]|[W' _]]; [|congruence]. rewrite W in W'. injection W' as ->.
      destruct (RN _ _ H2) as [[_ ->]|[N _]]; [auto|congruence].
    + pose proof (Hnp' _ _ _ N H' W). destruct (RN _ _ H2) as [[-> _]|[_ H2']]; [congruence|]. eapply (L_pc _ HL); eauto.
  - cbn. intros H. apply in_upd' in H. destruct H; [congruence|]. eapply (L_nopanic _ HL); eauto.
  - intros r' y H. cbn [counter set_thread set_run]. destruct (RN _ _ H) as [[-> ->]|[N H']]; [rewrite Ea|]; eapply (L_att _ HL); eauto.
  - intros i y H. eapply (L_iatt _ HL); eauto.
  - intros r1 r2 y1 y2 H1 H2 E.
    destruct (RN _ _ H1) as [[-> ->]|[N1 H1']], (RN _ _ H2) as [[-> ->]|[N2 H2']]; auto; rewrite ?Ea in E; eapply (L_dist _ HL); eauto.
  - intros i1 i2 y1 y2 H1 H2 E. eapply (L_idist _ HL); eauto.
  - intros r' y i z H HQ Hz. rewrite Q in HQ. destruct (RN _ _ H) as [[-> ->]|[N H']]; [lia|]. eapply (L_fq _ HL); eauto.
  - intros t' q r' y i z H HF W H2 Hz. destruct (TN _ _ H) as [[-> ->]|[N H']].
    + destruct HC as [[W' [_ C]]|[W' _]]; [|congruence]. rewrite W in W'. injection W' as ->.
      destruct (RN _ _ H2) as [[_ ->]|[N _]]; [|congruence]. rewrite Ea. eapply (L_fp _ HL t p); eauto.
    + pose proof (Hnp' _ _ _ N H' W). destruct (RN _ _ H2) as [[-> _]|[_ H2']]; [congruence|]. eapply (L_fp _ HL t' q); eauto.
Qed.

(* A state that differs only in the flags of in-flight records. *)
Lemma L_ext s s' :
  counter s' = counter s -> runs s' = runs s -> queue s' = queue s -> mapping s' = mapping s -> threads s' = threads s ->
  map irun (inflights s') = map irun (inflights s) -> map iatt (inflights s') = map iatt (inflights s) -> L s -> L s'.
Proof.
  intros E1 E2 E3 E4 E5 E6 E7 HL.
  assert (NI : forall i y, nth_error (inflights s') i = Some y -> exists y0, nth_error (inflights s) i = Some y0 /\ irun y0 = irun y /\ iatt y0 = iatt y).
  { intros i y H. pose proof (map_nth_error irun _ _ H) as A. pose proof (map_nth_error iatt _ _ H) as B.
    rewrite E6 in A. rewrite E7 in B. destruct (nth_error (inflights s) i) as [y0|] eqn:F.
    - rewrite (map_nth_error irun _ _ F) in A. rewrite (map_nth_error iatt _ _ F) in B. exists y0. repeat split; congruence.
    - exfalso. apply nth_error_None in F. assert (nth_error (map irun (inflights s)) i = None) by (apply nth_error_None; rewrite map_length; auto). congruence. }
  assert (NI' : forall i y, nth_error (inflights s) i = Some y -> exists y0, nth_error (inflights s') i = Some y0 /\ irun y0 = irun y /\ iatt y0 = iatt y).
  { intros i y H. pose proof (map_nth_error irun _ _ H) as A. pose proof (map_nth_error iatt _ _ H) as B.
    rewrite <- E6 in A. rewrite <- E7 in B. destruct (nth_error (inflights s') i) as [y0|] eqn:F.
    - rewrite (map_nth_error irun _ _ F) in A. rewrite (map_nth_error iatt _ _ F) in B. exists y0. repeat split; congruence.
    - exfalso. apply nth_error_None in F. assert (nth_error (map irun (inflights s')) i = None) by (apply nth_error_None; rewrite map_length; auto). congruence. }
  destruct HL as [A1 A2 A3 A4 A5 A6 A7 A8 A9 A10 A11 A12 A13].
  unfold queued, workers in *.
  split; unfold queued, workers in *; rewrite ?E1, ?E2, ?E3, ?E4, ?E5; auto.
  - intros r x H M. destruct (A4 r x H M) as (i & y & B1 & B2 & B3 & B4).
    destruct (NI' _ _ B2) as (y0 & C1 & C2 & C3). exists i, y0. repeat split; auto; congruence.
  - intros a i H. destruct (A5 a i H) as (y & x & B1 & B2 & B3 & B4 & B5).
    destruct (NI' _ _ B1) as (y0 & C1 & C2 & C3). exists y0, x. rewrite C2, C3. auto.
  - intros i y H. destruct (NI _ _ H) as (y0 & C1 & C2 & <-). eauto.
  - intros i1 i2 y1 y2 H1 H2 E. destruct (NI _ _ H1) as (z1 & C1 & C2 & C3), (NI _ _ H2) as (z2 & D1 & D2 & D3).
    eapply A11; eauto. congruence.
  - intros r x i y H HQ Hy. destruct (NI _ _ Hy) as (y0 & C1 & C2 & <-). eauto.
  - intros t p r x i y H HF W Hx Hy. destruct (NI _ _ Hy) as (y0 & C1 & C2 & <-). eauto.
Qed.

(* A step of a thread that is not a worker and does not become one. *)
Lemma L_idle s t p p' : L s -> nth_error (threads s) t = Some p -> worker p = None -> worker p' = None -> p' <> Panic -> L (set_thread s t p').
Proof.
  intros HL Ht W W' Np.
  assert (WK : forall r', workers (set_thread s t p') r' = workers s r').
  { intros r'. pose proof (sumf_upd (works_on r') _ _ _ p' Ht) as H.
    rewrite !works_on_neq in H by congruence. unfold workers; cbn. lia. }
  assert (TN : forall t' q, nth_error (threads (set_thread s t p')) t' = Some q ->
     q = p' \/ nth_error (threads s) t' = Some q).
  { intros r' y H. cbn in H. destruct (Nat.eq_dec t r') as [<-|N].
    - rewrite (nth_error_upd_eq _ _ _ _ Ht) in H. injection H as <-. auto.
    - rewrite nth_error_upd_neq in H by auto. auto. }
  destruct HL as [A1 A2 A3 A4 A5 A6 A7 A8 A9 A10 A11 A12 A13].
  split; auto.
  - intros r. rewrite WK. apply A1.
  - intros r x H HQ. rewrite WK in HQ. eapply A3; eauto.
  - intros t' q r x H Wq Hx. destruct (TN _ _ H) as [->|H']; [congruence|eauto].
  - cbn. intros H. apply in_upd' in H. destruct H; auto.
  - intros t' q r x i y H HF Wq Hx Hy. destruct (TN _ _ H) as [->|H']; [congruence|eauto].
Qed.

(* A new worker appears for a run that is in flight and unattended. *)
Lemma L_attach_thread s t p p' r x :
  L s -> nth_error (threads s) t = Some p -> worker p = None -> worker p' = Some r -> p' <> Panic ->
  nth_error (runs s) r = Some x -> mon x = true -> closedF x = false -> workers s r = 0 -> pcok p' x -> ~ needs_fresh p' ->
  L (set_thread s t p').
Proof.
  intros HL Ht W W' Np Hx HM HC HW Hok Hf.
  assert (Q0 : queued s r = 0).
  { pose proof (L_one _ HL r). destruct (Nat.eq_dec (queued s r) 1); [|lia]. destruct (L_q _ HL r x Hx e). congruence. }
  assert (WK : forall r', workers (set_thread s t p') r' = workers s r' + at_ r' r).
  { intros r'. pose proof (sumf_upd (works_on r') _ _ _ p' Ht) as H.
    rewrite (works_on_neq r' p) in H by congruence. unfold workers; cbn. unfold works_on in H at 3. rewrite W' in H. unfold at_. lia. }
  assert (TN : forall t' q, nth_error (threads (set_thread s t p')) t' = Some q ->
     q = p' \/ nth_error (threads s) t' = Some q).
  { intros r' y H. cbn in H. destruct (Nat.eq_dec t r') as [<-|N].
    - rewrite (nth_error_upd_eq _ _ _ _ Ht) in H. injection H as <-. auto.
    - rewrite nth_error_upd_neq in H by auto. auto. }
  destruct HL as [A1 A2 A3 A4 A5 A6 A7 A8 A9 A10 A11 A12 A13].
  split; auto.
  - intros r'. rewrite WK. unfold at_. destruct (Nat.eqb_spec r r') as [<-|]; [|rewrite Nat.add_0_r; apply A1].
    change (queued (set_thread s t p') r) with (queued s r). lia.
  - intros r' y H HQ. rewrite WK in HQ. eapply A3; eauto. unfold queued in *. cbn in HQ. lia.
  - intros t' q r' y H Wq Hy. destruct (TN _ _ H) as [->|H']; [|eauto].
    cbn in Hy. assert (r' = r) by congruence. subst. assert (y = x) by congruence. subst. auto.
  - cbn. intros H. apply in_upd' in H. destruct H; auto.
  - intros t' q r' y i z H HF Wq Hy Hz. destruct (TN _ _ H) as [->|H']; [contradiction|eauto].
Qed.

Lemma L_spawn s p r x :
  L s -> worker p = Some r -> p <> Panic ->
  nth_error (runs s) r = Some x -> mon x = true -> closedF x = false -> workers s r = 0 -> pcok p x -> ~ needs_fresh p ->
  L (spawn s p).
Proof.
  intros HL W' Np Hx HM HC HW Hok Hf.
  assert (Q0 : queued s r = 0).
  { pose proof (L_one _ HL r). destruct (Nat.eq_dec (queued s r) 1); [|lia]. destruct (L_q _ HL r x Hx e). congruence. }
  assert (WK : forall r', workers (spawn s p) r' = workers s r' + at_ r' r).
  { intros r'. unfold workers; cbn. rewrite sumf_app. cbn. unfold works_on at 2. rewrite W'. unfold at_. lia. }
  assert (TN : forall t' q, nth_error (threads (spawn s p)) t' = Some q -> q = p \/ nth_error (threads s) t' = Some q).
  { intros t' q H. cbn in H. apply nth_error_app_inv in H. intuition. }
  destruct HL as [A1 A2 A3 A4 A5 A6 A7 A8 A9 A10 A11 A12 A13].
  split; auto.
  - intros r'. rewrite WK. unfold at_. destruct (Nat.eqb_spec r r') as [<-|]; [|rewrite Nat.add_0_r; apply A1].
    change (queued (spawn s p) r) with (queued s r). lia.
  - intros r' y H HQ. rewrite WK in HQ. eapply A3; eauto. unfold queued in *. cbn in HQ. lia.
  - intros t' q r' y H Wq Hy. destruct (TN _ _ H) as [->|H']; [|eauto].
    cbn in Hy. assert (r' = r) by congruence. subst. assert (y = x) by congruence. subst. auto.
  - cbn. intros H. apply in_app_or in H. destruct H as [H|[H|[]]]; auto.
  - intros t' q r' y i z H HF Wq Hy Hz. destruct (TN _ _ H) as [->|H']; [contradiction|eauto].
Qed.

(* Remove on the current attempt of the run held by the unique worker. *)
Lemma L_remove s t p p' r x :
  L s -> nth_error (threads s) t = Some p -> worker p = Some r -> nth_error (runs s) r = Some x -> mon x = true ->
  worker p' = Some r -> p' <> Panic -> pcok p' (with_mon x false) -> ~ needs_fresh p' ->
  L (set_thread (remove s (attempt x)) t p').
Proof.
  intros HL Ht W Hx HM W' Np Hok Hf.
  destruct (L_mon _ HL r x Hx HM) as (i & y & B1 & B2 & B3 & B4).
  assert (E : remove s (attempt x) = mkS (counter s) (upd (runs s) r (with_mon x false)) (queue s) (mdel (mapping s) (attempt x))
      (upd (inflights s) i (mkI (irun y) (iatt y) true true (tmo y) (ntclose y))) (threads s)).
  { unfold remove. rewrite B1, B2, B3, Hx. reflexivity. }
  rewrite E.
  set (s1 := mkS (counter s) (upd (runs s) r (with_mon x false)) (queue s) (mdel (mapping s) (attempt x)) (inflights s) (upd (threads s) t p')).
  apply (L_ext s1); try reflexivity.
  - cbn. eapply map_upd_same; eauto.
  - cbn. eapply map_upd_same; eauto.
  - assert (Hnp' : forall t' q r', t' <> t -> nth_error (threads s) t' = Some q -> worker q = Some r' -> r' <> r).
    { intros t' q r' N H1 H2 ->. apply N. eapply (worker_unique s); eauto. }
    assert (WK : forall r', workers s1 r' = workers s r').
    { intros r'. pose proof (sumf_upd (works_on r') _ _ _ p' Ht) as H. unfold works_on in H at 2 4. rewrite W, W' in H.
      unfold workers; cbn. lia. }
    assert (W1 : workers s r >= 1). { pose proof (sumf_ge (works_on r) _ _ _ Ht) as G. rewrite works_on_eq in G by auto. unfold workers. lia. }
    assert (RN : forall r' z, nth_error (runs s1) r' = Some z ->
       (r' = r /\ z = with_mon x false) \/ (r' <> r /\ nth_error (runs s) r' = Some z)).
    { intros r' z H. cbn in H. destruct (Nat.eq_dec r r') as [<-|N].
      - rewrite (nth_error_upd_eq _ _ _ _ Hx) in H. injection H as <-. auto.
      - rewrite nth_error_upd_neq in H by auto. auto. }
    assert (TN : forall t' q, nth_error (threads s1) t' = Some q -> (t' = t /\ q = p') \/ (t' <> t /\ nth_error (threads s) t' = Some q)).
    { intros t' q H. cbn in H. destruct (Nat.eq_dec t t') as [<-|N].
      - rewrite (nth_error_upd_eq _ _ _ _ Ht) in H. injection H as <-. auto.
      - rewrite nth_error_upd_neq in H by auto. auto. }
    pose proof HL as HL0.
    destruct HL as [A1 A2 A3 A4 A5 A6 A7 A8 A9 A10 A11 A12 A13].
    split.
    + intros r'. rewrite WK. apply A1.
    + intros r' z H HQ. destruct (RN _ _ H) as [[-> ->]|[N H']]; [|eauto]. exfalso. specialize (A1 r).
      change (queued s1 r) with (queued s r) in HQ. lia.
    + intros r' z H HQ. rewrite WK in HQ. destruct (RN _ _ H) as [[-> ->]|[N H']]; [lia|]. eapply A3; eauto.
    + intros r' z H HMz. destruct (RN _ _ H) as [[-> ->]|[N H']]; [discriminate|].
      destruct (A4 r' z H' HMz) as (j & w & C1 & C2 & C3 & C4). exists j, w. repeat split; auto.
      cbn. rewrite mget_mdel. destruct (N.eqb_spec (attempt x) (attempt z)); auto. exfalso. apply N. eapply A10; eauto.
    + intros a j H. cbn in H. rewrite mget_mdel in H. destruct (N.eqb_spec (attempt x) a); [discriminate|].
      destruct (A5 a j H) as (w & z & C1 & C2 & C3 & C4 & C5). exists w, z. repeat split; auto.
      cbn. rewrite nth_error_upd_neq; auto. intros ->. congruence.
    + intros t' q r' z H Wq Hz. destruct (TN _ _ H) as [[-> ->]|[N H']].
      * rewrite W' in Wq. injection Wq as <-. destruct (RN _ _ Hz) as [[_ ->]|[N _]]; [auto|congruence].
      * pose proof (Hnp' _ _ _ N H' Wq). destruct (RN _ _ Hz) as [[-> _]|[_ Hz']]; [congruence|eauto].
    + cbn. intros H. apply in_upd' in H. destruct H; auto.
    + intros r' z H. cbn [counter s1]. destruct (RN _ _ H) as [[-> ->]|[N H']]; [apply (A8 r x Hx)|eauto].
    + exact A9.
    + intros r1 r2 y1 y2 H1 H2 Ee.
      destruct (RN _ _ H1) as [[-> ->]|[N1 H1']], (RN _ _ H2) as [[-> ->]|[N2 H2']]; auto; eapply A10; eauto.
    + exact A11.
    + intros r' z j w H HQ Hw. destruct (RN _ _ H) as [[-> ->]|[N H']]; [|eauto]. exfalso. specialize (A1 r).
      change (queued s1 r) with (queued s r) in HQ. lia.
    + intros t' q r' z j w H HF Wq Hz Hw. destruct (TN _ _ H) as [[-> ->]|[N H']]; [contradiction|].
      pose proof (Hnp' _ _ _ N H' Wq). destruct (RN _ _ Hz) as [[-> _]|[_ Hz']]; [congruence|eauto].
Qed.

Lemma next_id_small c : (c + 1 < 2 ^ 64)%N -> next_id c = (c + 1)%N.
Proof. intros H. unfold next_id. apply N.mod_small. exact H. Qed.

Lemma L_step s e : (counter s + 1 < 2 ^ 64)%N -> Valid s -> race_free s e -> L s -> L (step s e).
Proof.
  intros HN HV HRF HL. destruct e as [m|n|a|t ch]; cbn [step].
  - (* ENew *)
    destruct HL as [A1 A2 A3 A4 A5 A6 A7 A8 A9 A10 A11 A12 A13].
    unfold new_run. rewrite (next_id_small _ HN).
    set (nx := mkR m (counter s + 1)%N (Z.of_nat m) false false false 0 0 0).
    set (s1 := mkS _ _ _ _ _ _).
    assert (RN : forall r x, nth_error (runs s1) r = Some x -> nth_error (runs s) r = Some x \/ (r = length (runs s) /\ x = nx)).
    { intros r x H. cbn in H. apply nth_error_app_inv in H. exact H. }
    assert (LT : forall r x, nth_error (runs s) r = Some x -> r < length (runs s)) by (intros r x H; apply nth_error_Some; congruence).
    assert (Q : forall r, queued s1 r = queued s r + at_ r (length (runs s))).
    { intros r. unfold queued; cbn. rewrite count_app. cbn. unfold at_. destruct (Nat.eq_dec (length (runs s)) r), (Nat.eqb_spec (length (runs s)) r); lia. }
    assert (Z1 : queued s (length (runs s)) = 0).
    { apply count_occ_not_In. intros HIn. pose proof (V_q _ HV) as T. rewrite Forall_forall in T. apply T in HIn. lia. }
    assert (ZW : forall t p, nth_error (threads s) t = Some p -> worker p <> Some (length (runs s))).
    { intros t p Ht W. pose proof (nth_error_Forall _ _ _ _ (V_t _ HV) Ht) as [G _]. specialize (G _ W). lia. }
    assert (Z2 : workers s (length (runs s)) = 0).
    { apply sumf_zero. rewrite Forall_forall. intros p Hp. apply In_nth_error in Hp. destruct Hp as [t Ht]. apply works_on_neq. eapply ZW; eauto. }
    assert (atlt : forall r x, nth_error (runs s) r = Some x -> at_ r (length (runs s)) = 0).
    { intros r x H. apply LT in H. unfold at_. destruct (Nat.eqb_spec (length (runs s)) r); lia. }
    split.
    + intros r. rewrite Q. change (workers s1 r) with (workers s r). unfold at_. destruct (Nat.eqb_spec (length (runs s)) r) as [<-|]; [lia|].
      rewrite Nat.add_0_r. apply A1.
    + intros r x H HQ. rewrite Q in HQ. destruct (RN _ _ H) as [H'|[-> ->]]; [|auto].
      rewrite (atlt _ _ H') in HQ. eapply A2; eauto. lia.
    + intros r x H HQ. rewrite Q in HQ. destruct (RN _ _ H) as [H'|[-> ->]].
      * eapply A3; eauto. change (workers s1 r) with (workers s r) in HQ. lia.
      * unfold at_ in HQ. rewrite Nat.eqb_refl in HQ. lia.
    + intros r x H HM. destruct (RN _ _ H) as [H'|[-> ->]]; [eauto|discriminate].
    + intros a i H. destruct (A5 a i H) as (y & x & B1 & B2 & B3 & B4 & B5). exists y, x. repeat split; auto. cbn. apply nth_error_app_old; auto.
    + intros t p r x H W Hx. destruct (RN _ _ Hx) as [H'|[-> ->]]; [eauto|]. exfalso. eapply ZW; eauto.
    + exact A7.
    + intros r x H. cbn [counter s1]. destruct (RN _ _ H) as [H'|[-> ->]]; [apply A8 in H'; lia|cbn; lia].
    + intros i y H. cbn [counter s1]. apply A9 in H. lia.
    + intros r1 r2 x1 x2 H1 H2 E. destruct (RN _ _ H1) as [H1'|[-> ->]], (RN _ _ H2) as [H2'|[-> ->]]; auto; [eauto|..].
      * apply A8 in H1'. cbn in E. lia.
      * apply A8 in H2'. cbn in E. lia.
    + exact A11.
    + intros r x i y H HQ Hy. rewrite Q in HQ. destruct (RN _ _ H) as [H'|[-> ->]].
      * rewrite (atlt _ _ H') in HQ. eapply A12; eauto. lia.
      * apply A9 in Hy. cbn. lia.
    + intros t p r x i y H HF W Hx Hy. destruct (RN _ _ Hx) as [H'|[-> ->]]; [eauto|]. exfalso. eapply ZW; eauto.
  - (* EGetRun *)
    destruct (nth_error (queue s) n) as [r0|] eqn:E; auto.
    set (s1 := mkS _ _ _ _ _ _).
    assert (Q : forall r, queued s1 r + at_ r r0 = queued s r) by (intros r; apply (count_remove_nth _ _ _ r E)).
    assert (WK : forall r, workers s1 r = workers s r + at_ r r0).
    { intros r. unfold workers; cbn [threads s1]. rewrite sumf_app. change (sumf (works_on r) [GR0 r0]) with (at_ r r0 + 0). lia. }
    assert (TN : forall t' q, nth_error (threads s1) t' = Some q -> nth_error (threads s) t' = Some q \/ q = GR0 r0).
    { intros t' q H. cbn in H. apply nth_error_app_inv in H. intuition. }
    assert (Q1 : queued s r0 = 1).
    { pose proof (L_one _ HL r0). specialize (Q r0). unfold at_ in Q. rewrite Nat.eqb_refl in Q. lia. }
    destruct HL as [A1 A2 A3 A4 A5 A6 A7 A8 A9 A10 A11 A12 A13].
    split; auto.
    + intros r. specialize (Q r). specialize (A1 r). rewrite WK. lia.
    + intros r x H HQ. eapply A2; eauto. specialize (Q r). specialize (A1 r). lia.
    + intros r x H HQ. eapply A3; eauto. specialize (Q r). rewrite WK in HQ. lia.
    + intros t p r x H W Hx. destruct (TN _ _ H) as [H'| ->]; [eauto|]. cbn in W. injection W as <-. cbn in *. eapply A2; eauto.
    + cbn. intros H. apply in_app_or in H. destruct H as [H|[H|[]]]; [auto|discriminate].
    + intros r x i y H HQ Hy. eapply A12; eauto. specialize (Q r). specialize (A1 r). lia.
    + intros t p r x i y H HF W Hx Hy. destruct (TN _ _ H) as [H'| ->]; [eauto|]. cbn in W. injection W as <-. cbn in *. eapply A12; eauto.
  - (* EResult *)
    destruct (mget (mapping s) a) as [i|] eqn:Em; auto.
    destruct (nth_error (inflights s) i) as [y|] eqn:E; auto.
    apply (L_ext (spawn s (HProc (irun y)))); auto.
    + cbn. eapply map_upd_same; eauto.
    + cbn. eapply map_upd_same; eauto.
    + destruct (L_map _ HL _ _ Em) as (y' & x & B1 & B2 & B3 & B4 & B5). assert (y' = y) by congruence. subst y'.
      assert (HW : workers s (irun y) = 0) by (apply (HRF i y); auto).
      assert (HC : closedF x = false).
      { destruct (Nat.eq_dec (queued s (irun y)) 0) as [Z|Z].
        - destruct (L_rest _ HL _ _ B3) as [[_ ?]|[? _]]; [lia|auto|congruence].
        - pose proof (L_one _ HL (irun y)). destruct (L_q _ HL _ _ B3); [lia|auto]. }
      eapply L_spawn; eauto; try discriminate; cbn; auto.
  - destruct (nth_error (threads s) t) as [p|] eqn:Ht; auto.
    assert (SELF : forall r x, nth_error (runs s) r = Some x -> upd (runs s) r x = runs s).
    { clear. intros r x. generalize (runs s). intros l. revert r. induction l as [|h l IH]; intros [|r] H; cbn in *; try congruence. f_equal. apply IH, H. }
    assert (STH : forall r x p', nth_error (runs s) r = Some x -> set_thread (set_run s r x) t p' = set_thread s t p').
    { intros r x p' H. unfold set_thread, set_run; cbn. rewrite (SELF _ _ H). reflexivity. }
    assert (RW : forall k, worker (resume k) = None) by (intros [|]; reflexivity).
    assert (RP : forall k, resume k <> Panic) by (intros [|]; discriminate).
    assert (PK : forall r, worker p = Some r -> exists x, nth_error (runs s) r = Some x /\ pcok p x).
    { intros r W. pose proof (nth_error_Forall _ _ _ _ (V_t _ HV) Ht) as [G _]. specialize (G _ W).
      destruct (nth_error (runs s) r) as [x|] eqn:Ex; [|apply nth_error_None in Ex; lia].
      exists x. split; auto. eapply (L_pc _ HL); eauto. }
    destruct p; cbn [step_thread]; auto.
    + (* GR0 *) destruct (PK r eq_refl) as (x & Hx & H1 & H2). rewrite Hx.
      eapply L_work; eauto; try reflexivity; try discriminate. left. cbn. auto.
    + (* GR1 *)
      destruct (PK r eq_refl) as (x & Hx & H1 & H2). rewrite Hx.
      set (s1 := mkS _ _ _ _ _ _).
      assert (Hnp' : forall t' q r', t' <> t -> nth_error (threads s) t' = Some q -> worker q = Some r' -> r' <> r).
      { intros t' q r' N G1 G2 ->. apply N. eapply (worker_unique s); eauto; reflexivity. }
      assert (FR : forall j w, nth_error (inflights s) j = Some w -> iatt w <> attempt x).
      { intros j w Hw. eapply (L_fp _ HL t (GR1 r)); eauto; cbn; auto. }
      assert (WK : forall r', workers s1 r' + at_ r' r = workers s r').
      { intros r'. pose proof (sumf_upd (works_on r') _ _ _ Done Ht) as H. unfold workers; cbn [threads s1]. rewrite sumf_app.
        change (sumf (works_on r') [TConn (length (inflights s))]) with 0.
        change (works_on r' (GR1 r)) with (at_ r' r) in H. change (works_on r' Done) with 0 in H. lia. }
      assert (RN : forall r' z, nth_error (runs s1) r' = Some z -> (r' = r /\ z = with_mon x true) \/ (r' <> r /\ nth_error (runs s) r' = Some z)).
      { intros r' z H. cbn in H. destruct (Nat.eq_dec r r') as [<-|N].
        - rewrite (nth_error_upd_eq _ _ _ _ Hx) in H. injection H as <-. auto.
        - rewrite nth_error_upd_neq in H by auto. auto. }
      assert (TN : forall t' q r', nth_error (threads s1) t' = Some q -> worker q = Some r' -> t' <> t /\ r' <> r /\ nth_error (threads s) t' = Some q).
      { intros t' q r' H W. cbn in H. apply nth_error_app_inv in H. destruct H as [H|[_ ->]]; [|discriminate].
        destruct (Nat.eq_dec t t') as [<-|N].
        - rewrite (nth_error_upd_eq _ _ _ _ Ht) in H. injection H as <-. discriminate.
        - rewrite nth_error_upd_neq in H by auto. repeat split; auto. eapply (Hnp' t'); eauto. }
      assert (IN : forall j w, nth_error (inflights s1) j = Some w -> nth_error (inflights s) j = Some w \/ (j = length (inflights s) /\ w = mkI r (attempt x) false false false 0)).
      { intros j w H. cbn in H. apply nth_error_app_inv in H. exact H. }
      assert (Q0 : queued s r = 0).
      { pose proof (L_one _ HL r). pose proof (sumf_ge (works_on r) _ _ _ Ht) as G. rewrite works_on_eq in G by reflexivity. unfold workers in *. lia. }
      destruct HL as [A1 A2 A3 A4 A5 A6 A7 A8 A9 A10 A11 A12 A13].
      split.
      * intros r'. specialize (WK r'). specialize (A1 r'). change (queued s1 r') with (queued s r'). lia.
      * intros r' z H HQ. change (queued s1 r') with (queued s r') in HQ. destruct (RN _ _ H) as [[-> ->]|[N H']]; [lia|eauto].
      * intros r' z H HQ. change (queued s1 r') with (queued s r') in HQ. specialize (WK r').
        destruct (RN _ _ H) as [[-> ->]|[N H']]; [left; auto|]. eapply A3; eauto.
        unfold at_ in WK. destruct (Nat.eqb_spec r r'); [congruence|lia].
      * intros r' z H HM. destruct (RN _ _ H) as [[-> ->]|[N H']].
        -- exists (length (inflights s)), (mkI r (attempt x) false false false 0). cbn. rewrite mget_mset, N.eqb_refl.
           repeat split; auto. apply nth_error_app_last.
        -- destruct (A4 r' z H' HM) as (j & w & C1 & C2 & C3 & C4). exists j, w. repeat split; auto.
           ++ cbn. rewrite mget_mset. destruct (N.eqb_spec (attempt x) (attempt z)); auto. exfalso. apply N. eapply A10; eauto.
           ++ cbn. apply nth_error_app_old; auto.
      * intros a j H. cbn in H. rewrite mget_mset in H. destruct (N.eqb_spec (attempt x) a) as [<-|Na].
        -- injection H as <-. exists (mkI r (attempt x) false false false 0), (with_mon x true). cbn. repeat split; auto.
           ++ apply nth_error_app_last. ++ eapply nth_error_upd_eq; eauto.
        -- destruct (A5 a j H) as (w & z & C1 & C2 & C3 & C4 & C5). exists w, z. repeat split; auto.
           ++ cbn. apply nth_error_app_old; auto. ++ cbn. rewrite nth_error_upd_neq; auto. intros ->. congruence.
      * intros t' q r' z H W Hz. destruct (TN _ _ _ H W) as (N1 & N2 & H'). destruct (RN _ _ Hz) as [[-> _]|[_ Hz']]; [congruence|eauto].
      * cbn. intros H. apply in_app_or in H. destruct H as [H|[H|[]]]; [|discriminate]. apply in_upd' in H. destruct H; [discriminate|auto].
      * intros r' z H. cbn [counter s1]. destruct (RN _ _ H) as [[-> ->]|[N H']]; [apply (A8 r x Hx)|eauto].
      * intros j w H. cbn [counter s1]. destruct (IN _ _ H) as [H'|[-> ->]]; [eauto|cbn; eauto].
      * intros r1 r2 y1 y2 G1 G2 Ee. destruct (RN _ _ G1) as [[-> ->]|[N1 H1']], (RN _ _ G2) as [[-> ->]|[N2 H2']]; auto; eapply A10; eauto.
      * intros j1 j2 w1 w2 G1 G2 Ee. destruct (IN _ _ G1) as [H1'|[-> ->]], (IN _ _ G2) as [H2'|[-> ->]]; auto.
        -- eapply A11; eauto. -- exfalso. eapply FR; eauto. -- exfalso. eapply FR; eauto.
      * intros r' z j w H HQ Hw. change (queued s1 r') with (queued s r') in HQ. destruct (RN _ _ H) as [[-> ->]|[N H']]; [lia|].
        destruct (IN _ _ Hw) as [Hw'|[-> ->]]; [eauto|]. cbn. intros Ee. apply N. eapply A10; eauto.
      * intros t' q r' z j w H HF W Hz Hw. destruct (TN _ _ _ H W) as (N1 & N2 & H'). destruct (RN _ _ Hz) as [[-> _]|[_ Hz']]; [congruence|].
        destruct (IN _ _ Hw) as [Hw'|[-> ->]]; [eauto|]. cbn. intros Ee. apply N2. eapply A10; eauto.
    + (* TConn *)
      destruct (nth_error (inflights s) i) as [y|] eqn:Hy; auto.
      assert (RCV : L (if connected y then set_thread (set_inf s i (mkI (irun y) (iatt y) false (iready y) (tmo y) (ntclose y))) t (TRdy i) else s)).
      { destruct (connected y); auto. apply (L_ext (set_thread s t (TRdy i))); auto.
        - cbn. eapply map_upd_same; eauto. - cbn. eapply map_upd_same; eauto.
        - eapply L_idle; eauto; discriminate || reflexivity. }
      destruct ch; auto.
      destruct (HRF i y (or_introl Ht) Hy) as [Em HW].
      destruct (L_map _ HL _ _ Em) as (y' & x & B1 & B2 & B3 & B4 & B5). assert (y' = y) by congruence. subst y'.
      assert (HC : closedF x = false).
      { destruct (Nat.eq_dec (queued s (irun y)) 0) as [Z|Z].
        - destruct (L_rest _ HL _ _ B3) as [[_ ?]|[? _]]; [lia|auto|congruence].
        - pose proof (L_one _ HL (irun y)). destruct (L_q _ HL _ _ B3); [lia|auto]. }
      eapply L_attach_thread; eauto; try discriminate; try reflexivity; cbn; auto.
    + (* TRdy *)
      destruct (nth_error (inflights s) i) as [y|] eqn:Hy; auto.
      assert (RCV : L (if iready y then set_thread (set_inf s i (mkI (irun y) (iatt y) (connected y) false (tmo y) (ntclose y))) t (TFin i) else s)).
      { destruct (iready y); auto. apply (L_ext (set_thread s t (TFin i))); auto.
        - cbn. eapply map_upd_same; eauto. - cbn. eapply map_upd_same; eauto.
        - eapply L_idle; eauto; discriminate || reflexivity. }
      destruct ch; auto.
      destruct (HRF i y (or_intror Ht) Hy) as [Em HW].
      destruct (L_map _ HL _ _ Em) as (y' & x & B1 & B2 & B3 & B4 & B5). assert (y' = y) by congruence. subst y'.
      assert (HC : closedF x = false).
      { destruct (Nat.eq_dec (queued s (irun y)) 0) as [Z|Z].
        - destruct (L_rest _ HL _ _ B3) as [[_ ?]|[? _]]; [lia|auto|congruence].
        - pose proof (L_one _ HL (irun y)). destruct (L_q _ HL _ _ B3); [lia|auto]. }
      eapply L_attach_thread; eauto; try discriminate; try reflexivity; cbn; auto.
    + (* TSend *)
      destruct (nth_error (inflights s) i) as [y|] eqn:Hy; auto. destruct (tmo y); auto.
      apply (L_ext (set_thread s t (TDrain i))); auto.
      * cbn. eapply map_upd_same; eauto. * cbn. eapply map_upd_same; eauto.
      * eapply L_idle; eauto; discriminate || reflexivity.
    + (* TFin *)
      destruct (nth_error (inflights s) i) as [y|] eqn:Hy; auto.
      apply (L_ext (set_thread s t Done)); auto.
      * cbn. eapply map_upd_same; eauto. * cbn. eapply map_upd_same; eauto.
      * eapply L_idle; eauto; discriminate || reflexivity.
    + (* HProc *)
      destruct (PK r eq_refl) as (x & Hx & H1 & H2).
      destruct ch; rewrite <- (STH r x _ Hx); (eapply L_work; eauto; try reflexivity; try discriminate; left; cbn; auto).
    + (* RQ0 *)
      destruct (PK r eq_refl) as (x & Hx & H1 & H2). rewrite Hx, H1. rewrite <- (STH r x _ Hx).
      eapply L_work; eauto; try reflexivity; try discriminate; left; cbn; auto.
    + (* RQ0b *)
      destruct (PK r eq_refl) as (x & Hx & H1 & H2). rewrite Hx, H1.
      eapply L_remove; eauto; try reflexivity; try discriminate; cbn; auto.
    + (* RQ1 *)
      destruct (PK r eq_refl) as (x & Hx & H1 & H2). rewrite Hx.
      eapply L_work; eauto; try reflexivity; destruct (_ <=? _)%Z; try discriminate; left; cbn; auto.
    + (* RQ2 *)
      destruct (PK r eq_refl) as (x & Hx & H1 & H2). rewrite Hx.
      destruct last; [|rewrite <- (STH r x _ Hx)]; (eapply L_work; eauto; try reflexivity; try discriminate; left; cbn; auto).
    + (* RQ3 *)
      destruct (PK r eq_refl) as (x & Hx & H1 & H2). rewrite Hx. rewrite (next_id_small _ HN).
      set (nx := with_attempt x (counter s + 1)%N).
      match goal with |- L ?st => set (s1 := st) end.
      assert (Hnp' : forall t' q r', t' <> t -> nth_error (threads s) t' = Some q -> worker q = Some r' -> r' <> r).
      { intros t' q r' N G1 G2 ->. apply N. eapply (worker_unique s); eauto; reflexivity. }
      assert (WK : forall r', workers s1 r' = workers s r').
      { intros r'. pose proof (sumf_upd (works_on r') _ _ _ (RQ4 r k) Ht) as H. change (works_on r' (RQ3 r k)) with (at_ r' r) in H. change (works_on r' (RQ4 r k)) with (at_ r' r) in H.
        change (sumf (works_on r') (upd (threads s) t (RQ4 r k)) = sumf (works_on r') (threads s)). lia. }
      assert (W1 : workers s r >= 1). { pose proof (sumf_ge (works_on r) _ _ _ Ht) as G. rewrite works_on_eq in G by auto. unfold workers. lia. }
      assert (RN : forall r' z, nth_error (runs s1) r' = Some z -> (r' = r /\ z = nx) \/ (r' <> r /\ nth_error (runs s) r' = Some z)).
      { intros r' z H. cbn in H. destruct (Nat.eq_dec r r') as [<-|N].
        - rewrite (nth_error_upd_eq _ _ _ _ Hx) in H. injection H as <-. auto.
        - rewrite nth_error_upd_neq in H by auto. auto. }
      assert (TN : forall t' q, nth_error (threads s1) t' = Some q -> (t' = t /\ q = RQ4 r k) \/ (t' <> t /\ nth_error (threads s) t' = Some q)).
      { intros t' q H. cbn in H. destruct (Nat.eq_dec t t') as [<-|N].
        - rewrite (nth_error_upd_eq _ _ _ _ Ht) in H. injection H as <-. auto.
        - rewrite nth_error_upd_neq in H by auto. auto. }
      destruct HL as [A1 A2 A3 A4 A5 A6 A7 A8 A9 A10 A11 A12 A13].
      split.
      * intros r'. rewrite WK. apply A1.
      * intros r' z H HQ. change (queued s1 r') with (queued s r') in HQ. destruct (RN _ _ H) as [[-> ->]|[N H']]; [|eauto]. specialize (A1 r). lia.
      * intros r' z H HQ. change (queued s1 r') with (queued s r') in HQ. rewrite WK in HQ. destruct (RN _ _ H) as [[-> ->]|[N H']]; [lia|eauto].
      * intros r' z H HM. destruct (RN _ _ H) as [[-> ->]|[N H']]; [cbn in HM; congruence|eauto].
      * intros a i H. destruct (A5 a i H) as (y & z & B1 & B2 & B3 & B4 & B5). exists y, z. repeat split; auto.
        cbn. rewrite nth_error_upd_neq; auto. intros ->. congruence.
      * intros t' q r' z H W Hz. destruct (TN _ _ H) as [[-> ->]|[N H']].
        -- cbn in W. injection W as <-. destruct (RN _ _ Hz) as [[_ ->]|[N _]]; [cbn; auto|congruence].
        -- pose proof (Hnp' _ _ _ N H' W). destruct (RN _ _ Hz) as [[-> _]|[_ Hz']]; [congruence|eauto].
      * cbn. intros H. apply in_upd' in H. destruct H; [discriminate|auto].
      * intros r' z H. cbn [counter s1 set_thread]. destruct (RN _ _ H) as [[-> ->]|[N H']]; [cbn; lia|apply A8 in H'; lia].
      * intros i y H. cbn [counter s1 set_thread]. apply A9 in H. lia.
      * intros r1 r2 y1 y2 G1 G2 Ee. destruct (RN _ _ G1) as [[-> ->]|[N1 H1']], (RN _ _ G2) as [[-> ->]|[N2 H2']]; auto; [..|eauto].
        -- apply A8 in H2'. cbn in Ee. lia. -- apply A8 in H1'. cbn in Ee. lia.
      * exact A11.
      * intros r' z i y H HQ Hy. change (queued s1 r') with (queued s r') in HQ. destruct (RN _ _ H) as [[-> ->]|[N H']]; [|eauto]. specialize (A1 r). lia.
      * intros t' q r' z i y H HF W Hz Hy. destruct (TN _ _ H) as [[-> ->]|[N H']].
        -- cbn in W. injection W as <-. destruct (RN _ _ Hz) as [[_ ->]|[N _]]; [|congruence]. apply A9 in Hy. cbn. lia.
        -- pose proof (Hnp' _ _ _ N H' W). destruct (RN _ _ Hz) as [[-> _]|[_ Hz']]; [congruence|eauto].
    + (* RQ4 *)
      destruct (PK r eq_refl) as (x & Hx & H1 & H2).
      assert (FULL : L (set_thread s t (CL0 r k))).
      { rewrite <- (STH r x _ Hx). eapply L_work; eauto; try reflexivity; try discriminate; left; cbn; auto. }
      assert (ENQ : L (set_thread (mkS (counter s) (runs s) (queue s ++ [r]) (mapping s) (inflights s) (threads s)) t (resume k))).
      { match goal with |- L ?st => set (s1 := st) end.
        assert (Q : forall r', queued s1 r' = queued s r' + at_ r' r).
        { intros r'. unfold queued; cbn. rewrite count_app. cbn. unfold at_. destruct (Nat.eq_dec r r'), (Nat.eqb_spec r r'); lia. }
        assert (WK : forall r', workers s1 r' + at_ r' r = workers s r').
        { intros r'. pose proof (sumf_upd (works_on r') _ _ _ (resume k) Ht) as H. change (works_on r' (RQ4 r k)) with (at_ r' r) in H. rewrite (works_on_neq r' (resume k)) in H by (rewrite RW; discriminate).
          change (sumf (works_on r') (upd (threads s) t (resume k)) + at_ r' r = sumf (works_on r') (threads s)). lia. }
        assert (Hnp' : forall t' q r', t' <> t -> nth_error (threads s) t' = Some q -> worker q = Some r' -> r' <> r).
        { intros t' q r' N G1 G2 ->. apply N. eapply (worker_unique s); eauto; reflexivity. }
        assert (TN : forall t' q r', nth_error (threads s1) t' = Some q -> worker q = Some r' -> t' <> t /\ r' <> r /\ nth_error (threads s) t' = Some q).
        { intros t' q r' H W. cbn in H. destruct (Nat.eq_dec t t') as [<-|N].
          - rewrite (nth_error_upd_eq _ _ _ _ Ht) in H. injection H as <-. rewrite RW in W. discriminate.
          - rewrite nth_error_upd_neq in H by auto. repeat split; auto. eapply (Hnp' t'); eauto. }
        assert (FR : forall j w, nth_error (inflights s) j = Some w -> iatt w <> attempt x).
        { intros j w Hw. eapply (L_fp _ HL t (RQ4 r k)); eauto; cbn; auto. }
        destruct HL as [A1 A2 A3 A4 A5 A6 A7 A8 A9 A10 A11 A12 A13].
        split; auto.
        - intros r'. rewrite Q. specialize (WK r'). specialize (A1 r'). lia.
        - intros r' z H HQ. rewrite Q in HQ. unfold at_ in HQ. destruct (Nat.eqb_spec r r') as [<-|N].
          + cbn in H. assert (z = x) by congruence. subst. auto. + eapply A2; eauto. lia.
        - intros r' z H HQ. rewrite Q in HQ. specialize (WK r'). eapply A3; eauto. unfold at_ in *. destruct (Nat.eqb_spec r r'); lia.
        - intros t' q r' z H W Hz. destruct (TN _ _ _ H W) as (N1 & N2 & H'). eauto.
        - cbn. intros H. apply in_upd' in H. destruct H; [symmetry in H; apply RP in H; auto|auto].
        - intros r' z i y H HQ Hy. rewrite Q in HQ. unfold at_ in HQ. destruct (Nat.eqb_spec r r') as [<-|N].
          + cbn in H. assert (z = x) by congruence. subst. eauto. + eapply A12; eauto. lia.
        - intros t' q r' z i y H HF W Hz Hy. destruct (TN _ _ _ H W) as (N1 & N2 & H'). eauto. }
      destruct ch; auto.
    + (* CL0 *)
      destruct (PK r eq_refl) as (x & Hx & H1). cbn in H1. rewrite Hx, H1.
      eapply L_work; eauto; try reflexivity; try discriminate; left; cbn; auto.
    + (* CL1 *)
      destruct (PK r eq_refl) as (x & Hx & H1). cbn in H1. rewrite Hx. rewrite <- (STH r x _ Hx).
      destruct (mon x) eqn:HM; eapply L_work; eauto; try reflexivity; try discriminate; left; cbn; auto.
    + (* CL1b *)
      destruct (PK r eq_refl) as (x & Hx & H1 & H2). rewrite Hx, H1. rewrite <- (STH r x _ Hx).
      eapply L_work; eauto; try reflexivity; try discriminate; left; cbn; auto.
    + (* CL1c *)
      destruct (PK r eq_refl) as (x & Hx & H1 & H2). rewrite Hx, H1.
      eapply L_remove; eauto; try reflexivity; try discriminate; cbn; auto.
    + (* CL2 *)
      destruct (PK r eq_refl) as (x & Hx & H1 & H2).
      destruct ch; rewrite <- (STH r x _ Hx); (eapply L_work; eauto; try reflexivity; try discriminate; cbn; auto).
    + (* CL3 *)
      destruct (PK r eq_refl) as (x & Hx & H1 & H2). rewrite Hx.
      eapply L_work; eauto; try reflexivity; destruct pp; try discriminate; cbn; auto.
    + (* CL4 *)
      destruct (PK r eq_refl) as (x & Hx & H1 & H2). rewrite Hx.
      eapply L_work; eauto; try reflexivity; cbn; auto.
Qed.

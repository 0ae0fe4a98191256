(* Consequences of the race-free invariant, and the race witnesses. *)
From Coq Require Import List Arith ZArith NArith Bool Lia.
From Verif Require Import GoBase RunModel RunSpec RunProofs RunBoundsProofs RunLinProofs.
Import ListNotations.

Lemma counter_step s e : (counter s + 1 < 2 ^ 64)%N -> (counter (step s e) <= counter s + 1)%N.
Proof.
  intros HN. pose proof (next_id_small _ HN) as E.
  destruct e as [m|n|a|t ch]; cbn [step].
  - cbn [new_run counter]. lia.
  - destruct (nth_error _ _); cbn; lia.
  - destruct (mget _ _) as [i|]; [|lia]. destruct (nth_error _ _); cbn; lia.
  - destruct (nth_error (threads s) t) as [p|]; [|lia].
    assert (R : forall a, counter (remove s a) = counter s) by (intros; apply remove_shape).
    destruct p; cbn [step_thread];
    repeat match goal with
      | |- context [match nth_error ?l ?r with _ => _ end] => destruct (nth_error l r) eqn:?
      | |- context [match ch with ChTrue => _ | _ => _ end] => destruct ch
      | |- context [if ?b then _ else _] => destruct b eqn:?
      end; cbn [counter set_thread set_run set_inf spawn]; rewrite ?R; lia.
Qed.

Lemma exec_cons s e es : exec s (e :: es) = exec (step s e) es.
Proof. reflexivity. Qed.

Lemma L_exec es : forall s, (counter s + N.of_nat (length es) < 2 ^ 64)%N -> Valid s -> L s -> race_free_exec s es ->
  Valid (exec s es) /\ L (exec s es).
Proof.
  induction es as [|e es IH]; intros s HN HV HL HR; [auto|].
  cbn [race_free_exec length] in *. destruct HR as [HR HR']. rewrite exec_cons.
  assert (HN1 : (counter s + 1 < 2 ^ 64)%N) by lia.
  pose proof (counter_step s e HN1).
  apply IH; [lia|apply valid_step; auto|apply L_step; auto|auto].
Qed.

Lemma L_from_init c0 es : (c0 + N.of_nat (length es) < 2 ^ 64)%N -> race_free_exec (init c0) es -> L (exec (init c0) es).
Proof. intros H HR. apply L_exec; auto using valid_init, init_L. Qed.


Lemma one_place_l c0 es r x :
  (c0 + N.of_nat (length es) < 2 ^ 64)%N -> race_free_exec (init c0) es ->
  let s := exec (init c0) es in
  nth_error (runs s) r = Some x ->
  (queued s r = 1 /\ workers s r = 0 /\ ~ in_flight s r x /\ closedF x = false) \/
  (queued s r = 0 /\ workers s r = 1) \/
  (queued s r = 0 /\ workers s r = 0 /\ in_flight s r x /\ closedF x = false) \/
  (queued s r = 0 /\ workers s r = 0 /\ ~ in_flight s r x /\ closedF x = true).
Proof.
  intros H HR s Hx. pose proof (L_from_init _ _ H HR) as HL. fold s in HL.
  assert (NF : mon x = false -> ~ in_flight s r x).
  { intros M (i & y & A & B & C). destruct (L_map _ HL _ _ A) as (y' & x' & D1 & D2 & D3 & D4 & D5).
    assert (y' = y) by congruence. subst y'. rewrite C in D3. congruence. }
  pose proof (L_one _ HL r) as O.
  destruct (Nat.eq_dec (queued s r) 1) as [Q|Q].
  - left. destruct (L_q _ HL r x Hx Q). repeat split; auto. lia.
  - right. destruct (Nat.eq_dec (workers s r) 1) as [W|W].
    + left. lia.
    + right. destruct (L_rest _ HL r x Hx) as [[M C]|[M C]]; [lia| |].
      * left. repeat split; auto; try lia. destruct (L_mon _ HL r x Hx M) as (i & y & A & B & D & E). exists i, y. auto.
      * right. repeat split; auto; lia.
Qed.

Lemma lookup_l c0 es a i :
  (c0 + N.of_nat (length es) < 2 ^ 64)%N -> race_free_exec (init c0) es ->
  let s := exec (init c0) es in
  mget (mapping s) a = Some i ->
  exists y x, nth_error (inflights s) i = Some y /\ nth_error (runs s) (irun y) = Some x /\ attempt x = a.
Proof.
  intros H HR s Hm. destruct (L_map _ (L_from_init _ _ H HR) a i Hm) as (y & x & A & B & C & D & E). exists y, x. auto.
Qed.

Lemma handout_ids_l c0 es i1 i2 y1 y2 :
  (c0 + N.of_nat (length es) < 2 ^ 64)%N -> race_free_exec (init c0) es ->
  let s := exec (init c0) es in
  nth_error (inflights s) i1 = Some y1 -> nth_error (inflights s) i2 = Some y2 -> iatt y1 = iatt y2 -> i1 = i2.
Proof. intros H HR s. apply (L_idist _ (L_from_init _ _ H HR)). Qed.

Lemma no_panic_l c0 es :
  (c0 + N.of_nat (length es) < 2 ^ 64)%N -> race_free_exec (init c0) es -> ~ In Panic (threads (exec (init c0) es)).
Proof. intros H HR. apply (L_nopanic _ (L_from_init _ _ H HR)). Qed.


Lemma iatt_grow s e i y : nth_error (inflights s) i = Some y -> exists y', nth_error (inflights (step s e)) i = Some y' /\ iatt y' = iatt y.
Proof.
  intros H.
  assert (U : forall j z w, nth_error (inflights s) j = Some w -> iatt z = iatt w ->
     exists y', nth_error (upd (inflights s) j z) i = Some y' /\ iatt y' = iatt y).
  { intros j z w Hw E. destruct (Nat.eq_dec j i) as [->|N].
    - exists z. split; [eapply nth_error_upd_eq; eauto|congruence].
    - exists y. rewrite nth_error_upd_neq by auto. auto. }
  assert (R : forall a, exists y', nth_error (inflights (remove s a)) i = Some y' /\ iatt y' = iatt y).
  { intros a. unfold remove. destruct (mget _ _) as [j|]; [|eauto]. destruct (nth_error (inflights s) j) eqn:E; [|eauto].
    cbn. eapply U; eauto. }
  destruct e as [m|n|a|t ch]; cbn [step].
  - cbn. eauto.
  - destruct (nth_error (queue s) n); cbn; eauto.
  - destruct (mget _ _) as [j|]; [|eauto]. destruct (nth_error (inflights s) j) eqn:E; [|eauto]. cbn. eapply U; eauto.
  - destruct (nth_error (threads s) t) as [p|]; [|eauto].
    destruct p; cbn [step_thread];
    repeat match goal with
      | |- context [match nth_error ?l ?r with _ => _ end] => destruct (nth_error l r) eqn:?
      | |- context [match ch with ChTrue => _ | _ => _ end] => destruct ch
      | |- context [if ?b then _ else _] => destruct b eqn:?
      end; cbn [inflights set_thread set_run set_inf]; eauto.
    exists y. split; auto. apply nth_error_app_old; auto.
Qed.

Lemma stale_step s e a : L s -> stale s a -> stale (step s e) a.
Proof.
  intros HL [HM (i & y & Hi & Hy)].
  split; [|destruct (iatt_grow s e i y Hi) as (y' & A & B); exists i, y'; split; auto; congruence].
  assert (RM : forall b, mget (mapping (remove s b)) a = None).
  { intros b. unfold remove. destruct (mget (mapping s) b) as [j|]; [|auto]. destruct (nth_error (inflights s) j) eqn:E; [|auto].
    cbn. rewrite mget_mdel, HM. destruct (N.eqb b a); reflexivity. }
  destruct e as [m|n|b|t ch]; cbn [step].
  - exact HM.
  - destruct (nth_error (queue s) n); cbn; auto.
  - destruct (mget (mapping s) b) as [j|]; [|auto]. destruct (nth_error (inflights s) j) eqn:E; auto.
  - destruct (nth_error (threads s) t) as [p|] eqn:Ht; [|auto].
    destruct p; cbn [step_thread];
    repeat match goal with
      | |- context [match nth_error ?l ?r with _ => _ end] => destruct (nth_error l r) eqn:?
      | |- context [match ch with ChTrue => _ | _ => _ end] => destruct ch
      | |- context [if ?b then _ else _] => destruct b eqn:?
      end; cbn [mapping set_thread set_run set_inf]; auto.
    rewrite mget_mset. destruct (N.eqb_spec (attempt r0) a) as [E|]; auto.
    exfalso. eapply (L_fp _ HL t (GR1 r)); eauto; cbn; auto. congruence.
Qed.

Lemma race_free_app s a b : race_free_exec s (a ++ b) <-> race_free_exec s a /\ race_free_exec (exec s a) b.
Proof.
  revert s; induction a as [|e a IH]; intros s; cbn; [tauto|]. rewrite IH. tauto.
Qed.

Lemma exec_app s a b : exec s (a ++ b) = exec (exec s a) b.
Proof. unfold exec. apply fold_left_app. Qed.

Lemma counter_exec es : forall s, (counter s + N.of_nat (length es) < 2 ^ 64)%N -> (counter (exec s es) <= counter s + N.of_nat (length es))%N.
Proof.
  induction es as [|e es IH]; intros s H; cbn [length] in *; [cbn; lia|].
  rewrite exec_cons. pose proof (counter_step s e). specialize (IH (step s e)). lia.
Qed.

Lemma stale_exec es : forall s a, (counter s + N.of_nat (length es) < 2 ^ 64)%N -> Valid s -> L s -> race_free_exec s es ->
  stale s a -> stale (exec s es) a.
Proof.
  induction es as [|e es IH]; intros s a HN HV HL HR HS; [auto|].
  cbn [race_free_exec length] in *. destruct HR as [HR HR']. rewrite exec_cons.
  assert (HN1 : (counter s + 1 < 2 ^ 64)%N) by lia.
  pose proof (counter_step s e HN1).
  apply IH; [lia|apply valid_step; auto|apply L_step; auto|auto|apply stale_step; auto].
Qed.

Lemma stale_never_resolves_l c0 es1 es2 a :
  (c0 + N.of_nat (length (es1 ++ es2)) < 2 ^ 64)%N -> race_free_exec (init c0) (es1 ++ es2) ->
  (exists i y, nth_error (inflights (exec (init c0) es1)) i = Some y /\ iatt y = a) ->
  mget (mapping (exec (init c0) es1)) a = None ->
  mget (mapping (exec (init c0) (es1 ++ es2))) a = None.
Proof.
  intros HN HR HI HM. rewrite app_length in HN. apply race_free_app in HR. destruct HR as [R1 R2].
  assert (HN1 : (counter (init c0) + N.of_nat (length es1) < 2 ^ 64)%N) by (cbn; lia).
  destruct (L_exec es1 (init c0) HN1 (valid_init _) (init_L _) R1) as [V1 L1].
  pose proof (counter_exec es1 (init c0) HN1) as HC. change (counter (init c0)) with c0 in HC.
  rewrite exec_app.
  assert (HN2 : (counter (exec (init c0) es1) + N.of_nat (length es2) < 2 ^ 64)%N) by lia.
  apply (stale_exec es2 (exec (init c0) es1) a HN2 V1 L1 R2). split; auto.
Qed.


Lemma upd_upd {A} (l : list A) t p p' : upd (upd l t p) t p' = upd l t p'.
Proof. revert t. induction l as [|h l IH]; intros [|t]; cbn; auto. f_equal. apply IH. Qed.

Lemma close_script_l c rs q m inf th t r x i y :
  nth_error th t = Some (HProc r) -> nth_error rs r = Some x -> mon x = true -> closedF x = false ->
  mget m (attempt x) = Some i -> nth_error inf i = Some y -> irun y = r ->
  exec (mkS c rs q m inf th) (close_script t) =
  mkS c (upd rs r (with_post (with_ready (with_mon (with_closed x) false)))) q (mdel m (attempt x))
    (upd inf i (mkI (irun y) (iatt y) true true (tmo y) (ntclose y))) (upd th t Done).
Proof.
  intros Ht Hx HM HC B1 B2 B3.
  assert (RE : forall p, nth_error (upd rs r p) r = Some p) by (intros; eapply nth_error_upd_eq; eauto).
  assert (TE : forall p, nth_error (upd th t p) t = Some p) by (intros; eapply nth_error_upd_eq; eauto).
  assert (HMc : mon (with_closed x) = true) by exact HM.
  assert (HAc : attempt (with_closed x) = attempt x) by reflexivity.
  unfold close_script.
  rewrite exec_cons. cbn [step threads]. rewrite Ht. cbn [step_thread]. unfold set_thread, set_run. cbn [counter runs queue mapping inflights threads].
  rewrite exec_cons. cbn [step threads]. rewrite TE. cbn [step_thread runs]. rewrite Hx, HC.
  unfold set_thread, set_run. cbn [counter runs queue mapping inflights threads]. rewrite upd_upd.
  rewrite exec_cons. cbn [step threads]. rewrite TE. cbn [step_thread runs]. rewrite RE. rewrite HMc.
  unfold set_thread, set_run. cbn [counter runs queue mapping inflights threads]. rewrite upd_upd.
  rewrite exec_cons. cbn [step threads]. rewrite TE. cbn [step_thread runs]. rewrite RE. rewrite HMc.
  unfold set_thread, set_run. cbn [counter runs queue mapping inflights threads]. rewrite upd_upd.
  rewrite exec_cons. cbn [step threads]. rewrite TE. cbn [step_thread runs]. rewrite RE. rewrite HMc, HAc.
  unfold remove. unfold set_thread, set_run. cbn [counter runs queue mapping inflights threads].
  rewrite B1, B2, B3, RE. cbn [counter runs queue mapping inflights threads]. rewrite !upd_upd.
  rewrite exec_cons. cbn [step threads]. rewrite TE. cbn [step_thread].
  unfold set_thread, set_run. cbn [counter runs queue mapping inflights threads]. rewrite upd_upd.
  rewrite exec_cons. cbn [step threads]. rewrite TE. cbn [step_thread runs]. rewrite RE.
  unfold set_thread, set_run. cbn [counter runs queue mapping inflights threads]. rewrite !upd_upd.
  rewrite exec_cons. cbn [step threads]. rewrite TE. cbn [step_thread runs]. rewrite RE.
  unfold set_thread, set_run. cbn [counter runs queue mapping inflights threads resume]. rewrite !upd_upd.
  cbn [exec fold_left]. reflexivity.
Qed.

Lemma handler_close_l c0 es t r x :
  (c0 + N.of_nat (length es) < 2 ^ 64)%N -> race_free_exec (init c0) es ->
  nth_error (threads (exec (init c0) es)) t = Some (HProc r) ->
  nth_error (runs (exec (init c0) es)) r = Some x ->
  let s' := exec (exec (init c0) es) (close_script t) in
  exists x', nth_error (runs s') r = Some x' /\ closedF x' = true /\ nready x' = S (nready x) /\ npost x' = S (npost x) /\
    mget (mapping s') (attempt x) = None /\ nth_error (threads s') t = Some Done.
Proof.
  intros HN HR Ht Hx. pose proof (L_from_init _ _ HN HR) as HL. cbn zeta.
  generalize dependent (exec (init c0) es). intros s Ht Hx HL.
  destruct (L_pc _ HL _ _ _ _ Ht eq_refl Hx) as [HM HC]. destruct (L_mon _ HL r x Hx HM) as (i & y & B1 & B2 & B3 & B4).
  destruct s as [c rs q m inf th]. cbn [threads runs mapping inflights] in *.
  rewrite (close_script_l c rs q m inf th t r x i y) by assumption.
  eexists. cbn [threads runs mapping inflights]. split; [eapply nth_error_upd_eq; eauto|]. cbn.
  repeat split; auto.
  - rewrite mget_mdel, N.eqb_refl. reflexivity.
  - eapply nth_error_upd_eq; eauto.
Qed.


Lemma requeue_script_l c rs q m inf th t r x i y last k :
  nth_error th t = Some (RQ0 r last k) -> nth_error rs r = Some x -> mon x = true -> (2 <= tries x)%Z ->
  mget m (attempt x) = Some i -> nth_error inf i = Some y -> irun y = r ->
  exec (mkS c rs q m inf th) (requeue_script t) =
  mkS (next_id c)
    (upd rs r (with_attempt (with_tries (with_mon x false) (if last then 1 else tries x - 1)%Z) (next_id c)))
    (q ++ [r]) (mdel m (attempt x))
    (upd inf i (mkI (irun y) (iatt y) true true (tmo y) (ntclose y))) (upd th t (resume k)).
Proof.
  intros Ht Hx HM HT B1 B2 B3.
  assert (RE : forall p, nth_error (upd rs r p) r = Some p) by (intros; eapply nth_error_upd_eq; eauto).
  assert (TE : forall p, nth_error (upd th t p) t = Some p) by (intros; eapply nth_error_upd_eq; eauto).
  unfold requeue_script.
  rewrite exec_cons. cbn [step threads]. rewrite Ht. cbn [step_thread runs]. rewrite Hx, HM.
  unfold set_thread, set_run. cbn [counter runs queue mapping inflights threads].
  rewrite exec_cons. cbn [step threads]. rewrite TE. cbn [step_thread runs]. rewrite Hx, HM.
  unfold remove. unfold set_thread, set_run. cbn [counter runs queue mapping inflights threads].
  rewrite B1, B2, B3, Hx. cbn [counter runs queue mapping inflights threads]. rewrite !upd_upd.
  rewrite exec_cons. cbn [step threads]. rewrite TE. cbn [step_thread runs]. rewrite RE.
  unfold set_thread, set_run. cbn [counter runs queue mapping inflights threads]. rewrite !upd_upd.
  change (tries (with_mon x false)) with (tries x).
  destruct (Z.leb_spec (tries x - 1) 0) as [Q|Q]; [lia|].
  rewrite exec_cons. cbn [step threads]. rewrite TE. cbn [step_thread runs]. rewrite RE.
  unfold set_thread, set_run. cbn [counter runs queue mapping inflights threads].
  destruct last; cbn [counter runs queue mapping inflights threads]; rewrite !upd_upd;
  rewrite exec_cons; cbn [step threads]; rewrite TE; cbn [step_thread runs]; rewrite RE;
  unfold set_thread, set_run; cbn [counter runs queue mapping inflights threads]; rewrite !upd_upd;
  rewrite exec_cons; cbn [step threads]; rewrite TE; cbn [step_thread runs];
  unfold set_thread, set_run; cbn [counter runs queue mapping inflights threads]; rewrite !upd_upd;
  reflexivity.
Qed.

Lemma timeout_requeues_l c0 es t i y x :
  let s := exec (init c0) es in
  (c0 + N.of_nat (length es) < 2 ^ 64)%N -> race_free_exec (init c0) es ->
  race_free s (EStep t ChTrue) ->
  nth_error (threads s) t = Some (TConn i) \/ nth_error (threads s) t = Some (TRdy i) ->
  nth_error (inflights s) i = Some y -> nth_error (runs s) (irun y) = Some x -> (2 <= tries x)%Z ->
  let s' := exec s (EStep t ChTrue :: requeue_script t) in
  exists x', nth_error (runs s') (irun y) = Some x' /\ closedF x' = false /\ tries x' = (tries x - 1)%Z /\
    attempt x' = next_id (counter s) /\ mget (mapping s') (iatt y) = None /\
    queue s' = queue s ++ [irun y] /\ nth_error (threads s') t = Some (TSend i).
Proof.
  cbn zeta. intros HN HR HF Ht Hy Hx HT. pose proof (L_from_init _ _ HN HR) as HL.
  generalize dependent (exec (init c0) es). intros s HF Ht Hy Hx HL.
  destruct (HF i y Ht Hy) as [HM HW].
  destruct (L_map _ HL _ _ HM) as (y' & x' & A & B & C & D & E).
  assert (y' = y) by congruence; subst y'. assert (x' = x) by congruence; subst x'.
  assert (HQ : closedF x = false).
  { pose proof (L_rest _ HL (irun y) x Hx) as R. pose proof (L_q _ HL (irun y) x Hx) as Q. pose proof (L_one _ HL (irun y)) as O.
    destruct (Nat.eq_dec (queued s (irun y)) 1) as [q|q]; [destruct (Q q); congruence|]. destruct R as [[? ?]|[? ?]]; [lia|auto|congruence]. }
  destruct s as [c rs q m inf th]. cbn [threads runs mapping inflights] in *.
  rewrite exec_cons. cbn [step threads].
  assert (ST : forall p, p = TConn i \/ p = TRdy i -> step_thread (mkS c rs q m inf th) t p ChTrue =
     mkS c rs q m inf (upd th t (RQ0 (irun y) false (KTimer i)))).
  { intros p [->| ->]; cbn [step_thread inflights]; rewrite Hy; reflexivity. }
  assert (HT0 : exists p, nth_error th t = Some p /\ (p = TConn i \/ p = TRdy i)) by (destruct Ht; eauto).
  destruct HT0 as (p & Hp & Hpp). rewrite Hp, ST by auto.
  rewrite (requeue_script_l c rs q m inf _ t (irun y) x i y false (KTimer i)); auto.
  2:{ eapply nth_error_upd_eq; eauto. }
  2:{ congruence. }
  eexists. cbn [threads runs mapping inflights queue counter]. split; [eapply nth_error_upd_eq; eauto|]. rewrite upd_upd. cbn.
  repeat split; auto.
  - rewrite mget_mdel, D, N.eqb_refl. reflexivity.
  - eapply nth_error_upd_eq; eauto.
Qed.


Lemma counter_step_or s e : counter (step s e) = counter s \/ counter (step s e) = next_id (counter s).
Proof.
  destruct e as [m|n|a|t ch]; cbn [step].
  - right. reflexivity.
  - destruct (nth_error _ _); cbn; auto.
  - destruct (mget _ _) as [i|]; [|auto]. destruct (nth_error _ _); cbn; auto.
  - destruct (nth_error (threads s) t) as [p|]; [|auto].
    assert (R : forall a, counter (remove s a) = counter s) by (intros; apply remove_shape).
    destruct p; cbn [step_thread];
    repeat match goal with
      | |- context [match nth_error ?l ?r with _ => _ end] => destruct (nth_error l r) eqn:?
      | |- context [match ch with ChTrue => _ | _ => _ end] => destruct ch
      | |- context [if ?b then _ else _] => destruct b eqn:?
      end; cbn [counter set_thread set_run set_inf spawn]; rewrite ?R; auto.
Qed.

Lemma draws_shape es : forall s, (counter s < 2 ^ 64)%N -> exists k, k <= length es /\
  draws s es = map (fun j => ((counter s + N.of_nat j) mod 2 ^ 64)%N) (seq 1 k).
Proof.
  induction es as [|e es IH]; intros s HS; [exists 0; auto|]. cbn [draws].
  assert (HS' : (counter (step s e) < 2 ^ 64)%N).
  { destruct (counter_step_or s e) as [-> | ->]; auto. unfold next_id. apply N.mod_lt. discriminate. }
  destruct (IH _ HS') as (k & Hk & Ek). rewrite Ek.
  destruct (N.eqb_spec (counter (step s e)) (counter s)) as [E|E].
  - exists k. rewrite E. cbn [app length]. split; [lia|reflexivity].
  - destruct (counter_step_or s e) as [F|F]; [congruence|]. rewrite F.
    exists (S k). cbn [app length seq map]. split; [lia|]. change (N.of_nat 1) with 1%N. f_equal.
    rewrite <- (seq_shift k 1), map_map. apply map_ext. intros j. unfold next_id.
      rewrite N.add_mod_idemp_l by discriminate. f_equal. lia.
Qed.

Lemma draws_distinct_l s es : (counter s < 2 ^ 64)%N -> (N.of_nat (length es) <= 2 ^ 64)%N -> NoDup (draws s es).
Proof.
  intros HS HL. destruct (draws_shape es s HS) as (k & Hk & ->).
  apply NoDup_map_inj; [|apply seq_NoDup].
  intros a b Ha Hb E. apply in_seq in Ha. apply in_seq in Hb.
  assert (forall p q, (p < q)%N -> (q - p < 2 ^ 64)%N -> ((counter s + p) mod 2 ^ 64 <> (counter s + q) mod 2 ^ 64)%N) as K.
  { intros p q H1 H2 H3. 
    pose proof (N.div_mod (counter s + p) (2^64) ltac:(discriminate)) as D1.
    pose proof (N.div_mod (counter s + q) (2^64) ltac:(discriminate)) as D2.
    rewrite H3 in D1. change (2 ^ 64)%N with 18446744073709551616%N in *. lia. }
  destruct (Nat.lt_trichotomy a b) as [C|[C|C]]; auto; exfalso.
  - apply (K (N.of_nat a) (N.of_nat b)); auto; lia.
  - apply (K (N.of_nat b) (N.of_nat a)); auto; lia.
Qed.

(* A last-attempt requeue by the only goroutine holding the run leaves at most
   one further hand-out. *)
Lemma last_attempt_l s t r x k es :
  reachable s -> nth_error (threads s) t = Some (RQ2 r true k) -> nth_error (runs s) r = Some x ->
  queued s r = 0 -> workers s r = 1 ->
  handouts (exec s (EStep t ChFalse :: es)) r <= handouts s r + 1.
Proof.
  intros HR Ht Hx HQ HW.
  rewrite exec_cons.
  assert (HR' : reachable (step s (EStep t ChFalse))) by (apply reachable_step; auto).
  assert (E : step s (EStep t ChFalse) = set_thread (set_run s r (with_tries x 1%Z)) t (RQ3 r k)).
  { cbn [step]. rewrite Ht. cbn [step_thread]. rewrite Hx. reflexivity. }
  rewrite E in *.
  assert (Hx' : nth_error (runs (set_thread (set_run s r (with_tries x 1%Z)) t (RQ3 r k))) r = Some (with_tries x 1%Z)).
  { unfold set_thread, set_run. cbn [runs]. eapply nth_error_upd_eq; eauto. }
  pose proof (no_extra_handouts_l _ es r _ HR' Hx') as G.
  change (tries (with_tries x 1%Z)) with 1%Z in G. change (Z.to_nat (1 - 1)) with 0 in G.
  set (s1 := set_thread (set_run s r (with_tries x 1%Z)) t (RQ3 r k)) in *.
  change (handouts s1 r) with (handouts s r) in G. change (queued s1 r) with (queued s r) in G.
  change (threads s1) with (upd (threads s) t (RQ3 r k)) in G.
  assert (P : sumf (pendq r) (upd (threads s) t (RQ3 r k)) <= 1).
  { pose proof (sumf_upd (pendq r) _ _ _ (RQ3 r k) Ht) as A. cbn in A.
    assert (sumf (pendq r) (threads s) <= sumf (works_on r) (threads s)).
    { apply sumf_le. intros p _. destruct p; cbn; unfold works_on, at_; cbn; try lia; destruct (Nat.eqb _ _); lia. }
    unfold workers in HW. lia. }
  lia.
Qed.

(* C29: the Broadcaster.  All theorems hold for every sequence of calls,
   iterations of the loop (whichever channel its select picks, in whatever order
   it walks the map) and receives, for every channel length. *)
From Coq Require Import String List Arith ZArith Bool Lia.
From Verif Require Import BcFilterModel BcModel BcSpec BcProofs.
Import ListNotations.

Section C29.
Variable info : nat -> subscriber.
Variable websocket : nat -> bool.
Variable channelLength : nat.
Notation run := (run info websocket channelLength).
Notation step := (step info websocket channelLength).

(* What a subscriber received and what waits in its channel are, in order, the
   messages processed while it was registered that match its filters; when it is
   told that the channel is closed it has received all of them; at most
   channelLength wait. *)
Theorem C29_delivery : forall evs s, once evs -> let st := run evs in
  got st s ++ chan st s = entitled info s false (log st) /\
  (finished st s = true -> got st s = entitled info s false (log st)) /\
  length (chan st s) <= channelLength.
Proof.
  intros evs s HO st. pose proof (run_inv info websocket channelLength evs HO) as I. fold st in I.
  pose proof (i_entitled _ _ _ _ _ _ _ I s) as E. rewrite app_nil_r in E. split; [auto|]. split.
  - intros F. apply (i_fin _ _ _ _ _ _ _ I) in F. destruct F as [_ F]. rewrite F, app_nil_r in E. auto.
  - apply (i_cap _ _ _ _ _ _ _ I).
Qed.

(* The log is faithful: the subscribers registered are those it says. *)
Theorem C29_log : forall evs s, once evs -> let st := run evs in
  In s (registered st) <-> present s false (log st) = true.
Proof.
  intros evs s HO st. pose proof (run_inv info websocket channelLength evs HO) as I. fold st in I.
  rewrite (i_present _ _ _ _ _ _ _ I s). symmetry. apply mem_In.
Qed.

(* Messages are processed once each, in the order in which Broadcast accepted
   them. *)
Theorem C29_order : forall evs, once evs -> let st := run evs in processed (log st) ++ q_messages st = accepted st.
Proof. intros evs HO st. apply (i_acc _ _ _ _ _ _ _ (run_inv info websocket channelLength evs HO)). Qed.

(* Processing a message removes exactly those that match it and whose channel is
   full, and queues it to the others that match. *)
Theorem C29_slow : forall evs order m rest, once evs -> let st := run evs in
  q_messages st = m :: rest -> is_order order (registered st) = true -> let st' := step st (LoopMessage order) in
  (forall s, In s (registered st') <-> In s (registered st) /\ ~ (matches (info s) m = true /\ length (chan st s) = channelLength)) /\
  (forall s, In s (registered st') -> chan st' s = chan st s ++ (if matches (info s) m then [m] else [])) /\
  (forall s, ~ In s (registered st') -> chan st' s = chan st s) /\
  q_messages st' = rest.
Proof.
  intros evs order m rest HO st HQ HR st'. pose proof (run_inv info websocket channelLength evs HO) as I. fold st in I.
  pose proof (is_order_spec _ _ HR) as [E1 E2].
  destruct st as [R C CL G F qs qu qd qm w e p lg ac] eqn:ES. cbn in HQ, HR, E2. subst qm.
  assert (A : forall l st0, NoDup l -> (forall s, In s l -> In s (registered st0)) -> (forall s, In s (registered st0) -> closed st0 s = false) ->
    (forall s, length (chan st0 s) <= channelLength) ->
    let st1 := fold_left (offer info websocket channelLength m) l st0 in
    (forall s, In s (registered st1) <-> In s (registered st0) /\ ~ (In s l /\ matches (info s) m = true /\ length (chan st0 s) = channelLength)) /\
    (forall s, chan st1 s = chan st0 s ++ (if mem s l && mem s (registered st1) && matches (info s) m then [m] else [])) /\
    q_messages st1 = q_messages st0).
  { clear. induction l as [|s l IH]; intros st0 HN HR HC HL.
    - cbn. split; [intros; tauto|]. split; [intros; rewrite app_nil_r; auto|auto].
    - inversion HN as [|? ? N1 N2]; subst. cbn [fold_left]. set (st1 := offer info websocket channelLength m st0 s).
      assert (O : (forall t, In t (registered st1) <-> In t (registered st0) /\ ~ (t = s /\ matches (info s) m = true /\ length (chan st0 s) = channelLength)) /\
                  (forall t, chan st1 t = chan st0 t ++ (if Nat.eqb t s && mem t (registered st1) && matches (info s) m then [m] else [])) /\
                  q_messages st1 = q_messages st0 /\ (forall t, In t (registered st1) -> closed st1 t = false) /\ (forall t, length (chan st1 t) <= channelLength)).
      { assert (HS : closed st0 s = false) by (apply HC, HR; cbn; auto).
        unfold st1, offer. destruct (matches (info s) m) eqn:EM; cbn [negb].
        2:{ split; [intros; intuition discriminate|]. split; [intros; rewrite andb_false_r, app_nil_r; auto|]. auto. }
        rewrite HS. destruct (Nat.ltb_spec (length (chan st0 s)) channelLength) as [L|L]; cbn [registered chan q_messages closed].
        - split; [intros t; split; [intros; split; [auto|]; intros (_ & _ & X); lia|tauto]|]. split.
          + intros t. destruct (Nat.eqb_spec t s) as [->|N]; [|rewrite set_neq by auto; cbn; rewrite app_nil_r; auto].
            rewrite set_eq. assert (X : mem s (registered st0) = true) by (apply mem_In, HR; cbn; auto). rewrite X. auto.
          + split; [auto|]. split; [auto|]. intros t. destruct (Nat.eq_dec t s) as [->|N]; [rewrite set_eq, app_length; cbn; lia|rewrite set_neq by auto; auto].
        - assert (LE : length (chan st0 s) = channelLength) by (pose proof (HL s); lia).
          cbn [remove registered chan q_messages closed]. split; [intros t; rewrite in_del; intuition|]. split.
          + intros t. rewrite mem_del. destruct (Nat.eqb_spec t s) as [->|N]; [rewrite Nat.eqb_refl|]; cbn; rewrite app_nil_r; auto.
          + split; [auto|]. split; [|auto]. intros t Ht. apply in_del in Ht. rewrite set_neq by tauto. apply HC. tauto. }
      destruct O as (O1 & O2 & O3 & O4 & O5).
      assert (NS : forall t, In t l -> t <> s) by (intros t Ht ->; contradiction).
      destruct (IH st1 N2) as (J1 & J2 & J3).
      { intros t Ht. apply O1. split; [apply HR; cbn; auto|]. intros [X _]. apply (NS t Ht X). }
      { auto. } { auto. }
      assert (SAME : forall t, t <> s -> chan st1 t = chan st0 t).
      { intros t N. rewrite O2. destruct (Nat.eqb_spec t s); [congruence|]. cbn. apply app_nil_r. }
      split; [|split].
      + intros t. rewrite J1, O1. cbn [In]. destruct (Nat.eq_dec t s) as [->|N].
        * split; [intros [[A B] D]; split; [auto|]; intros ([_|X] & Y & Z); [apply B; auto|contradiction]|].
          intros [A B]. split; [split; [auto|]; intros (_ & Y & Z); apply B; auto|]. intros [X _]; contradiction.
        * rewrite SAME by auto. intuition.
      + intros t. rewrite J2, O2. destruct (Nat.eqb_spec t s) as [->|N].
        * assert (ML : mem s l = false) by (destruct (mem s l) eqn:E; [apply mem_In in E; contradiction|auto]).
          cbn [mem existsb]. fold (mem s l). rewrite ML, Nat.eqb_refl. cbn [orb andb]. rewrite app_nil_r. f_equal.
          assert (MM : mem s (registered st1) = mem s (registered (fold_left (offer info websocket channelLength m) l st1))).
          { destruct (mem s (registered (fold_left _ l st1))) eqn:E.
            - apply mem_In in E. apply J1 in E. apply mem_In. tauto.
            - destruct (mem s (registered st1)) eqn:E2; [|auto]. apply mem_In in E2.
              assert (X : mem s (registered (fold_left (offer info websocket channelLength m) l st1)) = true).
              { apply mem_In, J1. split; [auto|]. intros [X _]; contradiction. } congruence. }
          rewrite MM. auto.
        * cbn [andb]. rewrite app_nil_r. cbn [mem existsb]. destruct (Nat.eqb_spec t s); [congruence|]. auto.
      + congruence. }
  destruct (A order (St R C CL G F qs qu qd rest w e p lg ac)) as (B1 & B2 & B3).
  { auto. } { intros s Hs. cbn. apply E2; auto. }
  { intros s Hs. apply (i_reg _ _ _ _ _ _ _ I s) in Hs. apply Hs. } { intros s. apply (i_cap _ _ _ _ _ _ _ I). }
  unfold st'. cbn [BcModel.step]. rewrite HR. destruct (fold_left _ _ _) as [R1 C1 CL1 G1 F1 qs1 qu1 qd1 qm1 w1 e1 p1 lg1 ac1].
  cbn [registered chan q_messages] in *. split; [|split; [|split]].
  - intros s. rewrite B1, E2. tauto.
  - intros s Hs. rewrite B2. pose proof Hs as Hs2. apply mem_In in Hs2. rewrite Hs2. apply B1 in Hs.
    assert (X : mem s order = true) by (apply mem_In, E2; tauto). rewrite X. auto.
  - intros s Hs. rewrite B2. assert (X : mem s R1 = false) by (destruct (mem s R1) eqn:E; [apply mem_In in E; contradiction|auto]).
    rewrite X, andb_false_r, app_nil_r. auto.
  - auto.
Qed.

(* No send on or close of a closed channel; each channel is closed exactly when
   its subscriber is removed, which happens at most once and only after it was
   registered. *)
Theorem C29_close : forall evs, once evs -> let st := run evs in
  panicked st = false /\
  (forall s, count_occ_action (is_removed s) (log st) = if closed st s then 1 else 0) /\
  (forall s, In s (registered st) <-> count_occ_action (is_registered s) (log st) = 1 /\ closed st s = false) /\
  (forall s, closed st s = true -> count_occ_action (is_registered s) (log st) = 1).
Proof.
  intros evs HO st. pose proof (run_inv info websocket channelLength evs HO) as I. fold st in I.
  split; [apply (i_panic _ _ _ _ _ _ _ I)|]. split; [apply (i_rem _ _ _ _ _ _ _ I)|]. split; [apply (i_reg _ _ _ _ _ _ _ I)|apply (i_closed _ _ _ _ _ _ _ I)].
Qed.

(* The gauges count the registered subscribers of each kind. *)
Theorem C29_gauges : forall evs, once evs -> let st := run evs in
  ws st = Z.of_nat (length (List.filter websocket (registered st))) /\
  sse st = Z.of_nat (length (List.filter (fun s => negb (websocket s)) (registered st))) /\ NoDup (registered st).
Proof.
  intros evs HO st. pose proof (run_inv info websocket channelLength evs HO) as I. fold st in I.
  split; [apply (i_ws _ _ _ _ _ _ _ I)|]. split; [apply (i_sse _ _ _ _ _ _ _ I)|apply (i_nodup _ _ _ _ _ _ _ I)].
Qed.

(* When the loop handles a deauthentication, exactly the subscribers of that user
   are removed; when it handles an unsubscription, exactly that subscriber. *)
Theorem C29_deauth : forall evs order u rest, once evs -> let st := run evs in
  q_deauth st = u :: rest -> is_order order (registered st) = true ->
  forall s, In s (registered (step st (LoopDeauth order))) <-> In s (registered st) /\ s_user (info s) <> u.
Proof.
  intros evs order u rest HO st HQ HR. pose proof (run_inv info websocket channelLength evs HO) as I. fold st in I.
  pose proof (is_order_spec _ _ HR) as [E1 E2].
  destruct st as [R C CL G F qs qu qd qm w e p lg ac] eqn:ES. cbn in HQ, HR, E2. subst qd. cbn [BcModel.step]. rewrite HR.
  assert (I2 : Inv info websocket channelLength (calls_of evs) (fun _ => []) [] (St R C CL G F qs qu rest qm w e p lg ac)).
  { destruct I; constructor; cbn [registered chan closed got finished q_subscribe q_messages ws sse panicked log accepted] in *; auto. }
  destruct (deauth_inv info websocket channelLength _ u order _ I2 E1) as [_ J]; [intros s Hs; cbn; apply E2; auto|].
  intros s. rewrite J. cbn [registered]. rewrite E2. tauto.
Qed.
Theorem C29_unsubscribe : forall evs s rest, once evs -> let st := run evs in
  q_unsubscribe st = s :: rest -> forall t, In t (registered (step st LoopUnsubscribe)) <-> In t (registered st) /\ t <> s.
Proof.
  intros evs s rest HO st HQ t. destruct st as [R C CL G F qs qu qd qm w e p lg ac] eqn:ES. cbn in HQ. subst qu. cbn [BcModel.step registered].
  destruct (mem s R) eqn:E; cbn [remove registered].
  - apply in_del.
  - split; [|tauto]. intros H. split; [auto|]. intros ->. apply mem_In in H. congruence.
Qed.
End C29.
Print Assumptions C29_delivery.
Print Assumptions C29_log.
Print Assumptions C29_order.
Print Assumptions C29_slow.
Print Assumptions C29_close.
Print Assumptions C29_gauges.
Print Assumptions C29_deauth.
Print Assumptions C29_unsubscribe.

Local Open Scope string_scope.
Definition bob : subscriber := mkSub "bob" false [] [] [] [Problem "p"].
Definition msg (t : string) : message := mkMsg "" 0 "p" "" true t.
Definition drain : list event := [LoopMessage [0%nat]; LoopMessage []].

Example C29_example :
  let evs := [CallSubscribe 0; LoopSubscribe; CallBroadcast (msg "1"); LoopMessage [0%nat]; CallBroadcast (msg "2"); LoopMessage [0%nat]; Receive 0;
              CallBroadcast (msg "3"); LoopMessage [0%nat]; CallBroadcast (msg "4"); LoopMessage [0%nat]; Receive 0; Receive 0; Receive 0] in
  let st := run (fun _ => bob) (fun _ => true) 2 evs in
  once evs /\ got st 0%nat = [msg "1"; msg "2"; msg "3"] /\ finished st 0%nat = true /\ registered st = [] /\ ws st = 0%Z.
Proof. cbv zeta. split; [|repeat split]. intros s. cbn. destruct s as [|s]; cbn; lia. Qed.

(* False of the code: that an unsubscribed subscriber is removed.  Its requests
   travel in two channels, and if the loop happens to take the second first it
   stays registered (and its channel fills up). *)
Theorem C29_unsubscribe_refuted : exists evs, once evs /\ let st := run (fun _ => bob) (fun _ => true) 1 evs in
  evs = [CallSubscribe 0; CallUnsubscribe 0; LoopUnsubscribe; LoopSubscribe] /\
  q_subscribe st = [] /\ q_unsubscribe st = [] /\ q_deauth st = [] /\ q_messages st = [] /\ In 0%nat (registered st).
Proof. eexists. split; [|split; [reflexivity|cbn; auto 10]]. intros s. cbn. destruct s as [|s]; cbn; lia. Qed.
Print Assumptions C29_unsubscribe_refuted.
(* False of the code: that after Deauthenticate the user's subscribers, at least
   those that subscribed before, receive nothing.  The one here receives a
   message broadcast after the deauthentication was handled. *)
Theorem C29_deauthenticate_refuted : exists evs, once evs /\ let st := run (fun _ => bob) (fun _ => true) 1 evs in
  evs = [CallSubscribe 0; CallDeauthenticate "bob"; LoopDeauth []; LoopSubscribe; CallBroadcast (msg "secret"); LoopMessage [0%nat]; Receive 0] /\
  got st 0%nat = [msg "secret"].
Proof. eexists. split; [|split; [reflexivity|reflexivity]]. intros s. cbn. destruct s as [|s]; cbn; lia. Qed.
Print Assumptions C29_deauthenticate_refuted.
(* False of the code without the assumption that nobody subscribes twice: sending
   to a closed channel panics. *)
Theorem C29_resubscribe_refuted : exists evs, panicked (run (fun _ => bob) (fun _ => true) 1 evs) = true.
Proof.
  exists [CallSubscribe 0; LoopSubscribe; CallUnsubscribe 0; LoopUnsubscribe; CallSubscribe 0; LoopSubscribe; CallBroadcast (msg "x"); LoopMessage [0%nat]]. reflexivity.
Qed.
Print Assumptions C29_resubscribe_refuted.

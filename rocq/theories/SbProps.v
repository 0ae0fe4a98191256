(* C30: the scoreboard update loop. *)
From Coq Require Import String List ZArith Bool Lia.
From Verif Require Import SbModel SbSpec SbProofs.
Import ListNotations.
Local Open Scope Z_scope.

(* The loop never hangs on the timer's channel and never pops an empty heap. *)
Theorem C30_never_stuck : forall interval t0 ls, let s := run interval t0 ls in stuck s = false /\ panicked s = false.
Proof. intros interval t0 ls s. pose proof (run_inv interval t0 ls) as H. split; [apply (i_stuck _ _ H)|apply (i_panic _ _ H)]. Qed.
Print Assumptions C30_never_stuck.

(* Events are received once each, in the order they were sent. *)
Theorem C30_order : forall interval t0 ls, let s := run interval t0 ls in received (log s) ++ pending s = arrivals ls.
Proof. exact received_order. Qed.
Print Assumptions C30_order.

(* No event is forgotten, whatever the schedule: as long as no update of its
   contest was requested since, the timer has fired, or will by the end of the
   interval (or at once, if that is over). *)
Theorem C30_not_lost : forall interval t0 ls c t, let s := run interval t0 ls in unanswered (log s) c t ->
  tm s = Fired \/ exists due, tm s = Armed (Some due) /\ due <= Z.max (now s) (t + interval).
Proof.
  intros interval t0 ls c t s HU. pose proof (run_inv interval t0 ls) as H. fold s in H.
  destruct (i_owed _ _ H c t HU) as (e & HE & _ & HD). pose proof (key_root_le _ _ (i_heap _ _ H) HE). pose proof (i_timer _ _ H) as HT.
  assert (HL : len (events s) <> 0%nat) by (intros E; unfold elements in HE; rewrite E in HE; destruct HE).
  destruct (tm s) as [[due|]| |]; [|contradiction|auto|contradiction]. right. exists due. split; [auto|]. lia.
Qed.
Print Assumptions C30_not_lost.

(* If the loop keeps up, every event is answered by an update requested after it
   and at most an interval later: once it is older than that, it is answered. *)
Theorem C30_within_interval : forall interval t0 ls c t, 0 <= interval -> prompt interval t0 ls ->
  let s := run interval t0 ls in unanswered (log s) c t -> now s <= t + interval.
Proof.
  intros interval t0 ls c t I0 HP s HU. pose proof (run_inv interval t0 ls) as H. fold s in H.
  destruct (i_owed _ _ H c t HU) as (e & HE & _ & HD). destruct (prompt_inv interval I0 t0 ls HP) as [D _]. specialize (D e HE). fold s in D. lia.
Qed.
Print Assumptions C30_within_interval.

(* And if no update of the contest was requested during the preceding interval,
   the event is answered at once. *)
Theorem C30_immediate : forall interval t0 ls l1 c t l2, 0 <= interval -> prompt interval t0 ls ->
  log (run interval t0 ls) = l1 ++ Received c t :: l2 -> (forall t', In (Requested c t') l2 -> t' < t - interval) ->
  exists l1', l1 = l1' ++ [Requested c t].
Proof.
  intros interval t0 ls l1 c t l2 I0 HP E HN. destruct (prompt_inv interval I0 t0 ls HP) as [_ IM].
  destruct (IM _ _ _ _ E) as [(t' & HT & HI)|X]; [specialize (HN _ HI); lia|auto].
Qed.
Print Assumptions C30_immediate.

(* Of three updates of a contest, the last is requested at least an interval
   after the first: no more than two within any shorter time. *)
Theorem C30_rate : forall interval t0 ls c t1 t2 t3 l0 l1 l2 l3,
  log (run interval t0 ls) = l0 ++ Requested c t3 :: l1 ++ Requested c t2 :: l2 ++ Requested c t1 :: l3 ->
  t1 + interval <= t3.
Proof.
  intros interval t0 ls c t1 t2 t3 l0 l1 l2 l3 E. pose proof (i_spaced _ _ (run_inv interval t0 ls) c) as H. rewrite E in H. clear E.
  rewrite !reqs_app in H. cbn [reqs] in H. rewrite String.eqb_refl in H. rewrite !reqs_app in H. cbn [reqs] in H. rewrite String.eqb_refl in H.
  rewrite !reqs_app in H. cbn [reqs] in H. rewrite String.eqb_refl in H.
  induction (reqs c l0) as [|x l IH]; cbn [app spaced] in H; [|apply IH, H].
  destruct H as [H _]. rewrite Forall_forall in H. apply H. destruct (reqs c l1) as [|y l1']; cbn [app tl]; rewrite ?in_app_iff; cbn; auto 10.
  right. right. apply in_or_app. right. left. auto.
Qed.
Print Assumptions C30_rate.

(* Every update answers an event of its contest not answered before. *)
Theorem C30_useful : forall interval t0 ls c t l0 l1,
  log (run interval t0 ls) = l0 ++ Requested c t :: l1 -> exists t', unanswered l1 c t'.
Proof.
  intros interval t0 ls c t l0 l1 E. pose proof (i_useful _ _ (run_inv interval t0 ls)) as H. rewrite E in H. clear E.
  induction l0 as [|[c' u|c' u] l0 IH]; cbn [app useful] in H; [apply H|auto|apply IH, H].
Qed.
Print Assumptions C30_useful.

(* False of the code: that two updates of a contest are at least an interval
   apart.  After a trailing update the next event is again answered at once. *)
Local Definition burst : list step_label :=
  [Arrive "x"; LoopReceive; Tick 7; Arrive "x"; LoopReceive; Tick 3; Due; LoopTimer; Arrive "x"; LoopReceive].
Lemma burst_prompt : prompt 10 0 burst.
Proof.
  intros l1 d l2 E. unfold burst in E.
  do 3 (destruct l1 as [|x l1]; [first [discriminate E|injection E as <- <-; vm_compute; split; [auto|discriminate]]|injection E as <- E]).
  do 3 (destruct l1 as [|x l1]; [first [discriminate E|injection E as <- <-; vm_compute; split; [auto|discriminate]]|injection E as <- E]).
  do 4 (destruct l1 as [|x l1]; [discriminate E|injection E as <- E]). destruct l1; discriminate.
Qed.
Theorem C30_spacing_refuted : exists ls c t, prompt 10 0 ls /\
  exists l, log (run 10 0 ls) = Requested c t :: Received c t :: Requested c t :: l.
Proof. exists burst, "x"%string, 10. split; [apply burst_prompt|]. eexists. reflexivity. Qed.
Print Assumptions C30_spacing_refuted.

Example C30_example : log (run 10 0 burst) =
  [Requested "x" 10; Received "x" 10; Requested "x" 10; Received "x" 7; Requested "x" 0; Received "x" 0] /\
  unanswered (log (run 10 0 (firstn 5 burst))) "x" 7 /\ tm (run 10 0 (firstn 5 burst)) = Armed (Some 10).
Proof. split; [reflexivity|]. split; [exists [], [Requested "x" 0; Received "x" 0]; split; [reflexivity|auto]|reflexivity]. Qed.
(* Three contests, so that the heap has something to order; the timer is late. *)
Example C30_example_heap : log (run 10 0
  [Arrive "a"; LoopReceive; Tick 1; Arrive "b"; LoopReceive; Tick 1; Arrive "c"; LoopReceive; Arrive "c"; LoopReceive; Arrive "a"; LoopReceive; Arrive "b"; LoopReceive;
   Tick 50; Due; LoopTimer; Due; LoopTimer; Due; LoopTimer; Due; LoopTimer]) =
  [Requested "c" 52; Requested "b" 52; Requested "a" 52; Received "b" 2; Received "a" 2; Received "c" 2; Requested "c" 2; Received "c" 2;
   Requested "b" 1; Received "b" 1; Requested "a" 0; Received "a" 0].
Proof. reflexivity. Qed.

(* Which broadcasts reach the loop. *)
Theorem C30_which : forall accepted contest u c, scoreboard_event accepted contest u = Some c <->
  accepted = true /\ u = true /\ c = contest /\ contest <> EmptyString.
Proof.
  intros a k u c. unfold scoreboard_event. destruct a, u, (String.eqb_spec k EmptyString) as [->|N]; cbn; split; intros H;
    try discriminate; try (injection H as <-; auto); try (destruct H as (? & ? & ? & ?); congruence); destruct H as (? & ? & ? & ?); congruence.
Qed.
Print Assumptions C30_which.

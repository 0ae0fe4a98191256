(* C80: the queue metrics an operator watches. *)
From Coq Require Import String List Arith ZArith NArith Bool Lia Permutation.
From Verif Require Import GoBase RunModel RunSpec RunProps QmModel QmSpec QmProofs.
Import ListNotations.

(* In every execution, whatever the schedule, races and file-system failures:
   the total-length gauge is the number of runs that were added and not closed,
   plus those some goroutine is in the middle of closing. *)
Theorem C80_length_gauge : forall c0 es prio,
  let s := exec (init c0) es in
  gauge (process prio (posted (init c0) es)) "grader_queue_total_length" = Z.of_nat (open_runs s + closing s).
Proof.
  intros c0 es prio s. rewrite gauge_total, added_total. fold s.
  pose proof (closed_total c0 es) as H. cbn in H. fold s in H. pose proof (open_closed s). rewrite closing_ew. lia.
Qed.
Print Assumptions C80_length_gauge.

(* Every run is counted in exactly once when it is added, and counted out exactly
   once, when its Close is over. *)
Theorem C80_run_counted_once : forall c0 es r,
  let s := exec (init c0) es in
  (r < length (runs s) -> events_about ManagerAdded r (posted (init c0) es) = 1) /\
  (forall x, nth_error (runs s) r = Some x ->
     events_about ManagerRemoved r (posted (init c0) es) + being_closed s r = if closedF x then 1 else 0).
Proof.
  intros c0 es r s. split.
  - intros H. rewrite events_about_ew, added_run. fold s. destruct (Nat.ltb_spec r (length (runs s))); [reflexivity|lia].
  - intros x E. rewrite events_about_ew, being_closed_ew. pose proof (closed_run c0 es r) as H. cbn in H. fold s in H.
    unfold closed_in in H. rewrite E in H. exact H.
Qed.
Print Assumptions C80_run_counted_once.

(* One sample of the total delay per closed run. *)
Theorem C80_delay_samples : forall c0 es prio,
  let s := exec (init c0) es in
  observed (process prio (posted (init c0) es)) "grader_queue_delay_seconds" + closing s = closed_runs s.
Proof.
  intros c0 es prio s. rewrite observed_delay, closing_ew, closed_runs_sum. exact (closed_total c0 es).
Qed.
Print Assumptions C80_delay_samples.

(* One sample per finished attempt, in the summary of the run's own priority
   (also for a retry, which waits in the high-priority queue); never more. *)
Theorem C80_wait_samples : forall c0 es prio p,
  (c0 + N.of_nat (length es) < 2 ^ 64)%N -> race_free_exec (init c0) es ->
  let s := exec (init c0) es in
  observed (process prio (posted (init c0) es)) (delay_name p) + inflight_of prio p s = attempts_of prio p s.
Proof.
  intros c0 es prio p B R s. rewrite observed_wait, inflight_mw, attempts_hw.
  exact (waits_exact c0 es (fun r => pri_eqb (prio r) p) B R).
Qed.
Print Assumptions C80_wait_samples.

Theorem C80_wait_samples_bounded : forall c0 es prio p,
  let s := exec (init c0) es in
  observed (process prio (posted (init c0) es)) (delay_name p) + inflight_of prio p s <= attempts_of prio p s.
Proof.
  intros c0 es prio p s. rewrite observed_wait, inflight_mw, attempts_hw.
  exact (waits_bounded c0 es (fun r => pri_eqb (prio r) p)).
Qed.
Print Assumptions C80_wait_samples_bounded.

(* Every handled timeout posts exactly one event: retried or abandoned. *)
Theorem C80_timeout_events : forall c0 es,
  let s := exec (init c0) es in
  events_of Retried (posted (init c0) es) + events_of Abandoned (posted (init c0) es) = timed_out s.
Proof. intros c0 es s. rewrite !events_of_ew, timed_out_tow. exact (timeouts_total c0 es). Qed.
Print Assumptions C80_timeout_events.

(* Without races a run is reported abandoned at most once, and then it is closed
   and its (failed) result was not published. *)
Theorem C80_abandoned_once : forall c0 es r x,
  (c0 + N.of_nat (length es) < 2 ^ 64)%N -> race_free_exec (init c0) es ->
  let s := exec (init c0) es in
  nth_error (runs s) r = Some x ->
  events_about Abandoned r (posted (init c0) es) <= 1 /\
  (events_about Abandoned r (posted (init c0) es) = 1 -> closedF x = true /\ npost x = 0).
Proof.
  intros c0 es r x B R s E. rewrite events_about_ew.
  pose proof (abandoned_exact c0 es r B R) as A. pose proof (closed_run c0 es r) as C. cbn in C.
  unfold closed_in, posts_in in *. fold s in A, C. rewrite E in A, C.
  destruct (closedF x); cbn [b2n] in C; split; intros; try split; try reflexivity; lia.
Qed.
Print Assumptions C80_abandoned_once.

(* The metrics do not depend on the order in which events reach the processor. *)
Theorem C80_order_irrelevant : forall prio es es', Permutation es es' -> forall n,
  gauge (process prio es) n = gauge (process prio es') n /\ counter_ (process prio es) n = counter_ (process prio es') n /\
  observed (process prio es) n = observed (process prio es') n.
Proof. exact order_l. Qed.
Print Assumptions C80_order_irrelevant.

(* Defect: whatever happens, no counter ever moves and no gauge but the total
   length does: the retried and abandoned counters are added to by the name of a
   gauge that does not exist, and the per-priority lengths are never updated. *)
Theorem C80_other_metrics_never_move : forall prio es n,
  counter_ (process prio es) n = 0%Z /\
  (n <> "grader_queue_total_length"%string -> gauge (process prio es) n = 0%Z).
Proof. intros prio es n. split; [apply counter_fold|apply gauge_other]. Qed.
Print Assumptions C80_other_metrics_never_move.

Definition one_timeout : list event := [ENew 3; EGetRun 0] ++ st 0 2 ++ [EStep 1 ChTrue] ++ st 1 6.
Definition two_timeouts : list event :=
  [ENew 2; ENew 2; EGetRun 0] ++ st 0 2 ++ [EStep 1 ChTrue] ++ st 1 6 ++
  [EGetRun 1] ++ st 2 2 ++ [EStep 3 ChTrue] ++ st 3 7.

Theorem C80_retried_counter_refuted :
  ~ (forall c0 es prio, (c0 + N.of_nat (length es) < 2 ^ 64)%N -> race_free_exec (init c0) es ->
       counter_ (process prio (posted (init c0) es)) "grader_runs_retry" = Z.of_nat (events_of Retried (posted (init c0) es))).
Proof.
  intros H. specialize (H 10%N one_timeout (fun _ => Normal)).
  assert (B : (10 + N.of_nat (length one_timeout) < 2 ^ 64)%N) by reflexivity.
  assert (R : race_free_exec (init 10) one_timeout) by (apply rfbs_sound; vm_compute; reflexivity).
  specialize (H B R). vm_compute in H. discriminate.
Qed.
Print Assumptions C80_retried_counter_refuted.

Theorem C80_abandoned_counter_refuted :
  ~ (forall c0 es prio, (c0 + N.of_nat (length es) < 2 ^ 64)%N -> race_free_exec (init c0) es ->
       counter_ (process prio (posted (init c0) es)) "grader_runs_abandoned" = Z.of_nat (events_of Abandoned (posted (init c0) es))).
Proof.
  intros H. specialize (H 10%N two_timeouts (fun _ => Normal)).
  assert (B : (10 + N.of_nat (length two_timeouts) < 2 ^ 64)%N) by reflexivity.
  assert (R : race_free_exec (init 10) two_timeouts) by (apply rfbs_sound; vm_compute; reflexivity).
  specialize (H B R). vm_compute in H. discriminate.
Qed.
Print Assumptions C80_abandoned_counter_refuted.

(* Defect: a retry decided by a result handler (the runner reported a failure)
   posts no event at all. *)
Definition handler_retry : list event :=
  [ENew 3; EGetRun 0] ++ st 0 2 ++ [EResult 11; EStep 2 ChFalse] ++ st 2 6 ++ [EGetRun 0] ++ st 3 2.
Theorem C80_every_retry_posted_refuted :
  ~ (forall c0 es r, (c0 + N.of_nat (length es) < 2 ^ 64)%N -> race_free_exec (init c0) es ->
       handouts (exec (init c0) es) r <= 1 + events_about Retried r (posted (init c0) es)).
Proof.
  intros H. specialize (H 10%N handler_retry 0).
  assert (B : (10 + N.of_nat (length handler_retry) < 2 ^ 64)%N) by reflexivity.
  assert (R : race_free_exec (init 10) handler_retry) by (apply rfbs_sound; vm_compute; reflexivity).
  specialize (H B R). vm_compute in H. lia.
Qed.
Print Assumptions C80_every_retry_posted_refuted.

(* Defect: when a timer fires while the result is being stored, a graded and
   published run is reported abandoned. *)
Definition late_timer : list event :=
  [ENew 1; EGetRun 0] ++ st 0 2 ++ [EResult 11; EStep 1 ChTrue; EStep 2 ChTrue] ++ st 2 7 ++ st 1 3.
Theorem C80_abandoned_unpublished_under_races_refuted :
  ~ (forall c0 es r x, nth_error (runs (exec (init c0) es)) r = Some x ->
       events_about Abandoned r (posted (init c0) es) >= 1 -> npost x = 0).
Proof.
  intros H. specialize (H 10%N late_timer 0).
  assert (E : exists x, nth_error (runs (exec (init 10) late_timer)) 0 = Some x /\ npost x = 1) by (eexists; split; vm_compute; reflexivity).
  destruct E as (x & E & P). specialize (H x E). rewrite P in H.
  assert (A : events_about Abandoned 0 (posted (init 10) late_timer) = 1) by (vm_compute; reflexivity).
  rewrite A in H. specialize (H (le_n 1)). discriminate H.
Qed.
Print Assumptions C80_abandoned_unpublished_under_races_refuted.

(* Non-trivial executions. *)
Example timeouts_posted : posted (init 10) two_timeouts =
  [(ManagerAdded, 0); (QueueAdded, 0); (ManagerAdded, 1); (QueueAdded, 1);
   (QueueRemoved, 0); (Retried, 0); (QueueRemoved, 0); (ManagerRemoved, 0); (Abandoned, 0)].
Proof. vm_compute. reflexivity. Qed.
Example timeouts_metrics :
  let m := process (fun r => if Nat.eqb r 0 then Low else High) (posted (init 10) two_timeouts) in
  gauge m "grader_queue_total_length" = 1%Z /\ observed m "grader_queue_low_delay_seconds" = 2 /\
  observed m "grader_queue_high_delay_seconds" = 0 /\ observed m "grader_queue_delay_seconds" = 1 /\
  race_free_exec (init 10) two_timeouts /\ timed_out (exec (init 10) two_timeouts) = 2 /\
  open_runs (exec (init 10) two_timeouts) = 1.
Proof.
  cbv zeta. split; [vm_compute; reflexivity|]. split; [vm_compute; reflexivity|]. split; [vm_compute; reflexivity|].
  split; [vm_compute; reflexivity|]. split; [apply rfbs_sound; vm_compute; reflexivity|]. vm_compute. auto.
Qed.
(* In the middle of a Close the run is still counted. *)
Example closing_counted :
  let es := [ENew 4; EGetRun 0] ++ st 0 2 ++ [EResult 11; EStep 2 ChTrue] ++ st 2 3 in
  open_runs (exec (init 10) es) = 0 /\ closing (exec (init 10) es) = 1 /\ being_closed (exec (init 10) es) 0 = 1.
Proof. vm_compute. auto. Qed.

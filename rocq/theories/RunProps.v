(* Properties C06-C09: the life of a run in the grader. *)
From Coq Require Import List Arith ZArith NArith Bool Lia.
From Verif Require Import GoBase RunModel RunSpec RunProofs RunBoundsProofs RunTimerProofs RunLinProofs RunLinFacts.
Import ListNotations.

(* ---- C06 ---------------------------------------------------------------- *)

(* Every schedule, races included: at most max(1, MaxGradeRetries) hand-outs. *)
Theorem C06_handouts_bounded :
  forall s r x, reachable s -> nth_error (runs s) r = Some x -> handouts s r <= Nat.max 1 (maxtries x).
Proof. exact handouts_bounded_l. Qed.
Print Assumptions C06_handouts_bounded.

(* A requeue that asked for a last attempt (runner_handler.go:207, JE uploaded),
   done by the only goroutine holding the run, leaves at most one more hand-out
   whatever happens afterwards. *)
Theorem C06_last_attempt_leaves_one :
  forall s t r x k es,
    reachable s -> nth_error (threads s) t = Some (RQ2 r true k) -> nth_error (runs s) r = Some x ->
    queued s r = 0 -> workers s r = 1 ->
    handouts (exec s (EStep t ChFalse :: es)) r <= handouts s r + 1.
Proof. exact last_attempt_l. Qed.
Print Assumptions C06_last_attempt_leaves_one.

Definition st (t : nat) (k : nat) : list event := repeat (EStep t ChFalse) k.
(* a run with 3 tries, handed out, fails, handed out again, JE uploaded *)
Definition c06_schedule : list event :=
  [ENew 3; EGetRun 0] ++ st 0 2 ++ [EResult 11; EStep 2 ChFalse] ++ st 2 6 ++
  [EGetRun 0] ++ st 3 2 ++ [EResult 12; EStep 5 ChLast] ++ st 5 3.
Example C06_nonvacuous :
  let s := exec (init 10) c06_schedule in
  nth_error (threads s) 5 = Some (RQ2 0 true KEnd) /\ queued s 0 = 0 /\ workers s 0 = 1 /\ handouts s 0 = 2 /\
  handouts (exec s (st 5 3 ++ [EGetRun 0] ++ st 6 2)) 0 = 3.
Proof. cbv zeta; repeat match goal with |- _ /\ _ => split end; vm_compute; reflexivity. Qed.

(* ---- C07 ---------------------------------------------------------------- *)

(* The identifiers drawn by all runs and requeues, in any schedule of up to 2^64
   events (each event draws at most one), are pairwise distinct; the counter
   wraps around. *)
Theorem C07_drawn_ids_distinct :
  forall c0 es, (c0 < 2 ^ 64)%N -> (N.of_nat (length es) <= 2 ^ 64)%N -> NoDup (draws (init c0) es).
Proof. exact (fun c0 es => draws_distinct_l (init c0) es). Qed.
Print Assumptions C07_drawn_ids_distinct.

(* Without races, two different hand-outs never carry the same attempt ID. *)
Theorem C07_handout_ids_distinct :
  forall c0 es i1 i2 y1 y2,
    (c0 + N.of_nat (length es) < 2 ^ 64)%N -> race_free_exec (init c0) es ->
    nth_error (inflights (exec (init c0) es)) i1 = Some y1 ->
    nth_error (inflights (exec (init c0) es)) i2 = Some y2 -> iatt y1 = iatt y2 -> i1 = i2.
Proof. exact handout_ids_l. Qed.
Print Assumptions C07_handout_ids_distinct.

(* A boolean check for race freedom of concrete schedules. *)
Definition rfb (s : state) (e : event) : bool :=
  match e with
  | EResult a =>
    match mget (mapping s) a with
    | Some i => match nth_error (inflights s) i with Some x => workers s (irun x) =? 0 | None => true end
    | None => true end
  | EStep t ChTrue =>
    match nth_error (threads s) t with
    | Some (TConn i) | Some (TRdy i) =>
      match nth_error (inflights s) i with
      | Some x => match mget (mapping s) (iatt x) with Some j => (j =? i) && (workers s (irun x) =? 0) | None => false end
      | None => true end
    | _ => true end
  | _ => true
  end.
Fixpoint rfbs (s : state) (es : list event) : bool :=
  match es with [] => true | e :: es' => rfb s e && rfbs (step s e) es' end.
Lemma rfb_sound s e : rfb s e = true -> race_free s e.
Proof.
  destruct e as [|n|a|t []]; cbn; auto.
  - intros H i x Hm Hx. rewrite Hm, Hx in H. apply Nat.eqb_eq; auto.
  - intros H i x Ht Hx.
    assert (G : match mget (mapping s) (iatt x) with Some j => (j =? i) && (workers s (irun x) =? 0) | None => false end = true).
    { destruct Ht as [E|E]; rewrite E, Hx in H; exact H. }
    destruct (mget (mapping s) (iatt x)); [|discriminate]. apply andb_prop in G. destruct G as [G1 G2].
    apply Nat.eqb_eq in G1. apply Nat.eqb_eq in G2. subst; auto.
Qed.
Lemma rfbs_sound es : forall s, rfbs s es = true -> race_free_exec s es.
Proof.
  induction es as [|e es IH]; intros s H; cbn in *; auto. apply andb_prop in H. destruct H. split; auto using rfb_sound.
Qed.

Ltac ex := cbv zeta; repeat match goal with |- _ /\ _ => split end;
  match goal with |- race_free_exec _ _ => apply rfbs_sound; vm_compute; reflexivity | _ => vm_compute; reflexivity end.

Example C07_nonvacuous :
  draws (init (2 ^ 64 - 2)) [ENew 1; ENew 1; ENew 1] = [2 ^ 64 - 1; 0; 1]%N /\
  race_free_exec (init 10) c06_schedule /\
  map iatt (inflights (exec (init 10) c06_schedule)) = [11; 12]%N.
Proof. ex. Qed.

(* Two concurrent uploads for the same attempt (both looked up before either
   requeues) queue the run twice and hand it out twice under the same ID. *)
Definition dup_schedule : list event :=
  [ENew 4; EGetRun 0] ++ st 0 2 ++ [EResult 11; EResult 11; EStep 2 ChFalse] ++ st 2 6 ++ [EStep 3 ChFalse] ++ st 3 6 ++
  [EGetRun 0; EGetRun 0] ++ st 4 2 ++ st 5 2.
Theorem C07_handout_ids_distinct_under_races_refuted :
  ~ (forall c0 es i1 i2 y1 y2,
    (c0 + N.of_nat (length es) < 2 ^ 64)%N ->
    nth_error (inflights (exec (init c0) es)) i1 = Some y1 ->
    nth_error (inflights (exec (init c0) es)) i2 = Some y2 -> iatt y1 = iatt y2 -> i1 = i2).
Proof.
  intros H. specialize (H 10%N dup_schedule 1 2).
  assert (E : exists y1 y2, nth_error (inflights (exec (init 10) dup_schedule)) 1 = Some y1 /\
    nth_error (inflights (exec (init 10) dup_schedule)) 2 = Some y2 /\ iatt y1 = iatt y2)
    by (do 2 eexists; split; [vm_compute; reflexivity|split; vm_compute; reflexivity]).
  destruct E as (y1 & y2 & E1 & E2 & E3). discriminate (H y1 y2 ltac:(vm_compute; reflexivity) E1 E2 E3).
Qed.
Print Assumptions C07_handout_ids_distinct_under_races_refuted.

(* ---- C08 ---------------------------------------------------------------- *)

(* Every schedule: close(run.ready), PostProcess and close(run.running) happen
   at most once (so neither close can panic), and nothing is post-processed
   before it is ready. *)
Theorem C08_close_at_most_once :
  forall s r x, reachable s -> nth_error (runs s) r = Some x ->
    nready x <= 1 /\ npost x <= 1 /\ nrunning x <= 1 /\ npost x <= nready x /\ (nready x = 1 -> closedF x = true).
Proof. exact closed_once_l. Qed.
Print Assumptions C08_close_at_most_once.

(* Without races, an accepted result with a working file system does close. *)
Theorem C08_accepted_result_closes :
  forall c0 es t r x,
    (c0 + N.of_nat (length es) < 2 ^ 64)%N -> race_free_exec (init c0) es ->
    nth_error (threads (exec (init c0) es)) t = Some (HProc r) ->
    nth_error (runs (exec (init c0) es)) r = Some x ->
    let s' := exec (exec (init c0) es) (close_script t) in
    exists x', nth_error (runs s') r = Some x' /\ closedF x' = true /\ nready x' = S (nready x) /\
      npost x' = S (npost x) /\ mget (mapping s') (attempt x) = None /\ nth_error (threads s') t = Some Done.
Proof. exact handler_close_l. Qed.
Print Assumptions C08_accepted_result_closes.

Definition one_result : list event := [ENew 4; EGetRun 0] ++ st 0 2 ++ [EResult 11].
Example C08_nonvacuous :
  race_free_exec (init 10) one_result /\
  nth_error (threads (exec (init 10) one_result)) 2 = Some (HProc 0) /\
  (* two racing handlers and the timer all try to close *)
  (let es := one_result ++ [EResult 11; EStep 2 ChTrue; EStep 3 ChTrue] ++ st 3 7 ++ st 2 7 in
   map nready (runs (exec (init 10) es)) = [1] /\ map npost (runs (exec (init 10) es)) = [1]).
Proof. ex. Qed.

(* "A closed run is eventually announced" fails: (a) a run given up after its
   last retry is closed and ready but never reaches the post-processor, even
   without races and without I/O errors; (b) one failed file-system call leaves
   a closed run that is never ready. *)
Definition abandon_schedule : list event :=
  [ENew 1; EGetRun 0] ++ st 0 2 ++ [EResult 11; EStep 2 ChLast] ++ st 2 7.
Theorem C08_abandoned_runs_postprocessed_refuted :
  ~ (forall c0 es r x,
      (c0 + N.of_nat (length es) < 2 ^ 64)%N -> race_free_exec (init c0) es ->
      nth_error (runs (exec (init c0) es)) r = Some x ->
      workers (exec (init c0) es) r = 0 -> nready x = 1 -> npost x = 1).
Proof.
  intros H.
  assert (E : exists x, nth_error (runs (exec (init 10) abandon_schedule)) 0 = Some x /\ nready x = 1 /\ npost x = 0)
    by (eexists; split; [vm_compute; reflexivity|split; vm_compute; reflexivity]).
  destruct E as (x & E1 & E2 & E3).
  assert (npost x = 1).
  { apply (H 10%N abandon_schedule 0 x); auto; try (vm_compute; reflexivity). apply rfbs_sound. vm_compute. reflexivity. }
  congruence.
Qed.
Print Assumptions C08_abandoned_runs_postprocessed_refuted.

Definition io_error_schedule : list event := one_result ++ [EStep 2 ChTrue] ++ st 2 4 ++ [EStep 2 ChTrue].
Theorem C08_closed_runs_become_ready_refuted :
  ~ (forall c0 es r x,
      (c0 + N.of_nat (length es) < 2 ^ 64)%N -> race_free_exec (init c0) es ->
      nth_error (runs (exec (init c0) es)) r = Some x ->
      workers (exec (init c0) es) r = 0 -> closedF x = true -> nready x = 1).
Proof.
  intros H.
  assert (E : exists x, nth_error (runs (exec (init 10) io_error_schedule)) 0 = Some x /\ closedF x = true /\ nready x = 0)
    by (eexists; split; [vm_compute; reflexivity|split; vm_compute; reflexivity]).
  destruct E as (x & E1 & E2 & E3).
  assert (nready x = 1).
  { apply (H 10%N io_error_schedule 0 x); auto; try (vm_compute; reflexivity). apply rfbs_sound. vm_compute. reflexivity. }
  congruence.
Qed.
Print Assumptions C08_closed_runs_become_ready_refuted.

(* ---- C09 ---------------------------------------------------------------- *)

(* Without races every run is at exactly one place: waiting in the queue, held
   by one goroutine, in flight (its current attempt ID resolves to it), or
   closed; queued, in-flight and closed exclude one another. *)
Theorem C09_one_place :
  forall c0 es r x,
    (c0 + N.of_nat (length es) < 2 ^ 64)%N -> race_free_exec (init c0) es ->
    let s := exec (init c0) es in
    nth_error (runs s) r = Some x ->
    (queued s r = 1 /\ workers s r = 0 /\ ~ in_flight s r x /\ closedF x = false) \/
    (queued s r = 0 /\ workers s r = 1) \/
    (queued s r = 0 /\ workers s r = 0 /\ in_flight s r x /\ closedF x = false) \/
    (queued s r = 0 /\ workers s r = 0 /\ ~ in_flight s r x /\ closedF x = true).
Proof. exact one_place_l. Qed.
Print Assumptions C09_one_place.

(* An attempt ID that resolves, resolves to the run whose current attempt it is. *)
Theorem C09_lookup_is_current_attempt :
  forall c0 es a i,
    (c0 + N.of_nat (length es) < 2 ^ 64)%N -> race_free_exec (init c0) es ->
    let s := exec (init c0) es in
    mget (mapping s) a = Some i ->
    exists y x, nth_error (inflights s) i = Some y /\ nth_error (runs s) (irun y) = Some x /\ attempt x = a.
Proof. exact lookup_l. Qed.
Print Assumptions C09_lookup_is_current_attempt.

(* Once an attempt that was handed out stops resolving, it never resolves again. *)
Theorem C09_stale_attempt_never_resolves :
  forall c0 es1 es2 a,
    (c0 + N.of_nat (length (es1 ++ es2)) < 2 ^ 64)%N -> race_free_exec (init c0) (es1 ++ es2) ->
    (exists i y, nth_error (inflights (exec (init c0) es1)) i = Some y /\ iatt y = a) ->
    mget (mapping (exec (init c0) es1)) a = None ->
    mget (mapping (exec (init c0) (es1 ++ es2))) a = None.
Proof. exact stale_never_resolves_l. Qed.
Print Assumptions C09_stale_attempt_never_resolves.

(* A timeout with tries left puts the run back in the queue once, open, under a
   fresh attempt ID, and the timed-out attempt no longer resolves. *)
Theorem C09_timeout_requeues_once :
  forall c0 es t i y x,
    let s := exec (init c0) es in
    (c0 + N.of_nat (length es) < 2 ^ 64)%N -> race_free_exec (init c0) es ->
    race_free s (EStep t ChTrue) ->
    nth_error (threads s) t = Some (TConn i) \/ nth_error (threads s) t = Some (TRdy i) ->
    nth_error (inflights s) i = Some y -> nth_error (runs s) (irun y) = Some x -> (2 <= tries x)%Z ->
    let s' := exec s (EStep t ChTrue :: requeue_script t) in
    exists x', nth_error (runs s') (irun y) = Some x' /\ closedF x' = false /\ tries x' = (tries x - 1)%Z /\
      attempt x' = next_id (counter s) /\ mget (mapping s') (iatt y) = None /\
      queue s' = queue s ++ [irun y] /\ nth_error (threads s') t = Some (TSend i).
Proof. exact timeout_requeues_l. Qed.
Print Assumptions C09_timeout_requeues_once.

Theorem C09_no_nil_monitor_panic :
  forall c0 es, (c0 + N.of_nat (length es) < 2 ^ 64)%N -> race_free_exec (init c0) es ->
    ~ In Panic (threads (exec (init c0) es)).
Proof. exact no_panic_l. Qed.
Print Assumptions C09_no_nil_monitor_panic.

(* Every schedule: close(inflight.timeout) at most once, and the notification
   sent on it never blocks its goroutine. *)
Theorem C09_timeout_channel_closed_at_most_once :
  forall s i y, reachable s -> nth_error (inflights s) i = Some y -> ntclose y <= 1.
Proof. exact timeout_closed_once_l. Qed.
Print Assumptions C09_timeout_channel_closed_at_most_once.
Theorem C09_timeout_notification_never_blocks :
  forall s t i, reachable s -> nth_error (threads s) t = Some (TSend i) ->
    exists y, nth_error (inflights s) i = Some y /\ tmo y = false.
Proof. exact timeout_send_never_blocks_l. Qed.
Print Assumptions C09_timeout_notification_never_blocks.

(* Bug: the goroutine of a timer that fired blocks for ever on the drained timer
   channel, so inflight.timeout is never closed, in no continuation. *)
Theorem C09_fired_timer_leaks_goroutine :
  forall s t i y es, reachable s -> nth_error (threads s) t = Some (TDrain i) ->
    nth_error (inflights (exec s es)) i = Some y -> ntclose y = 0.
Proof. exact fired_never_closed_l. Qed.
Print Assumptions C09_fired_timer_leaks_goroutine.

Definition timeout_schedule : list event :=
  [ENew 2; EGetRun 0] ++ st 0 2 ++ [EStep 1 ChTrue] ++ st 1 7.
Example C09_nonvacuous :
  let s := exec (init 10) timeout_schedule in
  race_free_exec (init 10) timeout_schedule /\
  nth_error (threads s) 1 = Some (TDrain 0) /\ queued s 0 = 1 /\
  mget (mapping s) 11 = None /\ map iatt (inflights s) = [11%N] /\
  (* a late result for the timed-out attempt finds nothing *)
  threads (step s (EResult 11)) = threads s /\
  (let s1 := exec (init 10) ([ENew 2; EGetRun 0] ++ st 0 2) in
   nth_error (threads s1) 1 = Some (TConn 0) /\ mget (mapping s1) 11 = Some 0 /\
   race_free_exec (init 10) ([ENew 2; EGetRun 0] ++ st 0 2 ++ [EStep 1 ChTrue])).
Proof. ex. Qed.

(* With the timer racing the handler both guarantees fail: a closed run goes
   back to the queue, and the nil monitor is dereferenced. *)
Definition race_close_schedule : list event :=
  one_result ++ [EStep 1 ChTrue; EStep 2 ChTrue] ++ st 2 7 ++ st 1 6.
Theorem C09_closed_run_not_requeued_under_races_refuted :
  ~ (forall c0 es r x, (c0 + N.of_nat (length es) < 2 ^ 64)%N ->
      nth_error (runs (exec (init c0) es)) r = Some x -> closedF x = true -> queued (exec (init c0) es) r = 0).
Proof.
  intros H.
  assert (E : exists x, nth_error (runs (exec (init 10) race_close_schedule)) 0 = Some x /\ closedF x = true)
    by (eexists; split; vm_compute; reflexivity).
  destruct E as (x & E1 & E2). specialize (H 10%N race_close_schedule 0 x ltac:(vm_compute; reflexivity) E1 E2).
  assert (Q : queued (exec (init 10) race_close_schedule) 0 = 1) by (vm_compute; reflexivity). rewrite Q in H. discriminate H.
Qed.
Print Assumptions C09_closed_run_not_requeued_under_races_refuted.

Definition race_panic_schedule : list event :=
  one_result ++ [EStep 1 ChTrue; EStep 1 ChFalse; EStep 2 ChTrue] ++ st 2 7 ++ st 1 1.
Theorem C09_no_panic_under_races_refuted :
  ~ (forall c0 es, (c0 + N.of_nat (length es) < 2 ^ 64)%N -> ~ In Panic (threads (exec (init c0) es))).
Proof.
  intros H. apply (H 10%N race_panic_schedule); [vm_compute; reflexivity|].
  apply (nth_error_In _ 1). vm_compute. reflexivity.
Qed.
Print Assumptions C09_no_panic_under_races_refuted.

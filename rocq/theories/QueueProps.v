(* Properties C01-C05 of the run queue.  Only statements, each closed by exact. *)
From Coq Require Import List Arith Lia Permutation.
From Verif Require Import GoBase QueueModel QueueSpec QueueProofs QueueCalls.
Import ListNotations.

(* C01: no schedule makes any GetRun call reach panic("unreachable"). *)
Theorem C01_getrun_never_panics :
  forall (R : Type) channelLength (s : state R), reachable channelLength s -> ~ In CPanic (threads s).
Proof. exact @getrun_never_panics_l. Qed.
Print Assumptions C01_getrun_never_panics.

(* C01 (second half): a GetRun that was woken up and is about to look at
   priority i always has a run waiting at priority i or below. *)
Theorem C01_woken_getrun_finds_run :
  forall (R : Type) channelLength (s : state R) t i,
    reachable channelLength s -> nth_error (threads s) t = Some (CScan i) ->
    exists p r q, i <= p /\ nth_error (chans s) p = Some (r :: q).
Proof. exact @woken_has_run_l. Qed.
Print Assumptions C01_woken_getrun_finds_run.

(* A schedule where the non-atomic scan is overtaken by a more urgent run and a
   second consumer, so the scans really interleave. *)
Definition c01_schedule : list (event nat) :=
  [EAddRun 2 70; EStep 0; EStep 0;          (* run 70 at priority 2 *)
   EGetRun; EStep 1; EStep 1;               (* consumer 1 passes priority 0 *)
   EEnqueue 0 71; EStep 2; EStep 2;         (* run 71 appears at priority 0 *)
   EGetRun; EStep 3; EStep 3;               (* consumer 3 takes it *)
   EStep 1].
Example C01_nonvacuous :
  reachable 1 (fst (exec (init nat 1) c01_schedule)) /\
  nth_error (threads (fst (exec (init nat 1) c01_schedule))) 1 = Some (CScan 2) /\
  nth_error (threads (fst (exec (init nat 1) c01_schedule))) 3 = Some (CGot 0 71).
Proof. split; [eexists; reflexivity|]. split; reflexivity. Qed.

(* C02: the runs accepted by AddRun/enqueue calls are, as a multiset, the runs
   returned by GetRun calls plus the runs waiting. *)
Theorem C02_no_run_lost_or_duplicated :
  forall (R : Type) channelLength (s : state R),
    reachable channelLength s -> Permutation (accepted s) (handed_out s ++ waiting s).
Proof. exact @conservation_l. Qed.
Print Assumptions C02_no_run_lost_or_duplicated.

Example C02_nonvacuous :
  accepted (fst (exec (init nat 1) c01_schedule)) = [70; 71] /\
  handed_out (fst (exec (init nat 1) c01_schedule)) = [71] /\
  waiting (fst (exec (init nat 1) c01_schedule)) = [70].
Proof. repeat split; reflexivity. Qed.

(* C02: the outcome of every call is about the very run, and the very class, the
   call named; only GetRun calls whose client has gone return empty-handed. *)
Theorem C02_calls_get_what_they_ask_for :
  forall (R : Type) channelLength (es : list (event R)),
    Forall2 became (calls es) (threads (fst (exec (init R channelLength) es))) /\
    forall t, nth_error (threads (fst (exec (init R channelLength) es))) t = Some CGone -> In (EGone t) es.
Proof. intros. split; [apply outcomes_l|apply gone_l]. Qed.
Print Assumptions C02_calls_get_what_they_ask_for.

Example C02_calls_nonvacuous :
  calls c01_schedule = [CallAddRun 2 70; CallGetRun; CallEnqueue 0 71; CallGetRun] /\
  threads (fst (exec (init nat 1) c01_schedule)) = [PDone 2 70; CScan 2; PDone 0 71; CGot 0 71].
Proof. split; reflexivity. Qed.

(* C03: per priority, the sequence of removals followed by the current contents
   is the sequence of insertions. *)
Theorem C03_fifo_within_priority :
  forall (R : Type) channelLength (es : list (event R)) p,
    inserted p (snd (exec (init R channelLength) es)) =
    removed p (snd (exec (init R channelLength) es)) ++ nth p (chans (fst (exec (init R channelLength) es))) [].
Proof. exact @fifo_l. Qed.
Print Assumptions C03_fifo_within_priority.

Example C03_nonvacuous :
  let es := [EAddRun 1 5; EAddRun 1 6; EAddRun 1 7; EStep 0; EStep 1; EStep 2; EStep 2; EGetRun;
             EStep 3; EStep 3; EStep 3] in
  inserted 1 (snd (exec (init nat 3) es)) = [5; 6; 7] /\ removed 1 (snd (exec (init nat 3) es)) = [5].
Proof. split; reflexivity. Qed.

(* C03: what goes into a class is what calls that named it put there, and what
   comes out is what GetRun calls return. *)
Theorem C03_in_and_out_are_the_calls :
  forall (R : Type) channelLength (es : list (event R)) p,
    Permutation (inserted p (snd (exec (init R channelLength) es))) (put_into p (fst (exec (init R channelLength) es))) /\
    Permutation (removed p (snd (exec (init R channelLength) es))) (got_from p (fst (exec (init R channelLength) es))).
Proof. exact @obs_l. Qed.
Print Assumptions C03_in_and_out_are_the_calls.

(* C04: under any interleaving, a GetRun (thread t, waiting in state s) that
   eventually returns a run r of priority p saw each more urgent priority empty
   at some instant of the call, and r was the oldest of its priority at some
   instant of the call. *)
Theorem C04_higher_priorities_seen_empty :
  forall (R : Type) (es : list (event R)) (s : state R) t p r,
    nth_error (threads s) t = Some CWait ->
    nth_error (threads (fst (exec s es))) t = Some (CGot p r) ->
    (forall q, q < p -> exists a b, es = a ++ b /\ nth_error (chans (fst (exec s a))) q = Some []) /\
    exists a b rest, es = a ++ b /\ nth_error (chans (fst (exec s a))) p = Some (r :: rest).
Proof. exact @wait_seen. Qed.
Print Assumptions C04_higher_priorities_seen_empty.

(* C04: a GetRun that runs without interference returns the oldest run of the
   most urgent non-empty priority. *)
Theorem C04_uninterrupted_getrun_takes_most_urgent :
  forall (R : Type) channelLength (s : state R) t,
    reachable channelLength s -> nth_error (threads s) t = Some CWait -> tokens s > 0 ->
    exists p r k, most_urgent s p r /\
      nth_error (threads (fst (exec s (repeat (EStep t) k)))) t = Some (CGot p r).
Proof. exact @solo_getrun_l. Qed.
Print Assumptions C04_uninterrupted_getrun_takes_most_urgent.

Example C04_nonvacuous :
  let s := fst (exec (init nat 2) [EAddRun 3 1; EAddRun 1 2; EStep 0; EStep 0; EStep 1; EStep 1; EGetRun]) in
  reachable 2 s /\ nth_error (threads s) 2 = Some CWait /\ tokens s = 2 /\
  nth_error (threads (fst (exec s (repeat (EStep 2) 3)))) 2 = Some (CGot 1 2).
Proof. split; [eexists; reflexivity|]. repeat split; reflexivity. Qed.

(* C05: no priority queue exceeds channelLength. *)
Theorem C05_capacity_respected :
  forall (R : Type) channelLength (s : state R) p q,
    reachable channelLength s -> nth_error (chans s) p = Some q -> length q <= channelLength.
Proof. exact @capacity_l. Qed.
Print Assumptions C05_capacity_respected.

(* C05: posting the wake-up token never blocks. *)
Theorem C05_wakeup_never_blocks :
  forall (R : Type) channelLength (s : state R) t p r,
    reachable channelLength s -> nth_error (threads s) t = Some (PSent p r) ->
    nth_error (threads (fst (step s (EStep t)))) t = Some (PDone p r) /\
    tokens (fst (step s (EStep t))) = S (tokens s).
Proof. exact @wakeup_never_blocks_l. Qed.
Print Assumptions C05_wakeup_never_blocks.

(* C05: enqueue rejects exactly when full, and then changes nothing. *)
Theorem C05_enqueue_rejects_iff_full :
  forall (R : Type) (s : state R) t p r q,
    nth_error (threads s) t = Some (PTry p r) -> nth_error (chans s) p = Some q ->
    (length q >= cap s ->
       nth_error (threads (fst (step s (EStep t)))) t = Some (PRejected p r) /\
       chans (fst (step s (EStep t))) = chans s) /\
    (length q < cap s ->
       nth_error (threads (fst (step s (EStep t)))) t = Some (PSent p r) /\
       nth_error (chans (fst (step s (EStep t)))) p = Some (q ++ [r])).
Proof. exact @reject_l. Qed.
Print Assumptions C05_enqueue_rejects_iff_full.

(* C05: AddRun blocks exactly when full. *)
Theorem C05_addrun_blocks_iff_full :
  forall (R : Type) (s : state R) t p r q,
    nth_error (threads s) t = Some (PBlock p r) -> nth_error (chans s) p = Some q ->
    (length q >= cap s -> fst (step s (EStep t)) = s) /\
    (length q < cap s ->
       nth_error (threads (fst (step s (EStep t)))) t = Some (PSent p r) /\
       nth_error (chans (fst (step s (EStep t)))) p = Some (q ++ [r])).
Proof. exact @block_l. Qed.
Print Assumptions C05_addrun_blocks_iff_full.

(* C05 (no lost wake-up): when no producer is between its two sends and no
   consumer is scanning, there are exactly as many tokens as runs waiting, so a
   waiting GetRun is enabled whenever a run is waiting. *)
Theorem C05_no_lost_wakeup :
  forall (R : Type) channelLength (s : state R),
    reachable channelLength s ->
    (forall t p r, nth_error (threads s) t <> Some (PSent p r)) ->
    (forall t i, nth_error (threads s) t <> Some (CScan i)) ->
    tokens s = length (waiting s).
Proof.
  intros R n s HR H1 H2. apply (no_lost_wakeup_l n s HR).
  intros t [] Ht; cbn; auto; exfalso; [eapply H1|eapply H2]; eauto.
Qed.
Print Assumptions C05_no_lost_wakeup.

Example C05_nonvacuous :
  let s := fst (exec (init nat 1) [EAddRun 0 1; EStep 0; EEnqueue 0 2; EStep 1; EAddRun 0 3; EStep 2]) in
  reachable 1 s /\ threads s = [PSent 0 1; PRejected 0 2; PBlock 0 3] /\
  tokens (fst (step s (EStep 0))) = 1 /\ length (waiting (fst (step s (EStep 0)))) = 1.
Proof. split; [eexists; reflexivity|]. repeat split; reflexivity. Qed.

(* C06 and C09, continued: how tries are used up, what a failed attempt does, and that
   the timer of an attempt that is over stops. *)
From Coq Require Import List Arith ZArith NArith Bool Lia.
From Verif Require Import GoBase RunModel RunSpec RunProofs RunBoundsProofs RunTimerProofs RunLinProofs RunLinFacts RunProps RunTriesSpec RunTriesProofs RunStopProofs.
Import ListNotations.

(* A run that was given up after nothing but failures has been tried max(1, MaxGradeRetries)
   times, not fewer; while it waits, its tries left are what is not used up. *)
Theorem C06_all_tries_used :
  forall c0 es r x,
    (c0 + N.of_nat (length es) < 2 ^ 64)%N -> race_free_exec (init c0) es -> fails_throughout (init c0) es ->
    let s := exec (init c0) es in
    nth_error (runs s) r = Some x ->
    (closedF x = true -> handouts s r = Nat.max 1 (maxtries x)) /\
    (queued s r = 1 -> (Z.of_nat (handouts s r) + tries x = Z.of_nat (maxtries x))%Z).
Proof. exact all_tries_used_l. Qed.
Print Assumptions C06_all_tries_used.

(* A result handler whose attempt failed puts the run back in the queue once, open, under a
   fresh attempt ID, with one try fewer, or just one left if the upload was a judge error;
   the failed attempt no longer resolves. *)
Theorem C09_failed_upload_requeues_once :
  forall c0 es t r x (judge_error : bool),
    let s := exec (init c0) es in
    (c0 + N.of_nat (length es) < 2 ^ 64)%N -> race_free_exec (init c0) es ->
    nth_error (threads s) t = Some (HProc r) -> nth_error (runs s) r = Some x -> (2 <= tries x)%Z ->
    let s' := exec s (EStep t (if judge_error then ChLast else ChFalse) :: requeue_script t) in
    exists x', nth_error (runs s') r = Some x' /\ closedF x' = false /\ tries x' = (if judge_error then 1 else tries x - 1)%Z /\
      attempt x' = next_id (counter s) /\ mget (mapping s') (attempt x) = None /\
      queue s' = queue s ++ [r] /\ nth_error (threads s') t = Some Done.
Proof. exact failed_upload_l. Qed.
Print Assumptions C09_failed_upload_requeues_once.

(* With no tries left, a failed upload or a timeout closes the run instead: it becomes ready,
   is not queued again, draws no identifier, and its attempt no longer resolves. *)
Theorem C09_out_of_tries_gives_up :
  forall c0 es t r x k ch,
    let s := exec (init c0) es in
    (c0 + N.of_nat (length es) < 2 ^ 64)%N -> race_free_exec (init c0) es -> race_free s (EStep t ch) ->
    (nth_error (threads s) t = Some (HProc r) /\ ch <> ChTrue /\ k = KEnd) \/
    (exists i y, (nth_error (threads s) t = Some (TConn i) \/ nth_error (threads s) t = Some (TRdy i)) /\ ch = ChTrue /\
       nth_error (inflights s) i = Some y /\ irun y = r /\ k = KTimer i) ->
    nth_error (runs s) r = Some x -> (tries x <= 1)%Z ->
    let s' := exec s (EStep t ch :: give_up_script t) in
    exists x', nth_error (runs s') r = Some x' /\ closedF x' = true /\ nready x' = S (nready x) /\
      mget (mapping s') (attempt x) = None /\ queue s' = queue s /\ counter s' = counter s /\
      nth_error (threads s') t = Some (match k with KEnd => Done | KTimer i => TSend i end).
Proof. exact out_of_tries_l. Qed.
Print Assumptions C09_out_of_tries_gives_up.

(* The goroutine that watches an attempt which is over need only go on to stop: it closes the
   attempt's timeout channel without having sent a timeout, and touches nothing else. *)
Theorem C09_timer_of_finished_attempt_stops :
  forall c0 es t i y,
    let s := exec (init c0) es in
    (c0 + N.of_nat (length es) < 2 ^ 64)%N -> race_free_exec (init c0) es ->
    nth_error (threads s) t = Some (TConn i) \/ nth_error (threads s) t = Some (TRdy i) ->
    nth_error (inflights s) i = Some y -> mget (mapping s) (iatt y) <> Some i ->
    exists n y', let s' := exec s (repeat (EStep t ChFalse) n) in
      nth_error (threads s') t = Some Done /\ nth_error (inflights s') i = Some y' /\ ntclose y' = S (ntclose y) /\ tmo y' = tmo y /\
      runs s' = runs s /\ queue s' = queue s /\ mapping s' = mapping s.
Proof. exact timer_stops_l. Qed.
Print Assumptions C09_timer_of_finished_attempt_stops.

(* A run with two tries that fails, then times out. *)
Definition twice : list event :=
  [ENew 2; EGetRun 0] ++ st 0 2 ++ [EResult 11; EStep 2 ChFalse] ++ st 2 6 ++ [EGetRun 0] ++ st 3 2 ++ [EStep 4 ChTrue] ++ st 4 8.
Fixpoint failsb (s : state) (es : list event) : bool :=
  match es with
  | [] => true
  | e :: es =>
    match e with
    | EStep t ch =>
      match nth_error (threads s) t with
      | Some (HProc _) => match ch with ChFalse => true | _ => false end
      | Some (RQ4 _ _) => match ch with ChTrue => false | _ => true end
      | _ => true
      end
    | _ => true
    end && failsb (step s e) es
  end.
Lemma failsb_sound es : forall s, failsb s es = true -> fails_throughout s es.
Proof.
  induction es as [|e es IH]; intros s H; [exact I|]. cbn [failsb] in H. apply andb_prop in H. destruct H as [A B]. split; [|apply IH; exact B].
  destruct e; cbn [only_failures]; auto. destruct (nth_error (threads s) t) as [[]|]; auto; destruct ch; congruence.
Qed.
Definition run_of (s : state) : option (bool * nat * Z) := match nth_error (runs s) 0 with Some x => Some (closedF x, nready x, tries x) | None => None end.
Example C06_tries_nonvacuous :
  race_free_exec (init 10) twice /\ fails_throughout (init 10) twice /\ handouts (exec (init 10) twice) 0 = 2 /\
  run_of (exec (init 10) twice) = Some (true, 1, 0%Z) /\
  nth_error (threads (exec (init 10) twice)) 1 = Some (TConn 0) /\
  mget (mapping (exec (init 10) twice)) 11 = None.
Proof.
  split; [apply rfbs_sound; vm_compute; reflexivity|]. split; [apply failsb_sound; vm_compute; reflexivity|].
  split; [vm_compute; reflexivity|]. split; [vm_compute; reflexivity|]. split; vm_compute; reflexivity.
Qed.
(* States where the handler or the timer is about to decide. *)
Definition deciding (m : nat) : list event := [ENew m; EGetRun 0] ++ st 0 2 ++ [EResult 11].
Example C09_failed_nonvacuous :
  race_free_exec (init 10) (deciding 3) /\ race_free_exec (init 10) (deciding 1 ++ [EStep 2 ChLast]) /\
  race_free_exec (init 10) (firstn 4 (deciding 1) ++ [EStep 1 ChTrue]) /\
  nth_error (threads (exec (init 10) (deciding 3))) 2 = Some (HProc 0) /\
  nth_error (threads (exec (init 10) (deciding 1))) 2 = Some (HProc 0) /\
  nth_error (threads (exec (init 10) (firstn 4 (deciding 1)))) 1 = Some (TConn 0).
Proof.
  split; [apply rfbs_sound; vm_compute; reflexivity|]. split; [apply rfbs_sound; vm_compute; reflexivity|]. split; [apply rfbs_sound; vm_compute; reflexivity|].
  split; [vm_compute; reflexivity|]. split; vm_compute; reflexivity.
Qed.

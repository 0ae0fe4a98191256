(* C91: what is promised about stopping the grader and the broadcaster, and what is not. *)
From Coq Require Import List Bool Arith Lia.
From Verif Require Import StopModel StopSpec StopProofs.
Import ListNotations.

(* The parts are started in order, then READY is said; after a signal they are told
   to shut down in the same order, each once; then main waits and ends: no more. *)
Theorem C91_order : forall ks tr s, run ks tr s ->
  (exists rest, whole_life (length ks) = filter by_main tr ++ rest) /\
  (In Exits tr -> filter by_main tr = whole_life (length ks)) /\
  (forall t1 t2, tr = t1 ++ Exits :: t2 \/ tr = t1 ++ Panics :: t2 -> t2 = []).
Proof.
  intros ks tr s R. split; [exact (sofar_prefix _ _ _ (main_sofar ks tr s R))|]. split.
  - intros I. apply in_split in I as (t1 & t2 & ->). assert (t2 = []) by (eapply last_event; [exact R|left; reflexivity]). subst t2.
    destruct (run_split ks _ s R t1 Exits [] eq_refl) as (s1 & s2 & R1 & St & R2).
    pose proof (main_sofar ks t1 s1 R1) as M. rewrite filter_app. cbn [filter by_main].
    destruct St as [St|[St|St]]; inversion St; subst. match goal with Q : at_ _ = _ |- _ => rewrite Q in M end. cbn [sofar] in M. rewrite M. unfold whole_life. rewrite <- !app_assoc. reflexivity.
  - intros t1 t2 [-> | ->]; eapply last_event; [exact R|left; reflexivity|exact R|right; reflexivity].
Qed.
Print Assumptions C91_order.

(* Nothing is told to shut down and the process does not end unless a signal came
   after READY: those before it are not heard. *)
Theorem C91_heard : forall ks tr s e, run ks tr s -> In e tr -> e = Exits \/ e = Expires \/ (exists k, e = Calls k) -> after SaysReady Signal tr.
Proof.
  intros ks tr s e R I E. apply in_split in I as (t1 & t2 & ->).
  destruct (run_split ks _ s R t1 e t2 eq_refl) as (s1 & s2 & R1 & St & R2).
  pose proof (heard ks t1 s1 R1) as H. apply after_app.
  destruct E as [-> |[-> |(k & ->)]]; destruct St as [St|[St|St]]; inversion St; subst.
  - match goal with Q : at_ _ = _ |- _ => rewrite Q in H end. exact (proj2 H).
  - match goal with Q : at_ _ = _ \/ _ |- _ => destruct Q as [Q|Q]; rewrite Q in H end; exact (proj2 H).
  - match goal with Q : at_ _ = _ |- _ => rewrite Q in H end. exact (proj2 H).
Qed.
Print Assumptions C91_heard.

(* Once a server is told to shut down it takes no new connection. *)
Theorem C91_closed : forall ks tr s k, run ks tr s -> never_after (Calls k) (fun e => e = Connects k \/ e = Listens k) tr.
Proof.
  intros ks tr s k R t1 t2 e -> I. destruct (closed_after ks t1 t2 s k e R I) as [A B]. intros [H|H]; contradiction.
Qed.
Print Assumptions C91_closed.

(* When a part returns well every request it ever had is over (answered, or a
   websocket, which nobody waits for), and it gets no other. *)
Theorem C91_graceful : forall ks t1 t2 s k r, run ks (t1 ++ Returns k true :: t2) s ->
  In (Starts k r) (t1 ++ Returns k true :: t2) -> In (Starts k r) t1 /\ was_over k r t1.
Proof. intros ks t1 t2 s k r R I. exact (quiet_over ks t1 t2 s k r R I). Qed.
Print Assumptions C91_graceful.

(* A request, or a report, is cut off by the end of the process only after five
   seconds, and then its part was told to shut down and did not manage to. *)
Theorem C91_cut : forall ks tr s k r, run ks tr s -> In Exits tr -> In (Starts k r) tr -> ~ was_over k r tr ->
  exists t1 t2, tr = t1 ++ Returns k false :: t2 /\ In Expires t1 /\ In (Calls k) t1.
Proof.
  intros ks tr s k r R X I N.
  assert (K : k < length ks).
  { apply in_split in I as (t1 & t2 & ->). destruct (run_split ks _ s R t1 _ t2 eq_refl) as (s1 & s2 & R1 & St & _).
    rewrite <- (parts_len ks t1 s1 R1). apply nth_error_Some. destruct St as [St|[St|St]]; inversion St; subst; congruence. }
  assert (A : at_ s = Exited).
  { pose proof X as X'. apply in_split in X' as (t1 & t2 & E). assert (t2 = []) by (eapply (last_event ks t1 Exits t2 s); [rewrite <- E; exact R|left; reflexivity]).
    subst t2 tr. inversion R as [Q|tr0 s0 e0 s9 R0 St Q]; [destruct t1; discriminate Q|]. apply app_inj_tail in Q as [-> ->]. subst. exact (step_exits _ _ St). }
  pose proof (returned ks tr s R k) as Q. rewrite A in Q. destruct (Q K) as ([|] & Z).
  - exfalso. apply in_split in Z as (t1 & t2 & ->). destruct (quiet_over ks t1 t2 s k r R I) as [_ (e & E1 & E2)]. apply N. exists e. split; [apply in_or_app; left; exact E1|exact E2].
  - apply in_split in Z as (t1 & t2 & ->). exists t1, t2. split; [reflexivity|].
    destruct (run_split ks _ s R t1 _ t2 eq_refl) as (s1 & s2 & R1 & St & _). pose proof (inside_called ks t1 s1 k R1) as IC. pose proof (expired_in ks t1 s1 R1) as EX.
    destruct St as [St|[St|St]]; inversion St; subst. split; [apply EX; assumption|apply IC; assumption].
Qed.
Print Assumptions C91_cut.

(* The five seconds are for all: if a request of one part does not end, all parts
   after it are only told to shut down when they are over. *)
Theorem C91_waits : forall ks tr s j r i t1 t2, run ks tr s -> In (Starts j r) tr -> ~ was_over j r tr -> j < i ->
  tr = t1 ++ Calls i :: t2 -> In Expires t1.
Proof. exact waits_all. Qed.
Print Assumptions C91_waits.

(* Nobody else is needed to stop: once the signal was heard and the time is over, the
   process can end by itself, in a bounded number of steps of its own; until then the
   time can run out. *)
Theorem C91_stops : forall ks tr s, run ks tr s -> after SaysReady Signal tr -> ~ In Exits tr -> ~ In Panics tr ->
  (In Expires tr -> exists tr' s', run ks (tr ++ tr') s' /\ In Exits tr' /\ Forall its_own tr' /\ length tr' <= 3 * length ks + 2) /\
  (~ In Expires tr -> (exists s', step s Expires s') \/ exists tr' s', run ks (tr ++ tr') s' /\ In Exits tr' /\ Forall its_own tr' /\ length tr' <= length ks + 1).
Proof.
  intros ks tr s R A NX NP. pose proof (after_signal ks tr s R A) as S0. pose proof (expired_in ks tr s R) as EX.
  assert (D : at_ s <> Exited /\ at_ s <> Panicked).
  { inversion R as [Q|tr0 s0 e0 s9 R0 St Q]; subst; [split; discriminate|].
    split; intros Z; steps_of St; rd; try congruence; try (destruct H as [H|H]; congruence);
      try (apply NX; apply in_or_app; right; left; reflexivity); try (apply NP; apply in_or_app; right; left; reflexivity);
      match goal with X : alive _ |- _ => destruct X; congruence end. }
  destruct D as [D1 D2]. pose proof (main_sofar ks tr s R) as M.
  destruct (at_ s) as [k| |k|k| | |] eqn:P; try contradiction; cbn [sofar] in M.
  - split; intros H.
    + destruct (stop_next _ ks tr s k R (proj2 EX H) eq_refl) as [N _]. destruct (N P) as (tr' & s' & R' & I & F & L). exists tr', s'. split; [exact R'|]. split; [exact I|]. split; [exact F|]. lia.
    + left. eexists. right. right. apply (expires s k). left. exact P.
  - split; intros H.
    + destruct (stop_next _ ks tr s k R (proj2 EX H) eq_refl) as [_ N]. destruct (N P) as (tr' & s' & R' & I & F & L). exists tr', s'. split; [exact R'|]. split; [exact I|]. split; [exact F|]. lia.
    + left. eexists. right. right. apply (expires s k). right. exact P.
  - assert (J : exists tr' s', run ks (tr ++ tr') s' /\ In Exits tr' /\ Forall its_own tr' /\ length tr' <= length ks + 1).
    { destruct (stop_joining _ ks tr s R P eq_refl) as (tr' & s' & R' & I & F & L). exists tr', s'. split; [exact R'|]. split; [exact I|]. split; [exact F|].
      rewrite L. pose proof (left_le (parts s)). rewrite (parts_len ks tr s R) in H. lia. }
    split; intros H; [|right; exact J]. destruct J as (tr' & s' & R' & I & F & L). exists tr', s'. split; [exact R'|]. split; [exact I|]. split; [exact F|]. lia.
Qed.
Print Assumptions C91_stops.

(* Reports are taken in the order they were left, each once; at most 128 wait. *)
Theorem C91_reports : forall ks tr s, run ks tr s -> exists waiting, submitted tr = taken ks tr ++ waiting /\ length waiting <= 128.
Proof. intros ks tr s R. exists (reports s). exact (reports_kept ks tr s R). Qed.
Print Assumptions C91_reports.

(* Lives of the two servers, step by step. *)
Lemma lives : forall s, match at_ s with Exited | Panicked => false | _ => true end = true -> alive s.
Proof. intros s H. split; intros E; rewrite E in H; discriminate H. Qed.
Lemma some : forall {A} (x : A) l, x :: l <> [].
Proof. intros A x l. discriminate. Qed.
Lemma busy : forall s, match at_ s with Ready => false | _ => true end = true -> at_ s <> Ready.
Proof. intros s H E. rewrite E in H. discriminate H. Qed.
Lemma all_ended : forall s, forallb (fun p => match what p with Server => negb (running p) | Worker => true end) (parts s) = true ->
  forall k p, nth_error (parts s) k = Some p -> what p = Server -> running p = false.
Proof.
  intros s H k p P W. rewrite forallb_forall in H. specialize (H p (nth_error_In _ _ P)). rewrite W in H. destruct (running p); [discriminate H|reflexivity].
Qed.
Lemma room : forall s, (length (reports s) <? 128) = true -> length (reports s) < 128.
Proof. intros s. apply Nat.ltb_lt. Qed.
Lemma go_main : forall ks tr s e s', run ks tr s -> main_step s e s' -> run ks (tr ++ [e]) s'.
Proof. intros ks tr s e s' R H. exact (run_snoc ks tr s e s' R (or_introl H)). Qed.
Lemma go_end : forall ks tr s e s', run ks tr s -> ending_step s e s' -> run ks (tr ++ [e]) s'.
Proof. intros ks tr s e s' R H. exact (run_snoc ks tr s e s' R (or_intror (or_introl H))). Qed.
Lemma go_world : forall ks tr s e s', run ks tr s -> world_step s e s' -> run ks (tr ++ [e]) s'.
Proof. intros ks tr s e s' R H. exact (run_snoc ks tr s e s' R (or_intror (or_intror H))). Qed.
Ltac done_ R R1 := cbv in R1; clear R; rename R1 into R.
Ltac begin R k := match type of R with run _ _ ?s => let R1 := fresh in assert (R1 := go_main _ _ _ _ _ R (begins s k _ eq_refl eq_refl)); done_ R R1 end.
Ltac ready R := match type of R with run _ _ ?s => let R1 := fresh in assert (R1 := go_main _ _ _ _ _ R (is_ready s eq_refl)); done_ R R1 end.
Ltac signal R := match type of R with run _ _ ?s => let R1 := fresh in assert (R1 := go_main _ _ _ _ _ R (signalled s eq_refl)); done_ R R1 end.
Ltac tell R k := match type of R with run _ _ ?s => let R1 := fresh in assert (R1 := go_main _ _ _ _ _ R (calls s k _ eq_refl eq_refl)); done_ R R1 end.
Ltac quiet R k := match type of R with run _ _ ?s => let R1 := fresh in assert (R1 := go_main _ _ _ _ _ R (drained s k _ eq_refl eq_refl eq_refl)); done_ R R1 end.
Ltac leave R k := match type of R with run _ _ ?s => let R1 := fresh in assert (R1 := go_main _ _ _ _ _ R (gives_up s k _ eq_refl eq_refl eq_refl (some _ _))); done_ R R1 end.
Ltac join R := match type of R with run _ _ ?s => let R1 := fresh in assert (R1 := go_main _ _ _ _ _ R (joins s eq_refl)); done_ R R1 end.
Ltac exit R := match type of R with run _ _ ?s => let R1 := fresh in assert (R1 := go_main _ _ _ _ _ R (exits s eq_refl (all_ended s eq_refl))); done_ R R1 end.
Ltac ends R k := match type of R with run _ _ ?s => let R1 := fresh in assert (R1 := go_end _ _ _ _ _ R (server_ends s k _ (lives s eq_refl) eq_refl eq_refl eq_refl eq_refl)); done_ R R1 end.
Ltac wends R k := match type of R with run _ _ ?s => let R1 := fresh in assert (R1 := go_end _ _ _ _ _ R (worker_ends s k _ (lives s eq_refl) eq_refl eq_refl eq_refl eq_refl eq_refl)); done_ R R1 end.
Ltac unheard_ R := match type of R with run _ _ ?s => let R1 := fresh in assert (R1 := go_world _ _ _ _ _ R (unheard s (lives s eq_refl) (busy s eq_refl))); done_ R R1 end.
Ltac expire R k := match type of R with run _ _ ?s => let R1 := fresh in assert (R1 := go_world _ _ _ _ _ R (expires s k (or_intror eq_refl))); done_ R R1 end.
Ltac listen R k := match type of R with run _ _ ?s => let R1 := fresh in assert (R1 := go_world _ _ _ _ _ R (listens s k _ (lives s eq_refl) eq_refl eq_refl eq_refl eq_refl eq_refl)); done_ R R1 end.
Ltac panic R k := match type of R with run _ _ ?s => let R1 := fresh in assert (R1 := go_world _ _ _ _ _ R (panics s k _ (lives s eq_refl) eq_refl eq_refl eq_refl eq_refl)); done_ R R1 end.
Ltac connect R k := match type of R with run _ _ ?s => let R1 := fresh in assert (R1 := go_world _ _ _ _ _ R (connects s k _ (lives s eq_refl) eq_refl eq_refl eq_refl)); done_ R R1 end.
Ltac start R k i := match type of R with run _ _ ?s => let R1 := fresh in assert (R1 := go_world _ _ _ _ _ R (starts s k _ i (lives s eq_refl) eq_refl eq_refl eq_refl)); done_ R R1 end.
Ltac over_now R k i r := match type of R with run _ _ ?s => let R1 := fresh in assert (R1 := go_world _ _ _ _ _ R (answers s k _ i r (lives s eq_refl) eq_refl eq_refl)); done_ R R1 end.
Ltac submit R k i r := match type of R with run _ _ ?s => let R1 := fresh in assert (R1 := go_world _ _ _ _ _ R (submits s k _ i r (lives s eq_refl) eq_refl eq_refl eq_refl (room s eq_refl))); done_ R R1 end.
Ltac hijack R k i r := match type of R with run _ _ ?s => let R1 := fresh in assert (R1 := go_world _ _ _ _ _ R (hijacks s k _ i r (lives s eq_refl) eq_refl eq_refl eq_refl)); done_ R R1 end.
Ltac close R k i := match type of R with run _ _ ?s => let R1 := fresh in assert (R1 := go_world _ _ _ _ _ R (closes s k _ i (lives s eq_refl) eq_refl eq_refl eq_refl)); done_ R R1 end.
Ltac take R k := match type of R with run _ _ ?s => let R1 := fresh in assert (R1 := go_world _ _ _ _ _ R (takes s k _ _ _ (lives s eq_refl) eq_refl eq_refl eq_refl eq_refl eq_refl)); done_ R R1 end.
Ltac request R k i := connect R k; start R k i.

Definition up : list event := [Begins 0; Begins 1; Begins 2; Begins 3; Listens 1; Listens 2; Listens 3; SaysReady].
(* C91_graceful, C91_order, C91_heard: the grader answers everybody and ends in time. *)
Definition good_life : list event := up ++
  [Connects 1; Starts 1 0; Submits 1 0; Connects 3; Starts 3 1; Starts 0 0; Signal; Calls 0; Answers 0 0; Ends 0; Returns 0 true;
   Calls 1; Closes 1; Returns 1 true; Calls 2; Returns 2 true; Calls 3; Answers 3 1; Closes 3; Returns 3 true; Joins; Ends 1; Ends 2; Ends 3; Exits].
Example C91_good_life : exists s, run grader good_life s.
Proof.
  pose proof (run_nil grader) as R. cbv in R.
  begin R 0. begin R 1. begin R 2. begin R 3. listen R 1. listen R 2. listen R 3. ready R.
  request R 1 0. submit R 1 0 0.
  request R 3 0. take R 0.
  signal R. tell R 0. over_now R 0 0 0. wends R 0. quiet R 0.
  tell R 1. close R 1 0. quiet R 1. tell R 2. quiet R 2. tell R 3. over_now R 3 0 1. close R 3 0. quiet R 3. join R.
  ends R 1. ends R 2. ends R 3. exit R. eexists. exact R.
Qed.

(* Not so: "a request in flight when the signal comes has five seconds".  A runner
   waits for work (2): the frontend is told to shut down when the time is over, and
   the process ends right away, in the middle of a request. *)
Theorem C91_grace_refuted : ~ (forall tr s t1 t2, run grader tr s -> tr = t1 ++ Signal :: t2 -> In SaysReady t1 -> In (Starts 3 1) t1 -> In Exits tr ->
  ~ was_over 3 1 tr -> exists u1 u2, tr = u1 ++ Calls 3 :: u2 /\ In Expires u2).
Proof.
  intros H. pose proof (run_nil grader) as R. cbv in R.
  begin R 0. begin R 1. begin R 2. begin R 3. listen R 1. listen R 2. listen R 3. ready R.
  request R 2 0. request R 3 0. signal R. tell R 0. wends R 0. quiet R 0.
  tell R 1. quiet R 1. tell R 2. expire R 2. leave R 2.
  tell R 3. leave R 3. join R.
  ends R 1. ends R 2. ends R 3. exit R.
  destruct (H _ _ (up ++ [Connects 2; Starts 2 0; Connects 3; Starts 3 1])
    [Calls 0; Ends 0; Returns 0 true; Calls 1; Returns 1 true; Calls 2; Expires; Returns 2 false; Calls 3; Returns 3 false; Joins; Ends 1; Ends 2; Ends 3; Exits] R eq_refl) as (u1 & u2 & E & I).
  - cbn [In up app]. tauto.
  - cbn [In up app]. tauto.
  - cbn [In]. tauto.
  - intros (e & I & O). cbn [In] in I. unfold over in O. destruct O as [O|[O|O]]; subst e; repeat (destruct I as [I|I]; [discriminate I|]); exact I.
  - do 21 (destruct u1 as [|? u1]; [discriminate E|]; cbn [app] in E; injection E; clear E; intros E ?; subst; try (discriminate E)).
    destruct u1 as [|? u1]; cbn [app] in E.
    + injection E as <-. cbn [In] in I. repeat (destruct I as [I|I]; [discriminate I|]). exact I.
    + do 7 (try (destruct u1 as [|? u1]; cbn [app] in E; [discriminate E|])). destruct u1; cbn [app] in E; discriminate E.
Qed.
Print Assumptions C91_grace_refuted.

(* C91_cut, C91_waits, C91_stops: a request that never ends; the process ends all the same. *)
Definition cut_off : list event := up ++ [Connects 2; Starts 2 0; Connects 3; Signal; Signal; Calls 0; Ends 0; Returns 0 true; Calls 1; Returns 1 true; Calls 2; Expires].
Example C91_cut_off : exists s, run grader (cut_off ++ [Returns 2 false; Calls 3; Closes 3; Returns 3 true; Joins; Ends 1; Ends 2; Ends 3; Exits]) s.
Proof.
  pose proof (run_nil grader) as R. cbv in R.
  begin R 0. begin R 1. begin R 2. begin R 3. listen R 1. listen R 2. listen R 3. ready R.
  request R 2 0. connect R 3. signal R. unheard_ R. tell R 0. wends R 0. quiet R 0. tell R 1. quiet R 1. tell R 2. expire R 2.
  leave R 2. tell R 3. close R 3 0. quiet R 3. join R. ends R 1. ends R 2. ends R 3. exit R. eexists. exact R.
Qed.
Example C91_broadcaster_life : exists s, run broadcaster [Begins 0; Begins 1; SaysReady; Listens 1; Listens 0; Connects 0; Starts 0 0; Hijacks 0 0; Signal; Calls 0; Returns 0 true; Calls 1; Returns 1 true; Joins; Ends 0; Ends 1; Exits] s.
Proof.
  pose proof (run_nil broadcaster) as R. cbv in R. begin R 0. begin R 1. ready R. listen R 1. listen R 0. request R 0 0. hijack R 0 0 0.
  signal R. tell R 0. quiet R 0. tell R 1. quiet R 1. join R. ends R 0. ends R 1. exit R. eexists. exact R.
Qed.

(* Not so: "a signal stops the process".  One that comes before READY is lost: whatever
   happens later, without another one the process does not stop. *)
Theorem C91_signal_refuted : exists tr s, run grader tr s /\ In Signal tr /\ In SaysReady tr /\
  forall more s', run grader (tr ++ more) s' -> ~ In Signal more -> ~ In Exits (tr ++ more).
Proof.
  pose proof (run_nil grader) as R. cbv in R. begin R 0. unheard_ R. begin R 1. begin R 2. begin R 3. ready R.
  exists [Begins 0; Signal; Begins 1; Begins 2; Begins 3; SaysReady]. eexists. split; [exact R|]. split; [cbn [In]; tauto|]. split; [cbn [In]; tauto|].
  intros more s' R' N X. destruct (C91_heard grader _ s' Exits R' X (or_introl eq_refl)) as (t1 & t2 & E & I).
  cbn [app] in E.
  repeat match type of E with _ :: _ = ?t ++ _ => destruct t as [|? t]; cbn [app] in E; [try discriminate E; exfalso; cbn [In] in I; repeat (destruct I as [I|I]; [discriminate I|]); exact I|injection E as <- E] end.
  apply N. rewrite E. apply in_or_app. right. left. reflexivity.
Qed.
Print Assumptions C91_signal_refuted.

(* Not so: "READY is said when the ports are open".  None is, and the process can
   still die because one cannot be opened. *)
Theorem C91_ready_refuted : exists s, run grader [Begins 0; Begins 1; Begins 2; Begins 3; SaysReady; Panics] s.
Proof.
  pose proof (run_nil grader) as R. cbv in R. begin R 0. begin R 1. begin R 2. begin R 3. ready R. panic R 2. eexists. exact R.
Qed.
Print Assumptions C91_ready_refuted.

(* Not so: "a report that was accepted is made, if the grader ends in time".  The
   worker is gone before the server that accepts reports is told to shut down. *)
Theorem C91_report_refuted : exists tr s, run grader tr s /\ In Exits tr /\ ~ In Expires tr /\ In (Submits 1 0) tr /\ taken grader tr = [].
Proof.
  pose proof (run_nil grader) as R. cbv in R.
  begin R 0. begin R 1. begin R 2. begin R 3. listen R 1. listen R 2. listen R 3. ready R. signal R. tell R 0. wends R 0.
  request R 1 0. submit R 1 0 0. quiet R 0. tell R 1. close R 1 0. quiet R 1. tell R 2. quiet R 2. tell R 3. quiet R 3. join R.
  ends R 1. ends R 2. ends R 3. exit R. eexists. eexists. split; [exact R|]. split; [cbn [In]; tauto|]. split; [|split; [cbn [In]; tauto|reflexivity]].
  cbn [In]. intros I. repeat (destruct I as [I|I]; [discriminate I|]). exact I.
Qed.
Print Assumptions C91_report_refuted.

(* Not so: "after the signal the grader accepts no more work".  The frontend's port is
   the last to be closed. *)
Theorem C91_deaf_refuted : exists tr s, run grader tr s /\ after Signal (Starts 3 1) tr /\ was_over 3 1 tr /\ In Exits tr.
Proof.
  pose proof (run_nil grader) as R. cbv in R.
  begin R 0. begin R 1. begin R 2. begin R 3. listen R 1. listen R 2. listen R 3. ready R. request R 2 0. signal R. tell R 0. wends R 0. quiet R 0.
  tell R 1. quiet R 1. tell R 2. request R 3 0. over_now R 3 0 1. expire R 2. leave R 2. tell R 3. close R 3 0. quiet R 3. join R. ends R 1. ends R 2. ends R 3. exit R.
  eexists. eexists. split; [exact R|]. split; [|split; [exists (Answers 3 1); split; [cbn [In]; tauto|left; reflexivity]|cbn [In]; tauto]].
  exists (up ++ [Connects 2; Starts 2 0; Signal; Calls 0; Ends 0; Returns 0 true; Calls 1; Returns 1 true; Calls 2; Connects 3]).
  eexists. split; [reflexivity|cbn [In up app]; tauto].
Qed.
Print Assumptions C91_deaf_refuted.

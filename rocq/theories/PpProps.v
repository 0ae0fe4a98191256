(* C74: what happens to finished runs, through both processes. *)
From Coq Require Import String List Arith Bool Lia Permutation.
From Verif Require Import PpModel PpSpec PpProofs.
Import ListNotations.

(* Runs are recorded in the order in which the post-processor took them; each closed run
   is taken at most once, and recorded at most once. *)
Theorem C74_order (run : Type) SendBroadcast (message_of : run -> option message) ls s : exec SendBroadcast message_of ls s ->
  taken ls = recorded ls ++ finished s ++ match relay s with Some r => [r] | None => [] end ++ finishedRuns s /\
  Permutation (closed ls) (taken ls ++ callers s).
Proof. intros X. destruct (order _ _ _ _ X) as (A & B & _). auto. Qed.
(* When nothing new starts, the pipeline comes to rest, whatever fails: it never gets
   stuck before, and cannot go on forever. *)
Theorem C74_settles (run : Type) SendBroadcast (message_of : run -> option message) ls s : exec SendBroadcast message_of ls s ->
  (forall ls' s', settles SendBroadcast message_of s ls' s' ->
     (length ls' <= left s)%nat /\
     (~ idle s' -> exists l s'', step SendBroadcast message_of s' l s'' /\ ~ begins s' l s'' /\ failure l = false)) /\
  (exists ls' s', settles SendBroadcast message_of s ls' s' /\ idle s' /\ (forall l, In l ls' -> failure l = false)).
Proof.
  intros X. split; [|eapply completes; eauto]. intros ls' s' Y. split; [pose proof (settles_bound _ _ _ _ _ _ X Y); lia|].
  intros N. apply (not_stuck _ _ _ _ (exec_steps _ _ _ _ _ _ X (settles_steps _ _ _ _ _ Y)) N).
Qed.
(* At rest, every closed run was recorded, exactly once. *)
Theorem C74_all (run : Type) SendBroadcast (message_of : run -> option message) ls s : exec SendBroadcast message_of ls s -> idle s ->
  Permutation (closed ls) (recorded ls).
Proof.
  intros X (C & Q & R & F & _). destruct (order _ _ _ _ X) as (A & B & _). rewrite C, app_nil_r in B. rewrite Q, R, F in A. cbn in A. rewrite app_nil_r in A. rewrite <- A. auto.
Qed.
(* At rest, the scoreboard of a run's contest was refreshed after the run was recorded,
   unless a request failed in the meantime. *)
Theorem C74_scoreboard (run : Type) SendBroadcast (message_of : run -> option message) c r l1 l2 s :
  exec SendBroadcast message_of (l1 ++ Records r :: l2) s -> idle s -> in_contest SendBroadcast message_of c r ->
  (forall l, In l l2 -> failure l = false) -> In (Refreshes c) l2.
Proof. intros X I C F. destruct (refreshed _ _ _ _ _ _ _ X C F) as [|U]; [auto|]. elim (idle_not_underway _ _ I U). Qed.
(* The messages that refresh a scoreboard: those about a contest that have the pair
   "message":"/run/update/" in their text; the contest is the message's. *)
Lemma has_prefix_spec p : forall t, has_prefix p t = true <-> exists b, t = String.append p b.
Proof.
  induction p as [|a p IH]; intros t; cbn; [split; eauto|]. destruct t as [|b t]; [split; [discriminate|intros (? & ?); discriminate]|].
  rewrite andb_true_iff, IH, Ascii.eqb_eq. split; [intros (-> & x & ->); eauto|intros (x & E); injection E as -> ->; eauto].
Qed.
Lemma Contains_spec p : forall t, Contains t p = true <-> exists a b, t = String.append a (String.append p b).
Proof.
  induction t as [|x t IH]; cbn [Contains]; rewrite orb_true_iff, has_prefix_spec.
  - split; [intros [(b & E)|D]; [exists ""%string, b; exact E|discriminate]|]. intros (a & b & E). left. destruct a; [eauto|discriminate].
  - rewrite IH. split; [intros [(b & E)|(a & b & ->)]; [exists ""%string, b; exact E|exists (String x a), b; reflexivity]|].
    intros (a & b & E). destruct a as [|y a]; [left; eauto|injection E as -> E; eauto].
Qed.
Theorem C74_contests m c : refresh_of m = Some c <->
  c = Contest m /\ c <> ""%string /\ exists a b, Text m = (a ++ """message"":""/run/update/""" ++ b)%string.
Proof.
  unfold refresh_of. change """message"":""/run/update/"""%string with run_update. rewrite <- Contains_spec.
  destruct (Contains (Text m) run_update); [|rewrite andb_false_r; split; [discriminate|intros (_ & _ & D); discriminate]]. rewrite andb_true_r.
  destruct (Contest m) as [|x t]; cbn; [split; [discriminate|intros (-> & N & _); elim N; auto]|].
  split; [intros E; injection E as <-; repeat split; discriminate|intros (-> & _); auto].
Qed.
(* A scoreboard is refreshed no more often than contests are noted; a contest is noted
   only on a request about a run of it, and the grader's requests are about runs that
   were recorded. *)
Theorem C74_genuine (run : Type) SendBroadcast (message_of : run -> option message) ls s : exec SendBroadcast message_of ls s ->
  (forall c, (length (filter (fun l => match l with Refreshes d => (d =? c)%string | _ => false end) ls) <=
              length (filter (fun l => match l with Notes _ d => (d =? c)%string | _ => false end) ls))%nat) /\
  (forall i c, In (Notes i c) ls -> exists q, nth_error (requests s) i = Some q /\ refresh_of (about q) = Some c /\
     forall r, from q = Some r -> In r (recorded ls) /\ in_contest SendBroadcast message_of c r).
Proof.
  intros X. split; [intros c; pose proof (no_more _ _ c _ _ X) as N; unfold refreshes_c, notes_c in N; lia|].
  intros i c I. destruct (noted _ _ _ _ _ _ X I) as (q & E & R). exists q. split; [auto|]. split; [auto|]. intros r F.
  destruct (proj2 (genuine _ _ _ _ X) q r (nth_error_In _ _ E) F) as (A & B & C). split; [auto|]. split; eauto.
Qed.
(* The broadcaster asks for one scoreboard at a time, and its loop does nothing else
   until the frontend has answered. *)
Theorem C74_one_request (run : Type) SendBroadcast (message_of : run -> option message) ls s : exec SendBroadcast message_of ls s ->
  let asked ls := length (filter (fun l => match l with Refreshes _ => true | _ => false end) ls) in
  let answered ls := length (filter (@answer run) ls) in
  (answered ls <= asked ls <= S (answered ls))%nat /\
  forall l1 l l2, ls = (l1 ++ l :: l2)%list ->
    ((exists c, l = Hears c \/ l = Refreshes c \/ l = Elapses c) -> asked l1 = answered l1) /\
    (l = FrontendAnswers -> asked l1 = S (answered l1)).
Proof.
  cbn zeta. intro X. set (asked := fun ls : list (label run) => length (filter (fun l => match l with Refreshes _ => true | _ => false end) ls)). set (answered := fun ls => length (filter (@answer run) ls)).
  change (length (filter (fun l => match l with Refreshes _ => true | _ => false end) ls)) with (asked ls). change (length (filter (@answer run) ls)) with (answered ls).
  assert (C : forall ls s, exec SendBroadcast message_of ls s -> asked ls = (answered ls + options (refreshing s))%nat).
  { intros k t Y. induction Y as [|k t l t' Y IH S]; [reflexivity|]. unfold asked, answered in *. rewrite !filter_app, !app_length, IH. destruct S; cbn; repeat match goal with H : refreshing _ = _ |- _ => rewrite H end; cbn; lia. }
  split.
  - rewrite (C ls s X). destruct (refreshing s); cbn; lia.
  - intros l1 l l2 ->. destruct (exec_split _ _ _ _ _ X) as (s1 & X1 & Y). pose proof (C _ _ X1) as Q.
    assert (Z : exists s2, step SendBroadcast message_of s1 l s2).
    { clear -Y. remember (l :: l2) as k. revert l l2 Heqk. induction Y as [|k s2 l' s3 Y IH S]; intros l l2 E; [discriminate|]. destruct k as [|l0 k].
      - cbn in E. injection E as -> _. inversion Y; subst; [eauto|]. destruct ls; discriminate.
      - cbn in E. injection E as -> _. eapply IH. reflexivity. }
    destruct Z as (s2 & Z). split.
    + intros (c & D). destruct Z; repeat match goal with H : _ \/ _ |- _ => destruct H end; try discriminate; rewrite Q; repeat match goal with H : refreshing _ = _ |- _ => rewrite H end; cbn; lia.
    + intros ->. inversion Z; subst. change (asked l1 = S (answered l1)). rewrite Q. repeat match goal with H : refreshing _ = _ |- _ => rewrite H end. cbn. lia.
Qed.
(* A frontend that does not answer: no more than three runs of contests are ever
   recorded, unless a request fails. *)
Theorem C74_stalls (run : Type) SendBroadcast (message_of : run -> option message) ls s : exec SendBroadcast message_of ls s ->
  ~ In FrontendAnswers ls ->
  (length (filter (contest_run SendBroadcast message_of) (recorded ls)) <= 3 + length (filter failure ls))%nat.
Proof. apply stalls. Qed.
(* From then on nothing is recorded, whatever it is, and Close blocks for all but three
   more runs. *)
Theorem C74_stalled (run : Type) SendBroadcast (message_of : run -> option message) ls s ls' s' : exec SendBroadcast message_of ls s ->
  stalled s -> steps SendBroadcast message_of s ls' s' -> ~ In FrontendAnswers ls' -> ~ In Breaks ls' ->
  recorded ls' = [] /\ (length (taken ls') <= 3)%nat.
Proof. intros X T Y N1 N2. split; [apply (stalled_forever _ _ _ _ _ T Y N1 N2)|eapply taken_few; eauto]. Qed.

(* Not so: "a run is recorded even if the frontend does not answer the broadcaster".
   After three runs of contests, no run is. *)
Ltac tidy := cbn [callers finishedRuns relay finished poster requests contestChan known refreshing with_callers with_queue with_relay with_finished with_poster with_requests with_chan with_loop set_stage app length upd from about at_] in *.
Ltac fwd X c := eapply exec_snoc in X; [|c]; tidy.
Theorem C74_hang_refuted (run : Type) (message_of : run -> option message) c1 c2 c3 r1 r2 r3 r :
  in_contest true message_of c1 r1 -> in_contest true message_of c2 r2 -> in_contest true message_of c3 r3 ->
  exists ls s, exec true message_of ls s /\ closed ls = [r1; r2; r3; r] /\ recorded ls = [r1; r2; r3] /\ (forall l, In l ls -> failure l = false) /\
    forall ls' s', steps true message_of s ls' s' -> ~ In FrontendAnswers ls' -> ~ In Breaks ls' -> recorded ls' = [].
Proof.
  intros (_ & m1 & M1 & F1) (_ & m2 & M2 & F2) (_ & m3 & M3 & F3).
  pose proof (exec_nil _ true message_of) as X. unfold start in X.
  fwd X ltac:(apply (finishes _ _ _ _ r1)). fwd X ltac:(apply (enters _ _ _ _ [] r1 []); cbn; auto). fwd X ltac:(eapply relays; reflexivity). fwd X ltac:(eapply delivers; [reflexivity|cbn; auto]).
  fwd X ltac:(eapply records; reflexivity). unfold next in X. rewrite M1 in X. fwd X ltac:(eapply asks; reflexivity).
  fwd X ltac:(eapply (accepts _ _ _ _ 0); reflexivity). rewrite F1 in X. fwd X ltac:(eapply (notes _ _ _ _ 0); [reflexivity|reflexivity|cbn; auto]). fwd X ltac:(eapply replies; reflexivity).
  fwd X ltac:(eapply hears_new; reflexivity).
  fwd X ltac:(apply (finishes _ _ _ _ r2)). fwd X ltac:(apply (enters _ _ _ _ [] r2 []); cbn; auto). fwd X ltac:(eapply relays; reflexivity). fwd X ltac:(eapply delivers; [reflexivity|cbn; auto]).
  fwd X ltac:(eapply records; reflexivity). unfold next in X. rewrite M2 in X. fwd X ltac:(eapply asks; reflexivity).
  fwd X ltac:(eapply (accepts _ _ _ _ 1); reflexivity). rewrite F2 in X. fwd X ltac:(eapply (notes _ _ _ _ 1); [reflexivity|reflexivity|cbn; auto]). fwd X ltac:(eapply replies; reflexivity).
  fwd X ltac:(apply (finishes _ _ _ _ r3)). fwd X ltac:(apply (enters _ _ _ _ [] r3 []); cbn; auto). fwd X ltac:(eapply relays; reflexivity). fwd X ltac:(eapply delivers; [reflexivity|cbn; auto]).
  fwd X ltac:(eapply records; reflexivity). unfold next in X. rewrite M3 in X. fwd X ltac:(eapply asks; reflexivity).
  fwd X ltac:(eapply (accepts _ _ _ _ 2); reflexivity). rewrite F3 in X. fwd X ltac:(apply (finishes _ _ _ _ r)).
  do 2 eexists. split; [exact X|]. split; [reflexivity|]. split; [reflexivity|]. split; [cbn; intros l I; repeat (destruct I as [<-|I]; [reflexivity|]); destruct I|].
  intros ls' s' Y N1 N2. refine (proj2 (stalled_forever _ _ _ _ _ _ Y N1 N2)). split; [discriminate|]. split; [discriminate|]. do 3 eexists. split; [reflexivity|]. split; reflexivity.
Qed.

(* The messages of runs of contests do refresh the contest's scoreboard; others do not. *)
Example refresh_example :
  refresh_of {| Contest := "cup"; Text := "{" ++ run_update ++ "}" |} = Some "cup"%string /\ refresh_of {| Contest := ""; Text := "{" ++ run_update ++ "}" |} = None /\
  refresh_of {| Contest := "cup"; Text := "{}" |} = None.
Proof. vm_compute. auto. Qed.
Definition ex_msg : message := {| Contest := "cup"; Text := run_update |}.
Definition ex_of (r : nat) : option message := match r with 3 => None | _ => Some ex_msg end.
Example ex_in : in_contest true ex_of "cup" 0 /\ ~ in_contest true ex_of "cup" 3.
Proof. split; [split; [auto|exists ex_msg; split; reflexivity]|intros (_ & m & E & _); discriminate]. Qed.
(* A stalled state is reachable, and one at rest after a run of a contest. *)
Example ex_stalled : exists ls s, exec true ex_of ls s /\ closed ls = [0; 1; 2; 3] /\ recorded ls = [0; 1; 2].
Proof.
  destruct (C74_hang_refuted nat ex_of "cup" "cup" "cup" 0 1 2 3) as (ls & s & X & C & R & _); [split; [auto|exists ex_msg; split; reflexivity]..|]. eauto.
Qed.
Example ex_rest : exists l1 l2 s, exec true ex_of (l1 ++ Records 0 :: l2) s /\ idle s /\ (forall l, In l l2 -> failure l = false) /\ In (Refreshes "cup") l2.
Proof.
  pose proof (exec_nil _ true ex_of) as X. unfold start in X.
  fwd X ltac:(apply (finishes _ _ _ _ 0)). fwd X ltac:(apply (enters _ _ _ _ [] 0 []); cbn; auto). fwd X ltac:(eapply relays; reflexivity). fwd X ltac:(eapply delivers; [reflexivity|cbn; auto]).
  fwd X ltac:(eapply records; reflexivity). unfold next in X. cbn [ex_of] in X.
  destruct (completes _ _ _ _ X) as (ls' & s' & Y & I & F).
  pose proof (exec_steps _ _ _ _ _ _ X (settles_steps _ _ _ _ _ Y)) as Z.
  exists [Finishes 0; Enters 0; Silent; Silent], ls', s'. split; [exact Z|]. split; [auto|]. split; [auto|].
  eapply (C74_scoreboard nat true ex_of "cup" 0 [Finishes 0; Enters 0; Silent; Silent] ls' s' Z I); [apply ex_in|auto].
Qed.
Print Assumptions C74_order.
Print Assumptions C74_settles.
Print Assumptions C74_all.
Print Assumptions C74_scoreboard.
Print Assumptions C74_contests.
Print Assumptions C74_genuine.
Print Assumptions C74_one_request. Print Assumptions C74_stalls.
Print Assumptions C74_stalled.
Print Assumptions C74_hang_refuted.

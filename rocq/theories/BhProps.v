(* C81: the broadcaster as its HTTP clients see it, main.go of
   cmd/omegaup-broadcaster.  For every set of requests, every answer of the
   frontend and every schedule of handlers, loop and peers. *)
From Coq Require Import String Ascii List Arith NArith ZArith Bool Lia.
From Verif Require Import GoStr BcFilterModel BcFilterSpec BcFilterProps BcModel BcSpec BcProofs BcProps BhModel BhSpec BhProofs.
Import ListNotations.
Local Open Scope string_scope.

Section C81.
Variable req : nat -> request.
Variable channelLength : nat.
Notation srun := (srun req channelLength).

(* The broadcaster never panics, and its two gauges count the connections that
   are registered: those to which the frontend granted their filters, websockets
   and event streams apart. *)
Theorem C81_gauges : forall ls, let s := srun ls in
  panicked (bc s) = false /\ NoDup (registered (bc s)) /\
  (forall i, In i (registered (bc s)) -> exists accept up params v body fs,
     req i = Events accept up params (Some (200%Z, Some v)) body /\ granted req i v fs /\ info req i = with_rights v fs /\
     (at_ s i = Streaming \/ at_ s i = Leaving \/ at_ s i = Answered Streamed)) /\
  exists W S, NoDup W /\ NoDup S /\ ws (bc s) = Z.of_nat (length W) /\ sse (bc s) = Z.of_nat (length S) /\
  (forall i, In i W <-> In i (registered (bc s)) /\ ~ (exists accept up params reply body, req i = Events accept up params reply body /\ lists_type accept "text/event-stream")) /\
  (forall i, In i S <-> In i (registered (bc s)) /\ (exists accept up params reply body, req i = Events accept up params reply body /\ lists_type accept "text/event-stream")).
Proof.
  intros ls s. pose proof (srun_inv req channelLength ls) as J. fold s in J. pose proof (srun_SInv req channelLength ls) as V. fold s in V.
  assert (WHO : forall i, In i (registered (bc s)) -> exists accept up params v body fs,
     req i = Events accept up params (Some (200%Z, Some v)) body /\ granted req i v fs /\ info req i = with_rights v fs /\
     (at_ s i = Streaming \/ at_ s i = Leaving \/ at_ s i = Answered Streamed)).
  { intros i Hi. apply (i_reg _ _ _ _ _ _ _ J) in Hi as [C _]. pose proof (i_calls _ _ _ _ _ _ _ J i) as D.
    pose proof (v_sub _ _ _ V i) as E. pose proof (v_phase _ _ _ V i) as P. rewrite C, E in D.
    destruct (at_ s i) as [| | | | | |[]|] eqn:AT; cbn [subscribed] in D; try lia; cbn in P;
      (destruct P as [EV [x P]]; unfold info; rewrite P; apply created_granted in P as (v & fs & G & ->);
       pose proof G as (accept & up & params & body & ER & _); exists accept, up, params, v, body, fs; auto 8). }
  assert (WS : forall i, websocket req i = false <-> (exists accept up params reply body, req i = Events accept up params reply body /\ lists_type accept "text/event-stream") \/ ~ is_events req i).
  { intros i. unfold websocket, is_events. destruct (req i) as [accept up params reply body|? ?|?].
    - rewrite negb_false_iff, accepts_spec by (reflexivity || discriminate). split.
      + intros L. left. exists accept, up, params, reply, body. auto.
      + intros [(a & u & p & r & b & E & L)|N]; [congruence|tauto].
    - split; [auto|auto].
    - split; [auto|auto]. }
  split; [apply (i_panic _ _ _ _ _ _ _ J)|]. split; [apply (i_nodup _ _ _ _ _ _ _ J)|]. split; [exact WHO|].
  exists (List.filter (websocket req) (registered (bc s))), (List.filter (fun i => negb (websocket req i)) (registered (bc s))).
  pose proof (i_nodup _ _ _ _ _ _ _ J) as ND.
  split; [apply NoDup_filter; auto|]. split; [apply NoDup_filter; auto|].
  split; [apply (i_ws _ _ _ _ _ _ _ J)|]. split; [apply (i_sse _ _ _ _ _ _ _ J)|].
  assert (EVT : forall i, In i (registered (bc s)) -> is_events req i).
  { intros i Hi. destruct (WHO i Hi) as (accept & up & params & v & body & fs & ER & _). unfold is_events. rewrite ER. exact I. }
  split; intros i; rewrite filter_In.
  - split; intros [A B]; split; auto.
    + intros C. assert (X : websocket req i = false) by (apply WS; auto). congruence.
    + destruct (websocket req i) eqn:E; [auto|]. apply WS in E as [E|E]; [contradiction|]. destruct (E (EVT i A)).
  - rewrite negb_true_iff. split; intros [A B]; split; auto.
    + apply WS in B as [B|B]; [auto|]. destruct (B (EVT i A)).
    + apply WS. auto.
Qed.

(* What a connection was sent: messages, in the order in which they were
   processed, all of them posted by a request that was, or is about to be,
   answered 200, and matching its filters under the rights the frontend granted;
   none is left out between its registration and its removal, but for the ones
   still waiting, at most channelLength. *)
Theorem C81_delivery : forall ls i, let s := srun ls in
  (got (bc s) i ++ chan (bc s) i)%list = entitled (info req) i false (log (bc s)) /\
  (length (chan (bc s) i) <= channelLength)%nat /\
  (forall m, In m (got (bc s) i) -> exists v fs, granted req i v fs /\ matches (with_rights v fs) m = true /\
     exists j, posted req j = Some m /\ (at_ s j = Answered ok_answer \/ at_ s j = Posted (m_contest m))).
Proof.
  intros ls i s. pose proof (srun_inv req channelLength ls) as J. fold s in J. pose proof (srun_SInv req channelLength ls) as V. fold s in V.
  pose proof (i_entitled _ _ _ _ _ _ _ J i) as E. rewrite app_nil_r in E. split; [exact E|]. split; [apply (i_cap _ _ _ _ _ _ _ J)|].
  intros m Hm. assert (M : In m (entitled (info req) i false (log (bc s)))) by (rewrite <- E; apply in_or_app; auto).
  assert (C : (1 <= count_occ_action (is_registered i) (log (bc s)))%nat).
  { destruct (count_occ_action (is_registered i) (log (bc s))) eqn:Z; [|lia]. rewrite entitled_absent in M by auto. destruct M. }
  pose proof (i_calls _ _ _ _ _ _ _ J i) as D. pose proof (v_sub _ _ _ V i) as F. pose proof (v_phase _ _ _ V i) as P. rewrite F in D.
  assert (OK : exists x, created req i = Ok x).
  { destruct (at_ s i) as [| | | | | |[]|]; cbn [subscribed] in D; try lia; cbn in P; tauto. }
  destruct OK as (x & OK). pose proof OK as OK2. apply created_granted in OK2 as (v & fs & G & ->).
  exists v, fs. split; [auto|]. apply entitled_incl in M as [M1 M2]. unfold info in M2. rewrite OK in M2. split; [auto|].
  assert (A : In m (accepted (bc s))) by (rewrite <- (i_acc _ _ _ _ _ _ _ J); apply in_or_app; auto).
  destruct (v_posts _ _ _ V) as (js & _ & B1 & B2). assert (X : In (Some m) (map (posted req) js)) by (rewrite B2; apply in_map; auto).
  apply in_map_iff in X as (j & X1 & X2). exists j. split; [auto|]. apply B1 in X2 as [_ X2]. pose proof (v_phase _ _ _ V j) as Q.
  destruct (at_ s j) as [| | | | |c|r|]; try contradiction; cbn in X2, Q; [|left; congruence]. right. destruct Q as (m' & Q1 & Q2 & _). congruence.
Qed.

(* Confidentiality, end to end: whoever is logged in, or asked for no user
   filter, is sent only what the frontend's answer lets it see. *)
Theorem C81_confidential : forall ls i m, In m (got (bc (srun ls)) i) ->
  exists v fs, granted req i v fs /\
  ((v_user v <> "" \/ forall f, In f fs -> ~ is_user_filter f) -> may_see (with_rights v fs) m) /\
  exists f, In f fs /\ (about f m \/ is_user_filter f /\ m_user m = v_user v).
Proof.
  intros ls i m H. destruct (C81_delivery ls i) as (_ & _ & D). destruct (D m H) as (v & fs & G & M & _). exists v, fs. split; [auto|]. split.
  - apply (C27_confidential (with_rights v fs) m M).
  - apply (C27_relevant (with_rights v fs) m M).
Qed.

(* POST /broadcast/: the messages the broadcaster accepted are, in order, those of
   the requests answered 200 (or about to be: only the scoreboard's channel is in
   their way), once each; 400 is the answer to anything but a well-formed POST
   and 503 to a message that found the queue full, and neither is broadcast. *)
Theorem C81_broadcast : forall ls, let s := srun ls in
  (exists js, NoDup js /\ map (posted req) js = map Some (accepted (bc s)) /\
     (forall j, In j js <-> exists m, posted req j = Some m /\ (at_ s j = Answered ok_answer \/ at_ s j = Posted (m_contest m)))) /\
  (forall j method body r, req j = PostBroadcast method body -> at_ s j = Answered r ->
     match posted req j with
     | None => r = Plain 400 "" None
     | Some m => r = ok_answer \/ r = Plain 503 "" None /\ exists l1 l2, ls = (l1 ++ Go j :: l2)%list /\ at_ (srun l1) j = Idle /\
                                  (channelLength <= length (q_messages (bc (srun l1))))%nat
     end).
Proof.
  intros ls s. pose proof (srun_SInv req channelLength ls) as V. fold s in V. split.
  - destruct (v_posts _ _ _ V) as (js & A & B & C). exists js. split; [auto|]. split; [auto|]. intros j. rewrite B. unfold PA. pose proof (v_phase _ _ _ V j) as Q. split.
    + intros [X Y]. destruct (posted req j) as [m|] eqn:E; [|congruence]. exists m. split; [auto|].
      destruct (at_ s j) as [| | | | |c|r|]; try contradiction; cbn in Y, Q; [|left; congruence]. right. destruct Q as (m' & Q1 & Q2 & _). congruence.
    + intros (m & X & [Y|Y]); rewrite X, Y; cbn; split; congruence || auto.
  - intros j method body r ER AT. pose proof (srun_ans req channelLength ls j) as H. fold s in H. rewrite AT in H. cbn [ans_ok] in H. rewrite ER in H.
    destruct (posted req j) as [m|] eqn:E.
    + destruct H as [[_ H]|[_ [H|H]]]; [discriminate H| |auto]. right. split; [auto|]. subst r. apply (full_503 req channelLength ls j m); auto.
    + destruct H as [[H _]|[H _]]; [auto|congruence].
Qed.

(* The scoreboard loop is given, once each, the contests of the messages answered
   200 that announce a graded run of a contest, and nothing else. *)
Theorem C81_scoreboard : forall ls, let s := srun ls in
  exists ks ms, NoDup ks /\ map (posted req) ks = map Some ms /\ (taken s ++ contestChan s)%list = map m_contest ms /\
  forall k, In k ks <-> at_ s k = Answered ok_answer /\ exists m, posted req k = Some m /\ run_update_of_contest m.
Proof.
  intros ls s. pose proof (srun_SInv req channelLength ls) as V. fold s in V. destruct (v_taken _ _ _ V) as (ks & A & B & C).
  exists ks, (flat_map (fun k => match posted req k with Some m => [m] | None => [] end) ks). split; [auto|].
  assert (P : forall k, In k ks -> exists m, posted req k = Some m) by (intros k Hk; apply B in Hk as [_ (m & X & _)]; eauto).
  rewrite C. clear C. assert (L : map (posted req) ks = map Some (flat_map (fun k => match posted req k with Some m => [m] | None => [] end) ks) /\
    map (contest_of req) ks = map m_contest (flat_map (fun k => match posted req k with Some m => [m] | None => [] end) ks)).
  { clear - P. induction ks as [|k ks IH]; [auto|]. destruct IH as [I1 I2]; [intros; apply P; cbn; auto|]. destruct (P k) as (m & X); [cbn; auto|].
    cbn [map flat_map]. unfold contest_of at 1. rewrite X. cbn [app map]. rewrite I1, I2. auto. }
  destruct L as [L1 L2]. split; [exact L1|]. split; [exact L2|]. intros k. rewrite B. unfold PC.
  assert (U : forall m, update_needed m = true <-> run_update_of_contest m).
  { intros m. unfold update_needed, run_update_of_contest. rewrite andb_true_iff, negb_true_iff, Contains_spec, String.eqb_neq. tauto. }
  split; intros [X (m & Y & Z)]; (split; [auto|]); exists m; split; auto; apply U; auto.
Qed.

(* /deauthenticate/: the deauthentications the broadcaster was given are, in
   order, those of the requests answered 200, once each, each for the user its
   path names. *)
Theorem C81_deauthenticate : routed req -> forall ls, let s := srun ls in
  exists ds us, NoDup ds /\ (deauthed s ++ q_deauth (bc s))%list = us /\
  Forall2 (fun d u => exists path, req d = Deauth path /\ names_user path u) ds us /\
  (forall d, In d ds <-> (exists path, req d = Deauth path) /\ at_ s d = Answered (Plain 200 "" None)) /\
  (forall d path r, req d = Deauth path -> at_ s d = Answered r -> r = Plain 200 "" None).
Proof.
  intros RT ls s. pose proof (srun_SInv req channelLength ls) as V. fold s in V. destruct (v_deauths _ _ _ V) as (ds & A & B & C).
  assert (SP : forall d path, req d = Deauth path -> exists u r, split "/" path = "" :: "deauthenticate" :: u :: r /\ names_user path u).
  { intros d path ER. destruct (RT d path ER) as (rest & ->).
    change ("/deauthenticate/" ++ rest) with ("" ++ String "/" ("deauthenticate" ++ String "/" rest)).
    rewrite split_app by (intros []). rewrite split_app by (unfold contains; cbn; intuition discriminate).
    destruct (split_cons "/" rest) as (u & r & E). rewrite E. exists u, r. split; [auto|].
    pose proof (split_parts "/" rest) as F. rewrite E in F. inversion F as [|? ? F1 F2]; subst. split; [auto|].
    pose proof (join_split "/" rest) as K. rewrite E in K. destruct r as [|y r].
    - left. cbn [join] in K. rewrite <- K. reflexivity.
    - right. exists (join "/" (y :: r)). rewrite <- K. reflexivity. }
  exists ds, (map (user_of req) ds). split; [auto|]. split; [auto|]. split; [|split; [exact B|]].
  - assert (D : forall d, In d ds -> exists path, req d = Deauth path) by (intros d Hd; apply B in Hd as [X _]; auto).
    clear - D SP. induction ds as [|d ds IH]; [constructor|]. cbn [map]. constructor; [|apply IH; intros; apply D; cbn; auto].
    destruct (D d) as (path & E); [cbn; auto|]. exists path. split; [auto|]. unfold user_of. rewrite E. destruct (SP d path E) as (u & r & X & Y). rewrite X. auto.
  - intros d path r ER AT. pose proof (srun_ans req channelLength ls d) as H. fold s in H. rewrite AT in H. cbn [ans_ok] in H. rewrite ER in H.
    destruct H as [[H _]|[_ H]]; [auto|]. destruct (SP d path ER) as (u & q & X & _). rewrite X in H. cbn in H. lia.
Qed.

(* The answer to a request for events. *)
Theorem C81_events_answers : forall ls i accept up params reply body r, req i = Events accept up params reply body -> at_ (srun ls) i = Answered r ->
  (r = Streamed /\ exists v fs, granted req i v fs) \/
  (~ lists_type accept "text/event-stream" /\ (r = Switched \/ r = Plain 400 "Bad Request" None)) \/
  (lists_type accept "text/event-stream" /\
   ((r = Plain 503 "" None /\ exists v fs, granted req i v fs) \/
    (exists st v fs, r = Plain st body None /\ reply = Some (st, Some v) /\ st <> 200%Z /\ params <> [] /\ Forall2 denotes (flat_map (split ",") params) fs) \/
    (r = Plain 200 "" None /\ ~ exists v fs, granted req i v fs))).
Proof.
  intros ls i accept up params reply body r ER AT. pose proof (srun_ans req channelLength ls i) as H. rewrite AT in H. cbn [ans_ok] in H. rewrite ER in H.
  assert (W : websocket req i = false <-> lists_type accept "text/event-stream").
  { unfold websocket. rewrite ER, negb_false_iff. apply accepts_spec; reflexivity || discriminate. }
  destruct H as [H|[[H1 H2]|[H1 H2]]]; [auto| |].
  - right. left. split; [|auto]. intros X. apply W in X. congruence.
  - right. right. split; [apply W; auto|auto].
Qed.
(* Only one filter can make the handler panic. *)
Theorem C81_aborted : forall ls i, at_ (srun ls) i = Aborted ->
  exists accept up params reply body, req i = Events accept up params reply body /\ In "/problemset" (flat_map (split ",") params).
Proof. intros ls i AT. pose proof (srun_ans req channelLength ls i) as H. rewrite AT in H. exact H. Qed.

(* A handler that answered is done: nothing more is sent to its client. *)
Theorem C81_silent : forall ls ls' i r, at_ (srun ls) i = Answered r ->
  at_ (srun (ls ++ ls')) i = Answered r /\ got (bc (srun (ls ++ ls'))) i = got (bc (srun ls)) i.
Proof. intros ls ls' i r H. apply done_run. auto. Qed.

(* A connection that ended is taken out of the broadcaster once its request to
   be is handled, if it was registered by then and the queue had room. *)
Theorem C81_removed : forall ls ls' i, let s := srun ls in
  at_ s i = Leaving -> In i (registered (bc s)) -> (length (q_unsubscribe (bc s)) < 5)%nat ->
  let s' := srun (ls ++ Go i :: ls') in
  In i (q_unsubscribe (bc s')) \/ ~ In i (registered (bc s')).
Proof.
  intros ls ls' i s AT RG LN. cbv zeta. enough (H : In i (q_unsubscribe (bc (srun (ls ++ Go i :: ls')))) \/ closed (bc (srun (ls ++ Go i :: ls'))) i = true).
  { destruct H as [H|H]; [auto|]. right. intros X. apply (i_reg _ _ _ _ _ _ _ (srun_inv req channelLength _)) in X as [_ X]. congruence. }
  assert (NR : forall l, count_occ_action (is_registered i) (log (bc (srun (ls ++ l)))) = 1%nat).
  { intros l. apply (i_reg _ _ _ _ _ _ _ (srun_inv req channelLength ls)) in RG as [RG _]. destruct (srun_log req channelLength ls l) as (x & E).
    pose proof (i_calls _ _ _ _ _ _ _ (srun_inv req channelLength (ls ++ l)) i) as D. pose proof (v_sub _ _ _ (srun_SInv req channelLength (ls ++ l)) i) as F.
    rewrite E in *. unfold count_occ_action in *. rewrite filter_app, app_length in *. destruct (subscribed _) in F; lia. }
  induction ls' as [|l ls' IH] using rev_ind.
  - rewrite srun_snoc. fold s. cbn [sstep]. unfold go. pose proof (v_phase _ _ _ (srun_SInv req channelLength ls) i) as P. fold s in P. rewrite AT in *. destruct P as [P _].
    unfold is_events in P. destruct (req i); try contradiction. rewrite bc_move, bc_call. left.
    destruct (bc s) as [R C CL G F qs qu qd qm w e p lg ac]. cbn [step q_unsubscribe] in *. apply Nat.ltb_lt in LN. rewrite LN. cbn. apply in_or_app. cbn. auto.
  - rewrite app_comm_cons, app_assoc, srun_snoc. set (t := srun (ls ++ Go i :: ls')) in *.
    destruct (sstep_bc req channelLength t l) as [->|(ev & ->)]; [auto|]. destruct IH as [IH|IH]; [|right; apply step_closed; auto].
    destruct (step_unsub req channelLength (bc t) ev i IH) as [H|H]; [auto|].
    right. destruct (closed (bc t) i) eqn:CL; [apply step_closed; auto|]. apply H.
    apply (i_reg _ _ _ _ _ _ _ (srun_inv req channelLength (ls ++ Go i :: ls'))). split; [apply NR|auto].
Qed.

(* Otherwise it stays registered, but for channelLength matching messages at
   most: one more and it is dropped as too slow. *)
Theorem C81_leak_bounded : forall ls ls' i r, let s := srun ls in let s' := srun (ls ++ ls') in
  at_ s i = Answered r -> In i (registered (bc s)) -> In i (registered (bc s')) ->
  exists since, log (bc s') = (log (bc s) ++ since)%list /\
  (length (List.filter (matches (info req i)) (processed since)) + length (chan (bc s) i) <= channelLength)%nat.
Proof.
  intros ls ls' i r s s' AT RG RG'. destruct (srun_log req channelLength ls ls') as (x & E). fold s s' in E. exists x. split; [auto|].
  pose proof (srun_inv req channelLength ls) as J. fold s in J. pose proof (srun_inv req channelLength (ls ++ ls')) as J'. fold s' in J'.
  destruct (done_run req channelLength ls i r AT ls') as [_ G]. fold s s' in G.
  pose proof (i_entitled _ _ _ _ _ _ _ J i) as E1. pose proof (i_entitled _ _ _ _ _ _ _ J' i) as E2. rewrite app_nil_r in E1, E2.
  rewrite E, entitled_app, (i_present _ _ _ _ _ _ _ J), <- E1, G, <- app_assoc in E2. apply app_inv_head in E2.
  apply mem_In in RG. rewrite RG in E2. rewrite entitled_present in E2.
  - pose proof (i_cap _ _ _ _ _ _ _ J' i) as C. rewrite E2, app_length in C. lia.
  - apply (i_reg _ _ _ _ _ _ _ J') in RG' as [_ RG']. pose proof (i_rem _ _ _ _ _ _ _ J' i) as K. rewrite RG', E in K.
    unfold count_occ_action in *. rewrite filter_app, app_length in K. lia.
Qed.
End C81.
Print Assumptions C81_gauges.
Print Assumptions C81_delivery.
Print Assumptions C81_confidential.
Print Assumptions C81_broadcast.
Print Assumptions C81_scoreboard.
Print Assumptions C81_deauthenticate.
Print Assumptions C81_events_answers.
Print Assumptions C81_aborted.
Print Assumptions C81_silent.
Print Assumptions C81_removed.
Print Assumptions C81_leak_bounded.

(* While the scoreboard loop takes nothing (its HTTP request hangs, say), a
   request whose message was accepted gets no answer once one contest waits. *)
Theorem C81_stalled : forall req channelLength ls ls' j c, let s := srun req channelLength ls in
  at_ s j = Posted c -> contestChan s <> [] -> ~ In TakeContest ls' ->
  let s' := srun req channelLength (ls ++ ls') in at_ s' j = Posted c /\ contestChan s' = contestChan s.
Proof.
  intros req len ls ls' j c s AT CC. cbv zeta. induction ls' as [|l ls' IH] using rev_ind; intros NT; [rewrite app_nil_r; auto|].
  rewrite in_app_iff in NT. destruct IH as [A B]; [tauto|]. rewrite app_assoc, srun_snoc. pose proof (srun_SInv req len (ls ++ ls')) as V. set (t := srun req len (ls ++ ls')) in *.
  rewrite <- B in CC |- *. clearbody t. clear B. rename A into AT'.
  assert (CM : forall i p, contestChan (move t i p) = contestChan t) by (intros; destruct t; auto).
  assert (CL : forall ev, contestChan (call req len t ev) = contestChan t) by (intros; destruct t; auto).
  assert (CML : forall ev i p, contestChan (move (call req len t ev) i p) = contestChan t) by (intros; destruct t; auto).
  destruct l as [i|i| | |order|order|]; cbn [sstep].
  - pose proof (go_eff req len t i (v_phase _ _ _ V i)) as E. destruct (Nat.eq_dec j i) as [<-|N].
    + destruct E as [|p Q|EV X L|EV X|EV X FI|EV X|m PO X L|c' method body ER X CC'|path x y user r ER ES X L]; auto; try congruence.
      destruct (quiet_old _ _ _ _ _ Q) as [X|[X|X]]; congruence.
    + rewrite (eff_other _ _ _ _ _ _ E N). split; [auto|]. destruct E; rewrite ?CML, ?CM, ?CL; auto. congruence.
  - destruct (at_ t i) eqn:B; auto. rewrite at_move, CM. destruct (Nat.eqb_spec j i) as [->|N]; [congruence|auto].
  - rewrite at_call, CL. auto.
  - rewrite at_call, CL. auto.
  - pose proof (at_call req len t (LoopDeauth order)) as X. pose proof (CL (LoopDeauth order)) as Y. destruct (call req len t (LoopDeauth order)). cbn in *. rewrite X, Y. auto.
  - rewrite at_call, CL. auto.
  - destruct NT. right. cbn. auto.
Qed.
Print Assumptions C81_stalled.

(* --- Examples and schedules. *)
Definition alice : validation := mkV "alice" false [] [] [].
Definition anonymous : validation := mkV "" false [] [] [].
Definition graded (c : string) : message := mkMsg c 0 "" "alice" true ("{" ++ run_update ++ "}").
Definition sse : list string := ["text/html, text/event-stream ;q=1"; "*/*,  text/event-stream"].
Definition site (i : nat) : request :=
  match i with
  | 0 => Events sse true ["/contest/abc"] (Some (200%Z, Some alice)) ""
  | 1 => PostBroadcast "POST" (Some (graded "abc"))
  | 2 => Deauth "/deauthenticate/alice"
  | 3 => Events [] true ["/problem/p,/contest/abc"; "/user/alice"] (Some (200%Z, Some anonymous)) ""
  | 4 => PostBroadcast "POST" (Some (graded "def"))
  | 5 => PostBroadcast "GET" (Some (graded "abc"))
  | 6 => Events sse true [] (Some (200%Z, Some alice)) ""
  | 7 => Events sse true ["/contest/abc"] (Some (403%Z, Some anonymous)) "forbidden"
  | 8 => Deauth "/deauthenticate/"
  | 9 => Events sse true ["/problemset"] None ""
  | _ => Events sse true ["/problem/p"] (Some (200%Z, Some alice)) ""
  end%nat.
Definition joins (i : nat) : list label := [Go i; Go i; Go i; LSubscribe].

Example C81_example : routed site /\
  let s := srun site 4 (joins 0 ++ joins 3 ++ [Go 1; LMessage [0%nat; 3%nat]; Go 0; Go 1; TakeContest; Go 2; LDeauth [3%nat; 0%nat]; Go 0; Go 0; Go 5; Go 6; Go 6; Go 7; Go 7; Go 9; Go 9]) in
  got (bc s) 0%nat = [graded "abc"] /\ got (bc s) 3%nat = [] /\ chan (bc s) 3%nat = [graded "abc"] /\ at_ s 0%nat = Answered Streamed /\ at_ s 1%nat = Answered ok_answer /\
  at_ s 2%nat = Answered (Plain 200 "" None) /\ registered (bc s) = [3%nat] /\ ws (bc s) = 1%Z /\ BcModel.sse (bc s) = 0%Z /\ taken s = ["abc"] /\ deauthed s = ["alice"] /\
  at_ s 5%nat = Answered (Plain 400 "" None) /\ at_ s 7%nat = Answered (Plain 403 "forbidden" None) /\ at_ s 9%nat = Aborted.
Proof.
  split.
  - intros i path H. destruct i as [|[|[|[|[|[|[|[|[|[|i]]]]]]]]]]; cbn in H; try discriminate H; injection H as <-; [exists "alice"|exists ""]; reflexivity.
  - cbv zeta. vm_compute. auto 20.
Qed.
(* The hypotheses of C81_removed and C81_leak_bounded are met. *)
Example C81_removed_example : let s := srun site 4 (joins 0 ++ [Gone 0]) in
  at_ s 0%nat = Leaving /\ registered (bc s) = [0%nat] /\ q_unsubscribe (bc s) = [] /\
  registered (bc (srun site 4 ((joins 0 ++ [Gone 0]) ++ Go 0 :: [LUnsubscribe]))) = [].
Proof. vm_compute. auto. Qed.

(* False of the code: that a client refused by the broadcaster is told so.  One
   that asks for no filter gets 200 and an empty body (and so does one for which
   the frontend could not be asked). *)
Theorem C81_refusal_status_refuted : exists req len ls i, at_ (srun req len ls) i = Answered (Plain 200 "" None) /\
  (exists accept up params reply body, req i = Events accept up params reply body) /\ ~ exists v fs, granted req i v fs.
Proof.
  exists site, 4%nat, [Go 6; Go 6], 6%nat. split; [vm_compute; auto|]. split; [cbn; eauto 8|].
  intros (v & fs & accept & up & params & body & ER & NE & _). cbn in ER. injection ER as _ _ E _ _. congruence.
Qed.
Print Assumptions C81_refusal_status_refuted.
(* False of the code: that the answer says it is JSON: the header is set after
   the status has been written. *)
Theorem C81_content_type_refuted : exists req len ls j m body, posted req j = Some m /\ at_ (srun req len ls) j = Answered (Plain 200 body None) /\
  body = "{" ++ quote ++ "status" ++ quote ++ ":" ++ quote ++ "ok" ++ quote ++ "}".
Proof. exists site, 4%nat, [Go 1; Go 1], 1%nat, (graded "abc"). eexists. vm_compute. auto. Qed.
Print Assumptions C81_content_type_refuted.
(* False of the code: that a connection that ended is taken out.  Its two requests
   travel in different channels... *)
Theorem C81_leak_refuted : exists req len ls i, let s := srun req len ls in
  at_ s i = Answered Streamed /\ q_subscribe (bc s) = [] /\ q_unsubscribe (bc s) = [] /\ q_deauth (bc s) = [] /\ q_messages (bc s) = [] /\
  registered (bc s) = [i] /\ BcModel.sse (bc s) = 1%Z.
Proof. exists site, 4%nat, [Go 0; Go 0; Go 0; Gone 0; Go 0; LUnsubscribe; LSubscribe], 0%nat. vm_compute. auto 10. Qed.
Print Assumptions C81_leak_refuted.
(* ...and the second is dropped when five others wait. *)
Theorem C81_dropped_unsubscribe_refuted : exists req len ls i, let s := srun req len ls in
  at_ s i = Leaving /\ In i (registered (bc s)) /\
  let s' := srun req len (ls ++ [Go i; LUnsubscribe; LUnsubscribe; LUnsubscribe; LUnsubscribe; LUnsubscribe]) in
  at_ s' i = Answered Streamed /\ q_unsubscribe (bc s') = [] /\ registered (bc s') = [i].
Proof.
  exists site, 4%nat, (flat_map joins [10; 11; 12; 13; 14; 15]%nat ++ map Gone [10; 11; 12; 13; 14; 15]%nat ++ map Go [11; 12; 13; 14; 15]%nat)%list, 10%nat.
  vm_compute. auto 20.
Qed.
Print Assumptions C81_dropped_unsubscribe_refuted.
(* False of the code: that the scoreboard learns of contests in the order in which
   their messages were accepted. *)
Theorem C81_scoreboard_order_refuted : exists req len ls, let s := srun req len ls in
  map m_contest (accepted (bc s)) = ["abc"; "def"] /\ taken s = ["def"; "abc"].
Proof. exists site, 4%nat, [Go 1; Go 4; Go 4; TakeContest; Go 1; TakeContest]. vm_compute. auto. Qed.
Print Assumptions C81_scoreboard_order_refuted.
(* False of the code: that deauthenticating nobody disconnects nobody: it
   disconnects everyone who is not logged in. *)
Theorem C81_deauthenticate_nobody_refuted : exists req len ls i, routed req /\ (exists v fs, granted req i v fs /\ v_user v = "") /\
  req 8%nat = Deauth "/deauthenticate/" /\ In i (registered (bc (srun req len ls))) /\ registered (bc (srun req len (ls ++ [Go 8; LDeauth [i]]))) = [].
Proof.
  exists site, 4%nat, (joins 3), 3%nat. split; [apply C81_example|]. split.
  - assert (X : created site 3 = Ok (with_rights anonymous [Problem "p"; Contest "abc" ""; User "alice"])) by (vm_compute; reflexivity).
    apply created_granted in X as (v & fs & G & E). exists v, fs. split; [auto|]. apply (f_equal s_user) in E. cbn in E. congruence.
  - split; [reflexivity|]. vm_compute. auto.
Qed.
Print Assumptions C81_deauthenticate_nobody_refuted.
(* C81_stalled has something to say: the message of request 4 was accepted and
   delivered, its contest cannot be passed on. *)
Example C81_stalled_example : let s := srun site 4 (joins 0 ++ [Go 1; Go 1; Go 4; LMessage [0%nat]; LMessage [0%nat]]) in
  at_ s 4%nat = Posted "def" /\ contestChan s = ["abc"] /\ processed (log (bc s)) = [graded "abc"; graded "def"].
Proof. vm_compute. auto. Qed.

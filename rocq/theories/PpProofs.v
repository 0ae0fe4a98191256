From Coq Require Import String List Arith Bool Lia Permutation.
From Verif Require Import PpModel PpSpec.
Import ListNotations.

Section Proofs.
Context {run : Type}.
Variable SB : bool.
Variable mo : run -> option message.
Notation state := (state run). Notation label := (label run).
Notation step := (step SB mo). Notation exec := (exec SB mo). Notation steps := (steps SB mo).

Lemma upd_length {A} (l : list A) i x : length (upd l i x) = length l.
Proof. revert i. induction l; intros [|i]; cbn; auto. Qed.
Lemma upd_nth {A} (l : list A) i x j : nth_error (upd l i x) j = if (i =? j)%nat then (match nth_error l i with Some _ => Some x | None => None end) else nth_error l j.
Proof. revert i j. induction l as [|a l IH]; intros [|i] [|j]; cbn; auto. - destruct (i =? j)%nat; auto. Qed.
Lemma sum_app {A} (f : A -> nat) l1 l2 : sum_of f (l1 ++ l2) = sum_of f l1 + sum_of f l2.
Proof. induction l1; cbn; lia. Qed.
Lemma sum_upd {A} (f : A -> nat) l i x y : nth_error l i = Some y -> sum_of f (upd l i x) + f y = sum_of f l + f x.
Proof. revert i. induction l as [|a l IH]; intros [|i] E; cbn in *; try discriminate; [injection E as ->; lia|]. specialize (IH i E). lia. Qed.

(* ---- order ---- *)
Lemma order ls s : exec ls s -> taken ls = recorded ls ++ finished s ++ match relay s with Some r => [r] | None => [] end ++ finishedRuns s /\
  Permutation (closed ls) (taken ls ++ callers s) /\ length (finished s) <= 1 /\ length (finishedRuns s) <= 1.
Proof.
  induction 1 as [|ls s l s' X (T & P & L1 & L2) S]; [cbn; auto|].
  unfold taken, recorded, closed in *. rewrite !flat_map_app.
  destruct S; cbn [flat_map app callers finishedRuns relay finished with_callers with_queue with_relay with_finished with_poster with_requests with_chan with_loop set_stage] in *; rewrite ?app_nil_r; auto.
  - split; [auto|]. split; [|auto]. rewrite app_assoc. apply Permutation_app_tail. auto.
  - split; [rewrite T, <- !app_assoc; auto|]. split; [|rewrite app_length; cbn; lia]. rewrite H in P. rewrite P, <- !app_assoc. apply Permutation_app_head. cbn.
    apply Permutation_sym, Permutation_middle.
  - rewrite H, H0 in T. split; [rewrite T; cbn; auto|]. rewrite H in L2. cbn in L2. split; [auto|]. lia.
  - rewrite H in T. split; [rewrite T, <- !app_assoc; cbn; auto|]. split; [auto|]. rewrite app_length. cbn. lia.
  - rewrite H in T. split; [rewrite T, <- !app_assoc; cbn; auto|]. split; [auto|]. rewrite H in L1. cbn in L1. lia.
Qed.

(* ---- progress ---- *)
Definition inv (s : state) : Prop :=
  (forall i, poster s = Waiting i -> i < length (requests s)) /\ NoDup (map fst (known s)) /\ length (contestChan s) <= 1.
Lemma is_known_in c k : is_known c k = true <-> In c (map fst k).
Proof.
  unfold is_known. rewrite existsb_exists, in_map_iff. split; intros (x & A & B); exists x.
  - apply String.eqb_eq in B. auto.
  - rewrite A, String.eqb_refl. auto.
Qed.
Lemma mark_keys c k : map fst (mark c k) = map fst k.
Proof. unfold mark. rewrite map_map. apply map_ext_in. intros x I. destruct (String.eqb_spec (fst x) c); cbn; auto. Qed.
Lemma nodup_snoc {A} (l : list A) x : NoDup l -> ~ In x l -> NoDup (l ++ [x]).
Proof. intros N I. apply (Permutation_NoDup (l := x :: l)); [apply Permutation_cons_append|constructor; auto]. Qed.
Lemma invariant ls s : exec ls s -> inv s.
Proof.
  assert (ND : forall k1 (x : string * bool) k2, NoDup (map fst (k1 ++ x :: k2)) -> NoDup (map fst (k1 ++ k2))).
  { intros k1 x k2. rewrite !map_app. cbn. apply NoDup_remove_1. }
  induction 1 as [|ls s l s' X (W & D & C) S]; [repeat split; cbn; [discriminate|constructor|auto]|].
  unfold inv. destruct S; cbn [poster requests known contestChan with_callers with_queue with_relay with_finished with_poster with_requests with_chan with_loop set_stage]; rewrite ?upd_length; auto.
  - split; [|auto]. intros i E. unfold next in E. destruct SB; [|discriminate]. destruct (mo r); discriminate.
  - split; [|auto]. intros i [= <-]. rewrite app_length. cbn. lia.
  - split; [discriminate|auto].
  - split; [|auto]. intros i E. rewrite app_length. apply W in E. lia.
  - split; [auto|]. split; [auto|]. rewrite app_length. cbn. lia.
  - split; [discriminate|auto].
  - split; [discriminate|auto].
  - rewrite mark_keys. rewrite H0 in C. cbn in C. split; [auto|]. split; [auto|lia].
  - rewrite H0 in C. cbn in C. split; [auto|]. split; [|lia]. rewrite map_app. cbn. apply nodup_snoc; auto. rewrite <- is_known_in. congruence.
  - rewrite H0 in D. eauto.
  - rewrite H0 in D. eauto.
Qed.
Definition helpful (s : state) (l : label) (s' : state) : Prop := step s l s' /\ ~ begins s l s' /\ failure l = false.
Ltac help := split; [econstructor; eauto; fail|split; [intros [(? & E)|(? & E & _)]; discriminate|reflexivity]].
Lemma not_stuck ls s : exec ls s -> ~ idle s -> exists l s', helpful s l s'.
Proof.
  intros X NI. destruct (invariant _ _ X) as (W & D & C). destruct (order _ _ X) as (_ & _ & L1 & L2).
  destruct (refreshing s) as [c|] eqn:R; [do 2 eexists; help|].
  destruct (known s) as [|[c [|]] k] eqn:K.
  2: { do 2 eexists. split; [apply (elapses_again _ _ _ s [] c k); auto|split; [intros [(? & E)|(? & E & _)]; discriminate|reflexivity]]. }
  2: { do 2 eexists. split; [apply (elapses _ _ _ s [] c k); auto|split; [intros [(? & E)|(? & E & _)]; discriminate|reflexivity]]. }
  destruct (contestChan s) as [|c l] eqn:CC.
  2: { do 2 eexists. split; [apply (hears_new _ _ _ s c l); auto; rewrite K; auto|split; [intros [(? & E)|(? & E & _)]; discriminate|reflexivity]]. }
  assert (Q : (forall q, In q (requests s) -> at_ q = Answered) \/ exists i q, nth_error (requests s) i = Some q /\ at_ q <> Answered).
  { clear. induction (requests s) as [|q l IH]; [left; intros ? []|]. destruct IH as [A|(i & q' & E & N)].
    - destruct (at_ q) eqn:E; [right; exists 0, q; split; [auto|congruence]|right; exists 0, q; split; [auto|congruence]|].
      left. intros q' [<-|I]; auto.
    - right. exists (S i), q'. auto. }
  destruct Q as [QA|(i & q & E & N)].
  2: { destruct (at_ q) as [|c|] eqn:A; [| |congruence].
       - do 2 eexists. split; [apply (accepts _ _ _ s i q); auto|split; [intros [(? & E')|(? & E' & _)]; discriminate|reflexivity]].
       - do 2 eexists. split; [apply (notes _ _ _ s i q c); auto; rewrite CC; cbn; lia|split; [intros [(? & E')|(? & E' & _)]; discriminate|reflexivity]]. }
  destruct (poster s) as [|r m|i] eqn:P.
  - destruct (finished s) as [|r l] eqn:F; [|do 2 eexists; help].
    destruct (relay s) as [r|] eqn:Y; [do 2 eexists; split; [apply (delivers _ _ _ s r); auto; rewrite F; cbn; lia|split; [intros [(? & E')|(? & E' & _)]; discriminate|reflexivity]]|].
    destruct (finishedRuns s) as [|r l] eqn:FR; [|do 2 eexists; help].
    destruct (callers s) as [|r l] eqn:CS.
    + elim NI. unfold idle. auto 20.
    + do 2 eexists. split; [apply (enters _ _ _ s [] r l); auto; rewrite FR; cbn; lia|split; [intros [(? & E')|(? & E' & _)]; discriminate|reflexivity]].
  - do 2 eexists. split; [apply (asks _ _ _ s r m); auto|split; [|reflexivity]]. intros [(? & E')|(? & _ & E')]; [discriminate|]. cbn in E'. congruence.
  - specialize (W i eq_refl). destruct (nth_error (requests s) i) as [q|] eqn:E; [|apply nth_error_None in E; lia].
    do 2 eexists. split; [apply (replies _ _ _ s i q); auto; apply QA; eapply nth_error_In; eauto|split; [intros [(? & E')|(? & E' & _)]; discriminate|reflexivity]].
Qed.
Lemma mark_sum c k : NoDup (map fst k) -> sum_of (fun x : string * bool => if snd x then 3 else 1) (mark c k) <= sum_of (fun x : string * bool => if snd x then 3 else 1) k + 2.
Proof.
  induction k as [|[d b] k IH]; cbn [map fst mark sum_of snd]; intros ND; [cbn; lia|]. inversion ND as [|? ? NI ND']; subst.
  unfold mark in *. cbn [map fst sum_of].
  destruct (String.eqb_spec d c) as [->|N].
  - assert (E : map (fun x : string * bool => if (fst x =? c)%string then (c, true) else x) k = k).
    { rewrite <- (map_id k) at 2. apply map_ext_in. intros x I. destruct (String.eqb_spec (fst x) c) as [E|]; auto. elim NI. apply in_map_iff. eauto. }
    rewrite E. cbn [snd]. destruct b; lia.
  - specialize (IH ND'). cbn [snd]. destruct b; lia.
Qed.
Lemma decreases ls s l s' : exec ls s -> step s l s' -> ~ begins s l s' -> left s' < left s.
Proof.
  intros X S NB. destruct (invariant _ _ X) as (W & D & C). unfold left.
  destruct S; cbn [callers finishedRuns relay finished poster requests contestChan known refreshing with_callers with_queue with_relay with_finished with_poster with_requests with_chan with_loop set_stage].
  - elim NB. left. eauto.
  - rewrite H, !app_length. cbn. lia.
  - rewrite H, H0. cbn. lia.
  - rewrite H, app_length. cbn. lia.
  - rewrite H, H0. unfold next. destruct SB; [destruct (mo r)|]; cbn; lia.
  - rewrite H, sum_app. cbn. lia.
  - rewrite H. lia.
  - elim NB. right. exists (length (requests s)). auto.
  - pose proof (sum_upd (fun q => match at_ q with Received => 10 | Sending _ => 8 | Answered => 0 end) _ _ {| from := from q; about := about q; at_ := Answered |} _ H) as U. cbn in U. rewrite H0 in U. lia.
  - pose proof (sum_upd (fun q => match at_ q with Received => 10 | Sending _ => 8 | Answered => 0 end) _ _ {| from := from q; about := about q; at_ := match refresh_of (about q) with Some c => Sending c | None => Answered end |} _ H) as U. cbn in U. rewrite H0 in U.
    destruct (refresh_of (about q)); lia.
  - pose proof (sum_upd (fun q => match at_ q with Received => 10 | Sending _ => 8 | Answered => 0 end) _ _ {| from := from q; about := about q; at_ := Answered |} _ H) as U. cbn in U. rewrite H0 in U. rewrite app_length. cbn. lia.
  - rewrite H. lia.
  - rewrite H. lia.
  - rewrite H, H0. pose proof (mark_sum c (known s) D). cbn. lia.
  - rewrite H, H0, sum_app. cbn. lia.
  - rewrite H. cbn. lia.
  - rewrite H, H0, !sum_app. cbn. lia.
  - rewrite H, H0, !sum_app. cbn. lia.
Qed.

(* ---- a frontend that does not answer ---- *)
Definition contest_msg (m : message) : bool := match refresh_of m with Some _ => true | None => false end.
Definition pending_poster (p : poster_at run) : nat := match p with Asking _ m => if contest_msg m then 1 else 0 | _ => 0 end.
(* The grader's request that waits at the broadcaster. *)
Definition pending_request (s : state) : nat :=
  match poster s with
  | Waiting i => match nth_error (requests s) i with
                 | Some q => match at_ q with Received => if contest_msg (about q) then 1 else 0 | Sending _ => 1 | Answered => 0 end
                 | None => 0 end
  | _ => 0
  end.
Definition slack (ls : list label) : nat := length (filter (@failure run) ls).
Definition mine_noted (s : state) : nat := length (contestChan s) + options (refreshing s).
Ltac fields := cbn [callers finishedRuns relay finished poster requests contestChan known refreshing with_callers with_queue with_relay with_finished with_poster with_requests with_chan with_loop set_stage] in *.
Lemma pending_le s i q t n : (forall j, poster s = Waiting j -> j < length (requests s)) -> nth_error (requests s) i = Some q ->
  (match at_ q with Received => if contest_msg (about q) then 1 else 0 | Sending _ => 1 | Answered => 0 end <=
   match t with Received => if contest_msg (about q) then 1 else 0 | Sending _ => 1 | Answered => 0 end + n) ->
  pending_request s <= pending_request (set_stage s i q t) + n.
Proof.
  intros W E L. unfold pending_request. fields. destruct (poster s) as [|r m|j] eqn:P; try lia. rewrite upd_nth. specialize (W j eq_refl).
  destruct (Nat.eqb_spec i j) as [->|N]; [rewrite E; cbn [at_ about]; lia|]. destruct (nth_error (requests s) j); lia.
Qed.
Lemma next_pending r : length (if contest_run SB mo r then [r] else []) = pending_poster (next SB mo r) /\
  (match next SB mo r with Waiting i => 1 | _ => 0 end = 0).
Proof. unfold next, contest_run, pending_poster, contest_msg. destruct SB; cbn; [|auto]. destruct (mo r) as [m|]; cbn; [|auto]. destruct (refresh_of m); auto. Qed.
Lemma stall_inv ls s : exec ls s -> ~ In FrontendAnswers ls ->
  (refreshing s = None -> known s = []) /\
  length (filter (contest_run SB mo) (recorded ls)) <= pending_poster (poster s) + pending_request s + length (contestChan s) + options (refreshing s) + slack ls.
Proof.
  intros X. induction X as [|ls s l s' X IH S]; intros NA; [cbn; auto|].
  assert (NA' : ~ In FrontendAnswers ls) by (intros I; apply NA, in_or_app; auto).
  destruct (IH NA') as [K B]. clear IH. destruct (invariant _ _ X) as (W & _ & C).
  unfold recorded, slack in *. rewrite flat_map_app, !filter_app, !app_length.
  destruct S; cbn [flat_map app filter failure length].
  1-4: fields; unfold pending_request in *; fields; split; [exact K|lia].
  - unfold pending_request in *. fields. rewrite H0 in B. split; [exact K|].
    destruct (next_pending r) as [Q1 Q2]. cbn [pending_poster] in B. destruct (next SB mo r); try lia.
  - unfold pending_request in *. fields. rewrite H in B. cbn in B. split; [exact K|]. rewrite nth_error_app2, Nat.sub_diag by auto. cbn. lia.
  - unfold pending_request in *. fields. rewrite H in B. split; [exact K|]. cbn in *. destruct (contest_msg m); lia.
  - unfold pending_request in *. fields. split; [exact K|]. destruct (poster s) as [|r m'|j]; try lia. rewrite nth_error_app1 by auto. lia.
  - pose proof (pending_le s i q Answered 1 W H) as L. rewrite H0 in L. specialize (L ltac:(destruct (contest_msg (about q)); lia)).
    fields. split; [exact K|]. unfold pending_request in *. fields. lia.
  - pose proof (pending_le s i q (match refresh_of (about q) with Some c => Sending c | None => Answered end) 0 W H) as L. rewrite H0 in L. unfold contest_msg in L.
    specialize (L ltac:(destruct (refresh_of (about q)); lia)).
    fields. split; [exact K|]. unfold pending_request in *. fields. lia.
  - pose proof (pending_le s i q Answered 1 W H) as L. rewrite H0 in L. specialize (L ltac:(lia)).
    fields. split; [exact K|]. unfold pending_request in *. fields. rewrite app_length. cbn [length]. lia.
  - unfold pending_request in *. fields. rewrite H, H0, H1 in B. split; [exact K|]. cbn in *. lia.
  - unfold pending_request in *. fields. rewrite H in B. split; [exact K|]. cbn in *.
    destruct (nth_error (requests s) i) as [q|]; [destruct (at_ q); [destruct (contest_msg (about q))| |]|]; lia.
  - rewrite (K H) in H1. discriminate.
  - unfold pending_request in *. fields. rewrite H, H0 in B. split; [discriminate|]. cbn [length options] in *. lia.
  - elim NA. apply in_or_app. cbn. auto.
  - rewrite (K H) in H0. destruct k1; discriminate.
  - rewrite (K H) in H0. destruct k1; discriminate.
Qed.
Lemma stalls ls s : exec ls s -> ~ In FrontendAnswers ls -> length (filter (contest_run SB mo) (recorded ls)) <= 3 + slack ls.
Proof.
  intros X NA. destruct (stall_inv _ _ X NA) as [_ B]. destruct (invariant _ _ X) as (_ & _ & C).
  assert (pending_poster (poster s) + pending_request s <= 1).
  { unfold pending_request, pending_poster. destruct (poster s) as [|r m|j]; [lia|destruct (contest_msg m); lia|].
    destruct (nth_error (requests s) j) as [q|]; [destruct (at_ q); [destruct (contest_msg (about q))| |]|]; lia. }
  assert (options (refreshing s) <= 1) by (destruct (refreshing s); cbn; lia). lia.
Qed.
Lemma stalled_step s l s' : stalled s -> step s l s' -> l <> FrontendAnswers -> l <> Breaks -> stalled s' /\ (forall r, l <> Records r).
Proof.
  intros (R & C & i & q & c & P & E & A) S N1 N2. unfold stalled.
  destruct S; fields; try congruence; try (split; [|discriminate]; split; [auto|]; split; [auto|]).
  1-4: eauto 10.
  - exists i, q, c. split; [auto|]. split; [|auto]. rewrite nth_error_app1; [auto|]. apply nth_error_Some. congruence.
  - exists i, q, c. rewrite upd_nth. destruct (Nat.eqb_spec i0 i) as [->|]; auto. congruence.
  - exists i, q, c. rewrite upd_nth. destruct (Nat.eqb_spec i0 i) as [->|]; auto. congruence.
  - destruct (contestChan s); [congruence|cbn in *; lia].
  - destruct (contestChan s); [congruence|cbn in *; lia].
Qed.
Lemma stalled_forever s ls s' : stalled s -> steps s ls s' -> ~ In FrontendAnswers ls -> ~ In Breaks ls -> stalled s' /\ recorded ls = [].
Proof.
  intros T X. induction X as [|ls s1 l s2 X IH S]; intros N1 N2; [auto|]. rewrite in_app_iff in N1, N2. cbn in N1, N2.
  destruct IH as [T1 R]; [tauto..|]. destruct (stalled_step _ _ _ T1 S) as [T2 NR]; [intros ->; tauto..|]. split; [auto|].
  unfold recorded in *. rewrite flat_map_app, R. destruct l; auto. elim (NR r); auto.
Qed.
Lemma exec_steps ls s ls' s' : exec ls s -> steps s ls' s' -> exec (ls ++ ls') s'.
Proof. intros X Y. induction Y; [rewrite app_nil_r; auto|]. rewrite app_assoc. econstructor; eauto. Qed.
Lemma exec_split l1 l2 s : exec (l1 ++ l2) s -> exists s1, exec l1 s1 /\ steps s1 l2 s.
Proof.
  revert s. induction l2 as [|l l2 IH] using rev_ind; intros s X.
  - rewrite app_nil_r in X. exists s. split; [auto|constructor].
  - rewrite app_assoc in X. inversion X as [E|ls s0 l0 s1 X0 S E].
    + destruct (l1 ++ l2); discriminate.
    + apply app_inj_tail in E as [-> ->]. destruct (IH _ X0) as (s2 & A & B). exists s2. split; [auto|]. econstructor; eauto.
Qed.
Lemma taken_few ls s ls' s' : exec ls s -> stalled s -> steps s ls' s' -> ~ In FrontendAnswers ls' -> ~ In Breaks ls' -> length (taken ls') <= 3.
Proof.
  intros X T Y N1 N2. destruct (stalled_forever _ _ _ T Y N1 N2) as [_ R]. destruct (order _ _ X) as (T1 & _). destruct (order _ _ (exec_steps _ _ _ _ X Y)) as (T2 & _ & L1 & L2).
  unfold taken, recorded in *. rewrite !flat_map_app, R, app_nil_r, T1, <- !app_assoc in T2. apply app_inv_head in T2. apply (f_equal (@length _)) in T2.
  rewrite !app_length in T2. destruct (relay s'); cbn in T2; lia.
Qed.

(* ---- the scoreboard ---- *)
Definition underway (c : string) (s : state) : Prop :=
  In c (contestChan s) \/ In (c, true) (known s) \/ (exists r m, poster s = Asking r m /\ refresh_of m = Some c) \/
  (exists i q, nth_error (requests s) i = Some q /\ refresh_of (about q) = Some c /\ (at_ q = Received \/ at_ q = Sending c)).
Lemma underway_step c s l s' : (forall q, In q (requests s) -> forall d, at_ q = Sending d -> refresh_of (about q) = Some d) ->
  underway c s -> step s l s' -> failure l = false -> l = Refreshes c \/ underway c s'.
Proof.
  intros WF U S F. unfold underway in *.
  destruct U as [U|[U|[(r0 & m0 & U & M)|(i0 & q0 & U & M & A)]]].
  - destruct S; fields; auto; try discriminate.
    + right. left. apply in_or_app. auto.
    + rewrite H0 in U. destruct U as [->|U]; [|auto]. right. right. left. apply is_known_in in H1. apply in_map_iff in H1 as ((d & b) & E & I). cbn in E. subst d.
      unfold mark. apply in_map_iff. exists (c, b). cbn. rewrite String.eqb_refl. auto.
    + rewrite H0 in U. destruct U as [->|U]; [auto|]. auto.
  - destruct S; fields; auto; try discriminate.
    + right. right. left. unfold mark. apply in_map_iff. exists (c, true). cbn. destruct (String.eqb_spec c c0) as [->|]; auto.
    + right. right. left. apply in_or_app. auto.
    + right. right. left. rewrite H0 in U. apply in_app_or in U. apply in_or_app. destruct U as [U|[U|U]]; auto. congruence.
    + rewrite H0 in U. apply in_app_or in U. destruct U as [U|[U|U]]; [|injection U as ->; auto|]; right; right; left; apply in_or_app; auto.
  - destruct S; fields; try discriminate; try congruence; try (right; right; right; left; eauto; fail).
    right. right. right. right. rewrite H in U. injection U as -> ->. exists (length (requests s)). eexists. rewrite nth_error_app2, Nat.sub_diag by auto. cbn. eauto.
  - destruct S; fields; try discriminate; try (right; right; right; right; eauto; fail).
    + right. right. right. right. exists i0, q0. rewrite nth_error_app1; [auto|]. apply nth_error_Some. congruence.
    + right. right. right. right. exists i0, q0. rewrite nth_error_app1; [auto|]. apply nth_error_Some. congruence.
    + right. right. right. right. exists i0. rewrite upd_nth. destruct (Nat.eqb_spec i i0) as [->|]; [|eauto]. rewrite U. eexists. split; [reflexivity|]. cbn.
      rewrite U in H. injection H as <-. rewrite M. auto.
    + destruct (Nat.eq_dec i i0) as [->|N].
      * rewrite U in H. injection H as <-. right. left. apply in_or_app. right. left. destruct A; congruence.
      * right. right. right. right. exists i0, q0. rewrite upd_nth. destruct (Nat.eqb_spec i i0); [congruence|auto].
Qed.
Lemma well_formed ls s : exec ls s -> forall q, In q (requests s) -> forall d, at_ q = Sending d -> refresh_of (about q) = Some d.
Proof.
  induction 1 as [|ls s l s' X IH S]; [cbn; tauto|].
  assert (UPD : forall A (l : list A) i x y, In y (upd l i x) -> In y l \/ y = x).
  { clear. induction l as [|a l IH]; intros [|i] x y; cbn; auto; intros [E|I]; auto. apply IH in I. tauto. }
  destruct S; fields; auto; intros q' I d E.
  - apply in_app_or in I as [I|[<-|[]]]; eauto. discriminate.
  - apply in_app_or in I as [I|[<-|[]]]; eauto. discriminate.
  - apply UPD in I as [I| ->]; eauto. discriminate.
  - apply UPD in I as [I| ->]; eauto. cbn in *. destruct (refresh_of (about q)); congruence.
  - apply UPD in I as [I| ->]; eauto. discriminate.
Qed.
Lemma underway_steps c ls0 s ls s' : exec ls0 s -> underway c s -> steps s ls s' -> (forall l, In l ls -> failure l = false) -> In (Refreshes c) ls \/ underway c s'.
Proof.
  intros X U Y. induction Y as [|ls s1 l s2 Y IH S]; intros F; [auto|].
  destruct IH as [I|U1]; [intros; apply F, in_or_app; auto|left; apply in_or_app; auto|].
  destruct (underway_step c s1 l s2 (well_formed _ _ (exec_steps _ _ _ _ X Y)) U1 S) as [->|U2]; [apply F, in_or_app; cbn; auto| |auto]. left. apply in_or_app. cbn. auto.
Qed.
Lemma idle_not_underway c s : idle s -> ~ underway c s.
Proof.
  intros (_ & _ & _ & _ & P & Q & C & K & _) [U|[U|[(r & m & U & _)|(i & q & U & _ & A)]]].
  - rewrite C in U. auto.
  - rewrite K in U. auto.
  - congruence.
  - apply nth_error_In, Q in U. destruct A; congruence.
Qed.
Lemma refreshed c r l1 l2 s : exec (l1 ++ Records r :: l2) s -> in_contest SB mo c r -> (forall l, In l l2 -> failure l = false) -> In (Refreshes c) l2 \/ underway c s.
Proof.
  intros X (E1 & m & E2 & E3) F. change (l1 ++ Records r :: l2) with (l1 ++ [Records r] ++ l2) in X. rewrite app_assoc in X. apply exec_split in X as (s1 & X & Y).
  assert (U : underway c s1).
  { inversion X as [E|ls s0 l0 s2 X0 S E]; [destruct l1; discriminate|]. apply app_inj_tail in E as [-> ->]. subst. inversion S; subst.
    right. right. left. unfold next. fields. rewrite E2. eauto. }
  eapply underway_steps; eauto.
Qed.
(* Completion. *)
Lemma idle_dec s : idle (run := run) s \/ ~ idle s.
Proof.
  unfold idle. destruct (callers s); [|right; intros (E & _); discriminate]. destruct (finishedRuns s); [|right; intros (_ & E & _); discriminate].
  destruct (relay s); [right; intros (_ & _ & E & _); discriminate|]. destruct (finished s); [|right; intros (_ & _ & _ & E & _); discriminate].
  destruct (poster s); [|right; intros (_ & _ & _ & _ & E & _); discriminate|right; intros (_ & _ & _ & _ & E & _); discriminate].
  destruct (contestChan s); [|right; intros (_ & _ & _ & _ & _ & _ & E & _); discriminate]. destruct (known s); [|right; intros (_ & _ & _ & _ & _ & _ & _ & E & _); discriminate].
  destruct (refreshing s); [right; intros (_ & _ & _ & _ & _ & _ & _ & _ & E); discriminate|].
  assert (Q : (forall q, In q (requests s) -> at_ q = Answered) \/ ~ (forall q, In q (requests s) -> at_ q = Answered)).
  { clear. induction (requests s) as [|q l IH]; [left; intros ? []|]. destruct IH as [A|N]; [|right; intros A; apply N; intros; apply A; cbn; auto].
    destruct (at_ q) eqn:E; [right; intros B; specialize (B q (or_introl eq_refl)); congruence..|left; intros q' [<-|I]; auto]. }
  destruct Q; [left; auto 12|right; tauto].
Qed.
Notation settles := (settles SB mo).
Lemma settles_steps s ls s' : settles s ls s' -> steps s ls s'.
Proof. induction 1; econstructor; eauto. Qed.
Lemma settles_cons s l s1 ls s2 : step s l s1 -> ~ begins s l s1 -> settles s1 ls s2 -> settles s (l :: ls) s2.
Proof.
  intros S N Y. change (l :: ls) with ([l] ++ ls). induction Y; [change ([l] ++ []) with ([] ++ [l]); econstructor; eauto; constructor|]. rewrite app_assoc. econstructor; eauto.
Qed.
Lemma completes ls s : exec ls s -> exists ls' s', settles s ls' s' /\ idle s' /\ (forall l, In l ls' -> failure l = false).
Proof.
  remember (left s) as n eqn:N. revert ls s N. induction n as [n IH] using lt_wf_ind. intros ls s -> X.
  destruct (idle_dec s) as [I|NI]; [exists [], s; split; [constructor|split; [auto|intros ? []]]|].
  destruct (not_stuck _ _ X NI) as (l & s1 & S & NB & F).
  destruct (IH (left s1) (decreases _ _ _ _ X S NB) (ls ++ [l]) s1 eq_refl) as (ls' & s' & Y & I & F'); [econstructor; eauto|].
  exists (l :: ls'), s'. split; [eapply settles_cons; eauto|split; [auto|]]. intros x [<-|J]; auto.
Qed.
Lemma settles_bound ls s ls' s' : exec ls s -> settles s ls' s' -> length ls' + left s' <= left s.
Proof.
  intros X Y. induction Y as [|ls' s1 l s2 Y IH S N]; [auto|]. pose proof (decreases _ _ _ _ (exec_steps _ _ _ _ X (settles_steps _ _ _ Y)) S N).
  rewrite app_length. cbn [length]. lia.
Qed.

(* ---- nothing spurious ---- *)
Lemma upd_in {A} (l : list A) i x y : In y (upd l i x) -> In y l \/ y = x.
Proof. revert i. induction l as [|a l IH]; intros [|i]; cbn; auto; intros [E|I]; auto. apply IH in I. tauto. Qed.
Lemma genuine ls s : exec ls s ->
  (forall r m, poster s = Asking r m -> In r (recorded ls) /\ SB = true /\ mo r = Some m) /\
  (forall q r, In q (requests s) -> from q = Some r -> In r (recorded ls) /\ SB = true /\ mo r = Some (about q)).
Proof.
  induction 1 as [|ls s l s' X (P & Q) S]; [split; cbn; [discriminate|tauto]|].
  unfold recorded in *. rewrite flat_map_app.
  assert (UP : forall i q t, nth_error (requests s) i = Some q -> forall q' r, In q' (upd (requests s) i {| from := from q; about := about q; at_ := t |}) -> from q' = Some r ->
    In r (flat_map (fun l : label => match l with Records r => [r] | _ => [] end) ls) /\ SB = true /\ mo r = Some (about q')).
  { intros i q t E q' r I F. apply upd_in in I as [I| ->]; [eauto|]. cbn in *. apply nth_error_In in E. apply (Q q); auto. }
  destruct S; fields; cbn [flat_map app]; rewrite ?app_nil_r; eauto.
  - split; [|intros q r' I F; destruct (Q q r' I F); split; [apply in_or_app|]; auto]. intros r' m E. unfold next in E. destruct SB eqn:B; [|discriminate]. destruct (mo r) eqn:M; [|discriminate]. injection E as <- <-.
    split; [apply in_or_app; cbn; auto|auto].
  - split; [discriminate|]. intros q r' I F. apply in_app_or in I as [I|[<-|[]]]; [eauto|]. cbn in *. injection F as <-. auto.
  - split; [discriminate|auto].
  - split; [auto|]. intros q r' I F. apply in_app_or in I as [I|[<-|[]]]; [eauto|]. discriminate.
  - split; [discriminate|auto].
  - split; [discriminate|auto].
Qed.
Definition refreshes_c (c : string) (l : label) : bool := match l with Refreshes d => (d =? c)%string | _ => false end.
Definition notes_c (c : string) (l : label) : bool := match l with Notes _ d => (d =? c)%string | _ => false end.
Lemma no_more c ls s : exec ls s ->
  length (filter (refreshes_c c) ls) + length (filter (String.eqb c) (contestChan s)) + length (filter (fun k => (fst k =? c)%string && snd k) (known s)) <= length (filter (notes_c c) ls).
Proof.
  induction 1 as [|ls s l s' X IH S]; [cbn; auto|]. destruct (invariant _ _ X) as (_ & D & _).
  rewrite !filter_app, !app_length.
  destruct S; fields; cbn [filter refreshes_c notes_c length]; try lia.
  - rewrite filter_app, app_length. cbn [filter]. rewrite (String.eqb_sym c0 c). destruct (c =? c0)%string; cbn; lia.
  - rewrite H0 in IH. cbn [filter] in IH. rewrite (String.eqb_sym c c0) in IH. unfold mark.
    enough (length (filter (fun k => (fst k =? c)%string && snd k) (map (fun x => if (fst x =? c0)%string then (c0, true) else x) (known s))) <=
            length (filter (fun k => (fst k =? c)%string && snd k) (known s)) + if (c0 =? c)%string then 1 else 0) by (destruct (c0 =? c)%string; cbn [length] in IH; lia).
    clear - D. induction (known s) as [|[d b] k IH]; [cbn; lia|]. cbn [map fst] in D. inversion D as [|? ? NI D']; subst. specialize (IH D'). cbn [map filter fst snd].
    destruct (String.eqb_spec d c0) as [->|N]; cbn [fst snd].
    + assert (E : map (fun x : string * bool => if (fst x =? c0)%string then (c0, true) else x) k = k).
      { rewrite <- (map_id k) at 2. apply map_ext_in. intros x I. destruct (String.eqb_spec (fst x) c0) as [E|]; auto. elim NI. apply in_map_iff. eauto. }
      rewrite E. destruct (c0 =? c)%string; cbn [andb]; destruct b; cbn [length]; lia.
    + destruct ((d =? c)%string && b); cbn [length]; lia.
  - rewrite H0 in IH. cbn [filter] in IH. rewrite (String.eqb_sym c c0) in IH. rewrite filter_app, app_length. cbn [filter fst snd]. rewrite andb_false_r. cbn [length].
    destruct (c0 =? c)%string; cbn [length] in *; lia.
  - rewrite H0 in IH. rewrite filter_app, app_length in *. cbn [filter fst snd] in IH. rewrite andb_false_r in IH. lia.
  - rewrite H0 in IH. rewrite filter_app, app_length in *. cbn [filter fst snd] in IH. rewrite andb_true_r in IH. destruct (c0 =? c)%string; cbn [length] in *; lia.
Qed.
Lemma noted ls s i c : exec ls s -> In (Notes i c) ls -> exists q, nth_error (requests s) i = Some q /\ refresh_of (about q) = Some c.
Proof.
  induction 1 as [|ls s l s' X IH S]; [intros []|]. pose proof (well_formed _ _ X) as WF.
  assert (UP : forall j q t, nth_error (requests s) j = Some q -> (exists q, nth_error (requests s) i = Some q /\ refresh_of (about q) = Some c) ->
     exists q', nth_error (upd (requests s) j {| from := from q; about := about q; at_ := t |}) i = Some q' /\ refresh_of (about q') = Some c).
  { intros j q t E (q' & E' & R). rewrite upd_nth. destruct (Nat.eqb_spec j i) as [->|]; [|eauto]. rewrite E. eexists. split; [reflexivity|]. cbn. congruence. }
  assert (AP : forall x, (exists q, nth_error (requests s) i = Some q /\ refresh_of (about q) = Some c) -> exists q', nth_error (requests s ++ [x]) i = Some q' /\ refresh_of (about q') = Some c).
  { intros x (q' & E' & R). exists q'. rewrite nth_error_app1; [auto|]. apply nth_error_Some. congruence. }
  rewrite in_app_iff. destruct S; fields; intros [I|I]; auto; try (destruct I as [I|[]]; discriminate).
  destruct I as [I|[]]. injection I as -> ->. rewrite upd_nth, Nat.eqb_refl, H. eexists. split; [reflexivity|]. cbn. apply WF; auto. eapply nth_error_In; eauto.
Qed.
End Proofs.

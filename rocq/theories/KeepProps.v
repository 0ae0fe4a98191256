(* C90: no run the grader was told of is forgotten. *)
From Coq Require Import String List Bool ZArith Lia.
From Verif Require Import FeModel FeSpec FeProofs FeProps KeepModel KeepSpec KeepProofs.
Import ListNotations.
Local Open Scope list_scope.

Section Props.
Variable guid_of : Z -> string.
Variable slow : Z -> bool.
Notation sys_step := (sys_step guid_of slow).
Notation sys_steps := (sys_steps guid_of slow).

(* Whatever happens, crashes and restarts included: a run the grader was told of, and
   about which no error was reported since, has its result in the database, or the
   grader has it. *)
Theorem C90_kept : forall hs x id, sys_steps sys0 hs x -> told hs id -> rows x id = Recorded \/ in_hand x id.
Proof. intros hs x id S T. eapply kept_steps; [exact S| |exact T]. split; discriminate. Qed.

(* So when the grader is at rest, the result is in the database. *)
Theorem C90_at_rest : forall hs x id, sys_steps sys0 hs x -> told hs id -> at_rest x -> rows x id = Recorded.
Proof.
  intros hs x id S T [W N]. destruct (C90_kept _ _ _ S T) as [|[I|(i & ids & cur & todo & I & M)]]; [auto|rewrite W in I; destruct I|].
  specialize (N _ _ _ I). discriminate.
Qed.

(* A restart makes up for what went wrong: of the runs that were not ready and whose
   source is stored, every one is recorded, unless something goes wrong again.  While
   nothing else comes in, the grader comes to rest after at most 1+3n steps, and it can
   go on until then. *)
Theorem C90_recovers : forall hs x i pending x1 hs1 x2, sys_steps sys0 hs x ->
  sys_step x (Serves (Restarts i pending)) x1 -> (forall id, In id pending -> files (service x) (guid_of id) <> None) ->
  sys_steps x1 hs1 x2 -> (forall h, In h hs1 -> fine h /\ (forall id, h <> Stores id) /\ (forall j r, h <> Serves (Arrives j r))) ->
  (forall id, In id pending <-> rows x id = Pending) /\
  length hs1 <= 1 + 3 * length pending /\
  (at_rest x2 -> forall id, rows x2 id <> Pending) /\
  (~ at_rest x2 -> exists h x3, sys_step x2 h x3 /\ fine h /\ (forall id, h <> Stores id) /\ (forall j r, h <> Serves (Arrives j r))).
Proof.
  intros hs x i pending x1 hs1 x2 S0 R Fi S F. destruct (restart_quiet _ _ _ _ _ _ R Fi) as (Q1 & L1 & P1 & H1).
  assert (FC : Forall calm_happening hs1).
  { apply Forall_forall. intros h M. destruct (F _ M) as (A & B & C). split; [auto|]. destruct h as [[]| | |]; auto; [elim (C i0 r)|elim (B id)]; reflexivity. }
  destruct (quiet_run _ _ _ _ _ S FC Q1) as (Q2 & L2 & P2). split; [|split; [lia|split]].
  - inversion R; subst; [auto|]. match goal with X : forall i0 p0, Restarts i pending <> Restarts i0 p0 |- _ => elim (X _ _ eq_refl) end.
  - intros [W N] id HP. pose proof (P2 _ HP) as HP1. assert (T : told_since hs1 id true true = true).
    { clear - FC. induction hs1 as [|h hs1 IH]; [reflexivity|]. inversion FC; subst. destruct H1 as [A B]. destruct h as [[]| | |]; cbn in *; try contradiction; auto. rewrite orb_true_r. auto. }
    destruct (kept_steps _ _ _ _ _ id S true true) as [|[I|(j & ids & cur & todo & I & M)]]; [|exact T|congruence|rewrite W in I; destruct I|specialize (N _ _ _ I); discriminate].
    split; [congruence|]. intros _. right. apply H1. auto.
  - intros NR. destruct (quiet_goes _ slow _ Q2 NR) as (h & x3 & [A B] & S3). exists h, x3. split; [auto|]. split; [auto|]. split; intros; intros ->; exact B.
Qed.

(* Nothing else does: a run that is not ready and that the grader does not have stays
   so, until the grader is started again, or is asked for the run again. *)
Theorem C90_waits : forall hs x hs1 x1 id, sys_steps sys0 hs x -> sys_steps x hs1 x1 ->
  rows x id = Pending -> ~ In id (work x) -> (forall i r t, nth_error (threads (service x)) i = Some (r, t) -> t <> Gone -> ~ about id r) ->
  (forall i r, In (Serves (Arrives i r)) hs1 -> ~ about id r) -> (forall i p, ~ In (Serves (Restarts i p)) hs1) -> ~ In (Stores id) hs1 ->
  rows x1 id = Pending /\ ~ In id (work x1).
Proof.
  intros hs x hs1 x1 id S0 S P W N A R ST.
  assert (AB : forall r, ~ about id r -> ~ In id (want r)) by (intros [j b|l ids|ids] X; cbn in *; intuition congruence).
  pose proof (sys_steps_fe _ _ _ _ _ S0 [] (exec_nil _ _ _)) as E.
  destruct (alone_steps _ _ _ _ _ id S _ E) as [Q [W1 _]]; [split; [auto|intros i r t T G; eapply AB, N; eauto]|intros i r M; eapply AB, A; exact M|auto|auto|].
  split; [congruence|auto].
Qed.

Lemma queues_in i id c p es : In (Queues i id c p) es -> In (id, c, p) (queued_by i es).
Proof.
  induction es as [|e es IH]; [intros []|]. intros [->|M].
  - cbn. rewrite Nat.eqb_refl. left. reflexivity.
  - specialize (IH M). destruct e; cbn; auto. destruct (Nat.eqb i i0); cbn; auto.
Qed.
Lemma work_queued x hs x' id : sys_steps x hs x' -> (In id (work x') -> In id (work x) \/ exists i c p, In (Serves (Queues i id c p)) hs) /\
  (rows x' id = Recorded -> rows x id = Recorded \/ In id (work x) \/ exists i c p, In (Serves (Queues i id c p)) hs).
Proof.
  induction 1 as [x|x h x1 hs x2 S1 S [IH1 IH2]]; [auto|].
  assert (M : (In id (work x1) -> In id (work x) \/ exists i c p, h = Serves (Queues i id c p)) /\ (rows x1 id = Recorded -> rows x id = Recorded \/ In id (work x))).
  { inversion S1; subst; cbn; auto.
    - split; [|auto]. rewrite in_app_iff. cbn. intros [M|[->|[]]]; eauto.
    - split; [tauto|auto].
    - split; [auto|]. unfold set_row. destruct (Z.eqb_spec id id0); [discriminate|auto].
    - split; [left; eapply drop_in; eauto|]. unfold set_row. destruct (Z.eqb_spec id id0) as [->|]; [right; eapply nth_error_In; eauto|auto].
    - split; [left; eapply drop_in; eauto|auto]. }
  destruct M as [M1 M2]. split.
  - intros H. destruct (IH1 H) as [X|(i & c & p & X)]; [|right; exists i, c, p; right; auto]. destruct (M1 X) as [|(i & c & p & ->)]; [auto|]. right. exists i, c, p. left. auto.
  - intros H. destruct (IH2 H) as [X|[X|(i & c & p & X)]]; [destruct (M2 X); auto| |right; right; exists i, c, p; right; auto].
    destruct (M1 X) as [|(i & c & p & ->)]; [auto|]. right. right. exists i, c, p. left. auto.
Qed.
Lemma events_in e hs : In (Serves e) hs <-> In e (events hs).
Proof. induction hs as [|h hs IH]; cbn; [tauto|]. destruct h; cbn; rewrite <- IH; intuition congruence. Qed.

(* Nor does a restart, if the source was never sent: a run whose submission no
   /run/new/ was about is never queued, and its row never becomes ready. *)
Theorem C90_sourceless : forall hs x id, sys_steps sys0 hs x ->
  (forall i id' body, In (Serves (Arrives i (NewRun id' body))) hs -> guid_of id' <> guid_of id) ->
  ~ In id (work x) /\ rows x id <> Recorded.
Proof.
  intros hs x id S A. pose proof (inv_exec _ _ _ _ _ (sys_steps_fe _ _ _ _ _ S [] (exec_nil _ _ _))) as I. cbn [app] in I.
  assert (NF : files (service x) (guid_of id) = None).
  { destruct (files (service x) (guid_of id)) eqn:F; [|auto]. exfalso.
    assert (G : In (guid_of id) (created (events hs))) by (apply (i_made _ _ _ _ I); congruence). apply created_in in G. destruct G as (i & G).
    destruct (i_file _ _ _ _ I _ _ G) as (id1 & b & t & c & T & E & _). pose proof (i_arr _ _ _ _ I _ _ _ T) as X. cbn in X. apply events_in in X. eapply A; eauto. }
  assert (NQ : forall i c p, ~ In (Serves (Queues i id c p)) hs).
  { intros i c p X. apply events_in, queues_in in X. destruct (i_src _ _ _ _ I _ _ _ _ X) as (c' & F & _). congruence. }
  destruct (work_queued _ _ _ id S) as [W R]. split.
  - intros M. destruct (W M) as [[]|(i & c & p & X)]. eapply NQ; eauto.
  - intros M. destruct (R M) as [X|[[]|(i & c & p & X)]]; [discriminate X|]. eapply NQ; eauto.
Qed.
End Props.

(* ---- Concrete histories ---- *)
Definition g0 (id : Z) : string := if (id =? 1)%Z then "aa"%string else "bb"%string.
Definition sl0 (id : Z) : bool := false.
Lemma snoc_sys x hs x1 h x2 : KeepModel.sys_steps g0 sl0 x hs x1 -> KeepModel.sys_step g0 sl0 x1 h x2 -> KeepModel.sys_steps g0 sl0 x (hs ++ [h]) x2.
Proof. intros H S. eapply sys_app; [exact H|]. econstructor; [exact S|constructor]. Qed.
(* A submission is stored and sent, and its run queued. *)
Definition sent : list happening :=
  [Stores 1; Serves (Arrives 0 (NewRun 1 "m")); Serves Tau; Serves (Creates 0 "aa"); Serves Tau; Serves Tau; Serves Tau; Serves (Queues 0 1 "m" 1)]%Z.
Ltac one tac := eapply sys_cons; [tac|]; cbn [service rows work move set_file set_err upd app files threads FeModel.err].
Ltac fe c := eapply serves; [eapply c; cbn; reflexivity|discriminate|discriminate].
Lemma sent_ok : exists x, KeepModel.sys_steps g0 sl0 sys0 sent x /\ threads (service x) = [(NewRun 1 "m", Injecting None [])] /\ rows x 1%Z = Pending /\ work x = [1%Z] /\ files (service x) "aa"%string = Some "m"%string /\ (forall id, rows x id = Pending <-> id = 1%Z).
Proof.
  eexists. split; [|split; [|split; [|split; [|split]]]].
  - unfold sent, sys0. one ltac:(eapply stores).
    one ltac:(eapply serves; [cbn [service]; refine (arrives g0 sl0 _ (NewRun 1 "m") _); exact Logic.I|discriminate|discriminate]).
    one ltac:(eapply serves; [eapply (new_lookup _ _ _ 0); reflexivity|discriminate|discriminate]).
    one ltac:(eapply serves; [eapply (new_create g0 sl0 _ 0 1%Z "m"%string); reflexivity|discriminate|discriminate]).
    one ltac:(eapply serves; [eapply (new_copy _ _ _ 0); reflexivity|discriminate|discriminate]).
    one ltac:(eapply serves; [eapply (new_copied _ _ _ 0); reflexivity|discriminate|discriminate]).
    one ltac:(eapply serves; [eapply (inject_reads _ _ _ 0); reflexivity|discriminate|discriminate]).
    one ltac:(eapply queues_run; [eapply (inject_queues g0 sl0 _ 0 (NewRun 1 "m") 1%Z); reflexivity|cbn; discriminate]).
    apply sys_nil.
  - reflexivity.
  - reflexivity.
  - reflexivity.
  - reflexivity.
  - intros id. cbn. unfold set_row. destruct (Z.eqb_spec id 1); [tauto|]. split; [discriminate|contradiction].
Qed.
(* The grader was told of it. *)
Example sent_told : told sent 1. Proof. reflexivity. Qed.
(* It dies, is started again, and records the run: the hypotheses of C90_kept and C90_recovers. *)
Definition again : list happening := [Serves Tau; Serves (Queues 1 1 "m" 1); Serves Tau; Records 1]%Z.
Lemma again_ok : exists x x1 x2, KeepModel.sys_steps g0 sl0 sys0 sent x /\ KeepModel.sys_step g0 sl0 x (Serves (Restarts 1 [1%Z])) x1 /\
  (forall id, In id [1%Z] -> files (service x) (g0 id) <> None) /\ KeepModel.sys_steps g0 sl0 x1 again x2 /\ at_rest x2 /\ rows x2 1%Z = Recorded.
Proof.
  destruct sent_ok as (x & S & T & R & W & F & P). exists x.
  destruct x as [sv rw wk]. cbn [service rows work] in *. destruct sv as [fs ths er]. cbn [threads files] in *. subst ths wk.
  eexists. eexists. split; [exact S|]. split; [|split; [|split; [|split]]].
  - eapply restarts; [cbn [service]; refine (crashes g0 sl0 _ [1%Z] _); constructor; [intros []|constructor]|]. cbn. intros id. rewrite P. intuition.
  - intros id [<-|[]]. unfold g0. cbn. congruence.
  - unfold again. cbn [service rows work threads map fst app].
    one ltac:(eapply serves; [eapply (inject_reads _ _ _ 1); [reflexivity|exact F]|discriminate|discriminate]).
    one ltac:(eapply queues_run; [eapply (inject_queues g0 sl0 _ 1 (Startup [1%Z]) 1%Z); reflexivity|cbn; rewrite R; discriminate]).
    one ltac:(eapply serves; [eapply (start_done _ _ _ 1); reflexivity|discriminate|discriminate]).
    one ltac:(eapply (records _ _ _ 0); reflexivity).
    apply sys_nil.
  - split; [reflexivity|]. intros i r t. cbn. destruct i as [|[|i]]; cbn; [intros X; injection X as <- <-; reflexivity|intros X; injection X as <- <-; reflexivity|destruct i; discriminate].
  - reflexivity.
Qed.
Example again_told : told (sent ++ [Serves (Restarts 1 [1%Z])] ++ again) 1. Proof. reflexivity. Qed.

(* Refuted: what was queued is recorded once the grader is at rest.  If the UPDATE
   fails, nobody tries again. *)
Theorem C90_update_lost_refuted : ~ forall hs x i id c p, KeepModel.sys_steps g0 sl0 sys0 hs x -> In (Serves (Queues i id c p)) hs -> at_rest x -> rows x id = Recorded.
Proof.
  intros H. destruct sent_ok as (x & S & T & R & W & F & P).
  destruct x as [sv rw wk]. cbn [service rows work] in *. destruct sv as [fs ths er]. cbn [threads files] in *. subst ths wk.
  assert (S1 : exists x1, KeepModel.sys_steps g0 sl0 sys0 (sent ++ [Serves (Answers 0 200%Z); Loses 1%Z]) x1 /\ at_rest x1 /\ rows x1 1%Z = Pending).
  { eexists. split; [|split].
    - eapply sys_app; [exact S|].
      one ltac:(eapply serves; [eapply (new_done _ _ _ 0); reflexivity|discriminate|discriminate]).
      one ltac:(eapply (loses _ _ _ 0); reflexivity). apply sys_nil.
    - split; [reflexivity|]. intros i r t. cbn. destruct i as [|i]; cbn; [intros X; injection X as <- <-; reflexivity|destruct i; discriminate].
    - exact R. }
  destruct S1 as (x1 & S1 & A & R1). pose proof (H _ _ 0 1%Z "m"%string 1%Z S1) as X. rewrite R1 in X. discriminate X; [|exact A].
  apply in_app_iff. left. unfold sent. cbn. tauto.
Qed.

(* A run in the database that the website never sent: skipped at every start (the
   hypotheses of C90_waits and C90_sourceless). *)
Example never_sent : exists x, KeepModel.sys_steps g0 sl0 sys0 [Stores 2; Serves (Restarts 0 [2]); Serves (Skips 0 2); Serves Tau]%Z x /\ rows x 2%Z = Pending /\ at_rest x.
Proof.
  eexists. split; [|split].
  - unfold sys0. one ltac:(eapply stores).
    one ltac:(eapply restarts; [cbn [service]; refine (crashes g0 sl0 _ [2%Z] _); constructor; [intros []|constructor]|cbn; intros id; unfold set_row; destruct (Z.eqb_spec id 2); split; intros X; [reflexivity|auto|destruct X as [X|[]]; congruence|discriminate]]).
    one ltac:(eapply serves; [eapply (start_skips _ _ _ 0); reflexivity|discriminate|discriminate]).
    one ltac:(eapply serves; [eapply (start_done _ _ _ 0); reflexivity|discriminate|discriminate]).
    apply sys_nil.
  - reflexivity.
  - split; [reflexivity|]. intros i r t. cbn. destruct i as [|i]; cbn; [intros X; injection X as <- <-; reflexivity|destruct i; discriminate].
Qed.

Print Assumptions C90_kept.
Print Assumptions C90_at_rest.
Print Assumptions C90_recovers.
Print Assumptions C90_waits.
Print Assumptions C90_sourceless.
Print Assumptions C90_update_lost_refuted.

(* What is in the grader's hands stays there until it is recorded. *)
From Coq Require Import String List Bool ZArith Lia.
From Verif Require Import FeModel FeSpec FeProofs KeepModel KeepSpec.
Import ListNotations.
Local Open Scope list_scope.

Lemma in_drop {A} (l : list A) n x y : nth_error l n = Some x -> In y l -> y = x \/ In y (drop_nth n l).
Proof.
  revert n. induction l as [|a l IH]; intros [|n] N H; cbn in *; try discriminate; try contradiction.
  - injection N as <-. destruct H; auto.
  - destruct H as [<-|H]; [auto|]. destruct (IH _ N H); auto.
Qed.
Lemma drop_in {A} (l : list A) n y : In y (drop_nth n l) -> In y l.
Proof. revert n. induction l as [|a l IH]; intros [|n]; cbn; auto. intros [<-|H]; eauto. Qed.
Lemma drop_length {A} (l : list A) n x : nth_error l n = Some x -> length l = S (length (drop_nth n l)).
Proof. revert n. induction l as [|a l IH]; intros [|n] N; cbn in *; try discriminate; [auto|]. rewrite (IH _ N). reflexivity. Qed.

Section Keep.
Variable guid_of : Z -> string.
Variable slow : Z -> bool.
Notation step := (FeModel.step guid_of slow).
Notation sys_step := (sys_step guid_of slow).
Notation sys_steps := (sys_steps guid_of slow).

(* The goroutine of the start has the run in its list. *)
Definition listed (s : state) (id : Z) : Prop := exists i ids cur todo, nth_error (threads s) i = Some (Startup ids, Injecting cur todo) /\ In id todo.

Lemma listed_step s e s' id : step s e s' -> listed s id -> listed s' id \/ (exists i, e = Skips i id) \/ (exists i src p, e = Queues i id src p) \/ (exists i pending, e = Restarts i pending).
Proof.
  intros S (k & l & cur & todo & T & M).
  assert (KEEP : forall i r t0 (f : string -> option string) b, nth_error (threads s) i <> Some (Startup l, Injecting cur todo) ->
    listed {| files := f; threads := upd (threads s) i (r, t0); err := b |} id).
  { intros i r t0 f b N. exists k, l, cur, todo. cbn. rewrite nth_upd. destruct (Nat.eqb_spec i k) as [->|]; [contradiction|auto]. }
  inversion S; subst; clear S; unfold move, set_file, set_err; cbn [files threads FeModel.err]; try (left; apply KEEP; congruence).
  - left. exists k, l, cur, todo. cbn. rewrite nth_snoc. destruct (Nat.eqb_spec k (length (threads s))) as [->|]; [|auto].
    assert (nth_error (threads s) (length (threads s)) = None) by (apply nth_error_None; auto). congruence.
  - destruct (Nat.eq_dec i k) as [->|N].
    + rewrite T in H. injection H as -> -> ->. destruct M as [->|M]; [eauto|]. left. exists k, ids, None, todo0. cbn. rewrite nth_upd, Nat.eqb_refl, T. auto.
    + left. exists k, l, cur, todo. cbn. rewrite nth_upd. destruct (Nat.eqb_spec i k); [contradiction|auto].
  - destruct (Nat.eq_dec i k) as [->|N].
    + rewrite T in H. injection H as -> -> ->. destruct M.
    + left. exists k, l, cur, todo. cbn. rewrite nth_upd. destruct (Nat.eqb_spec i k); [contradiction|auto].
  - destruct (Nat.eq_dec i k) as [->|N].
    + rewrite T in H. injection H as <- -> ->. left. exists k, l, (Some c), (id0 :: todo0). cbn. rewrite nth_upd, Nat.eqb_refl, T. auto.
    + left. exists k, l, cur, todo. cbn. rewrite nth_upd. destruct (Nat.eqb_spec i k); [contradiction|auto].
  - destruct (Nat.eq_dec i k) as [->|N].
    + rewrite T in H. injection H as <- -> ->. destruct M as [->|M]; [right; right; left; eauto|]. left. exists k, l, None, todo0. cbn. rewrite nth_upd, Nat.eqb_refl, T. auto.
    + left. exists k, l, cur, todo. cbn. rewrite nth_upd. destruct (Nat.eqb_spec i k); [contradiction|auto].
  - right. right. right. eauto.
Qed.
Lemma restart_lists s i pending s' id : step s (Restarts i pending) s' -> In id pending -> listed s' id.
Proof.
  intros S H. inversion S; subst. exists (length (threads s)), pending, None, pending. cbn. split; [|auto].
  rewrite nth_snoc, map_length, Nat.eqb_refl. reflexivity.
Qed.

Definition kept (x : system) (id : Z) (known told : bool) : Prop :=
  (known = true -> rows x id <> Absent) /\ (told = true -> rows x id = Recorded \/ in_hand x id).
Lemma kept_steps x hs x' id : sys_steps x hs x' -> forall known told, kept x id known told -> told_since hs id known told = true -> rows x' id = Recorded \/ in_hand x' id.
Proof.
  induction 1 as [x|x h x1 hs x2 S1 S IH]; intros known told [K T] H; [auto|].
  assert (L : forall e s', service x1 = s' -> step (service x) e s' -> (forall i, e <> Skips i id) -> (forall i src p, e <> Queues i id src p) -> (forall i p, e <> Restarts i p) ->
    rows x1 = rows x -> (In id (work x) -> In id (work x1)) -> kept x1 id known told).
  { intros e s' E ST N1 N2 N3 R W. split; rewrite R; [auto|]. intros HT. destruct (T HT) as [|[I|I]]; [auto|right; left; auto|].
    right. right. destruct (listed_step _ _ _ _ ST I) as [Y|[(i & Y)|[(i & sr & p & Y)|(i & p & Y)]]]; [rewrite E; exact Y|elim (N1 _ Y)|elim (N2 _ _ _ Y)|elim (N3 _ _ Y)]. }
  destruct S1; cbn [told_since] in H.
  - destruct (Z.eqb_spec id0 id) as [->|N]; cbn in H.
    + eapply IH; [|exact H]. split; [auto|]. intros _. right. left. cbn. apply in_app_iff. cbn. auto.
    + eapply IH; [|exact H]. eapply L; [reflexivity|exact H0|congruence|congruence|congruence|reflexivity|]. cbn. rewrite in_app_iff. auto.
  - eapply IH; [|exact H]. split; [auto|]. cbn. intros HK. destruct (rows x id) eqn:R; [elim (K HK); auto| |auto]. right. right. cbn. eapply restart_lists; [exact H0|]. apply H1. auto.
  - assert (X : kept {| service := s'; rows := rows x; work := work x |} id known told \/ exists i, e = Skips i id).
    { destruct e; try (left; eapply L; [reflexivity|exact H0|congruence|intros; congruence|intros; congruence|reflexivity|auto]; fail).
      destruct (Z.eq_dec id0 id) as [->|N]; [eauto|]. left. eapply L; [reflexivity|exact H0|congruence|congruence|congruence|reflexivity|auto]. }
    destruct X as [X|(i & ->)].
    + destruct e; try (eapply IH; [exact X|exact H]; fail).
      * elim (H1 i id0 source p). reflexivity.
      * destruct (Z.eqb_spec id0 id) as [->|N]; cbn in H; [|eapply IH; [exact X|exact H]]. eapply IH; [|exact H]. split; [exact (proj1 X)|discriminate].
      * elim (H2 i pending). reflexivity.
    + rewrite Z.eqb_refl in H. cbn in H. eapply IH; [|exact H]. split; [exact K|discriminate].
  - destruct (Z.eqb_spec id0 id) as [->|N].
    + eapply IH; [|exact H]. split; [|discriminate]. intros _. cbn. unfold set_row. rewrite Z.eqb_refl. discriminate.
    + eapply IH; [|exact H]. assert (R : set_row (rows x) id0 Pending id = rows x id) by (unfold set_row; destruct (Z.eqb_spec id id0); congruence). split; cbn; rewrite R; auto.
  - eapply IH; [|exact H]. destruct (Z.eq_dec id id0) as [->|N].
    + assert (R : set_row (rows x) id0 Recorded id0 = Recorded) by (unfold set_row; rewrite Z.eqb_refl; auto). split; cbn; rewrite R; [discriminate|auto].
    + assert (R : set_row (rows x) id0 Recorded id = rows x id) by (unfold set_row; destruct (Z.eqb_spec id id0); congruence).
      split; cbn; rewrite R; [auto|]. intros HT. destruct (T HT) as [|[I|I]]; [auto| |right; right; exact I]. right. left. cbn. destruct (in_drop _ _ _ _ H0 I); [contradiction|auto].
  - destruct (Z.eqb_spec id0 id) as [->|N]; cbn in H.
    + eapply IH; [|exact H]. split; [exact K|discriminate].
    + eapply IH; [|exact H]. split; [exact K|]. intros HT. destruct (T HT) as [|[I|I]]; [auto| |right; right; exact I]. right. left. cbn. destruct (in_drop _ _ _ _ H0 I); [congruence|auto].
Qed.

(* ---- The service of a system is an execution of FeModel ---- *)
Fixpoint events (hs : list happening) : list event := match hs with [] => [] | Serves e :: hs => e :: events hs | _ :: hs => events hs end.
Lemma sys_steps_fe x hs x' : sys_steps x hs x' -> forall es, exec guid_of slow (fun _ => True) es (service x) -> exec guid_of slow (fun _ => True) (es ++ events hs) (service x').
Proof.
  induction 1 as [x|x h x1 hs x2 S1 S IH]; intros es E; [rewrite app_nil_r; auto|].
  assert (X : (exists e, h = Serves e /\ step (service x) e (service x1)) \/ events (h :: hs) = events hs /\ service x1 = service x).
  { destruct S1; cbn; eauto. }
  destruct X as [(e & -> & ST)|[Q R]].
  - cbn [events]. replace (es ++ e :: events hs) with ((es ++ [e]) ++ events hs) by (rewrite <- app_assoc; reflexivity). apply IH. eapply exec_snoc; eauto.
  - rewrite Q. apply IH. rewrite R. auto.
Qed.
Lemma reach_inv hs x : sys_steps sys0 hs x -> exists es, inv guid_of slow es (service x).
Proof. intros H. exists ([] ++ events hs). eapply inv_exec. eapply sys_steps_fe; [exact H|constructor]. Qed.
Lemma sys_app x hs x1 hs' x2 : sys_steps x hs x1 -> sys_steps x1 hs' x2 -> sys_steps x (hs ++ hs') x2.
Proof. induction 1; intros H2; [auto|]. cbn. econstructor; eauto. Qed.

(* ---- After a restart ---- *)
(* Only the goroutine of the start is there, and it knows of rows only. *)
Definition quiet_threads (x : system) : Prop :=
  forall i r t, nth_error (threads (service x)) i = Some (r, t) ->
    t = Gone \/ S i = length (threads (service x)) /\ exists ids cur todo, r = Startup ids /\ t = Injecting cur todo /\
      (forall id, In id todo -> rows x id <> Absent /\ files (service x) (guid_of id) <> None) /\ (forall c, cur = Some c -> todo <> []).
Definition weight (t : FeModel.request * FeModel.stage) : nat :=
  match snd t with Injecting cur todo => S (3 * length todo) - match cur with Some _ => 1 | None => 0 end | _ => 0 end.
Definition last_weight (l : list (FeModel.request * FeModel.stage)) : nat := match nth_error l (length l - 1) with Some t => weight t | None => 0 end.
Definition left_over (x : system) : nat := last_weight (threads (service x)) + length (work x).
Definition calm_happening (h : happening) : Prop := fine h /\ match h with Stores _ | Serves (Arrives _ _) => False | _ => True end.

Lemma quiet_step x h x1 : quiet_threads x -> calm_happening h -> sys_step x h x1 -> quiet_threads x1 /\ left_over x1 < left_over x /\ (forall id, rows x1 id = Pending -> rows x id = Pending).
Proof.
  intros Q [F C] SS.
  assert (FE : forall e s', step (service x) e s' -> match e with Skips _ _ | Arrives _ _ | Restarts _ _ => False | Answers _ st => st = 200%Z | _ => True end ->
     match e with Queues _ _ _ _ => last_weight (threads s') + 1 < last_weight (threads (service x)) | _ => last_weight (threads s') < last_weight (threads (service x)) end /\
     (forall w, quiet_threads {| service := s'; rows := rows x; work := w |})).
  { intros e s' ST G.
    assert (Z : forall i r t, nth_error (threads (service x)) i = Some (r, t) -> t <> Gone -> exists ids cur todo, r = Startup ids /\ t = Injecting cur todo /\ S i = length (threads (service x)) /\
       (forall id, In id todo -> rows x id <> Absent /\ files (service x) (guid_of id) <> None)).
    { intros i r t T N. destruct (Q _ _ _ T) as [|(L & ids & cur & todo & A & B & D & _)]; [contradiction|]. eauto 9. }
    assert (W : forall i r t t', nth_error (threads (service x)) i = Some (r, t) -> S i = length (threads (service x)) ->
       last_weight (threads (service x)) = weight (r, t) /\ last_weight (upd (threads (service x)) i (r, t')) = weight (r, t')).
    { intros i r t t' T L. unfold last_weight. rewrite upd_length, nth_upd, <- L. replace (S i - 1) with i by lia. rewrite Nat.eqb_refl, T. auto. }
    assert (QQ : forall i r t t', nth_error (threads (service x)) i = Some (r, t) -> S i = length (threads (service x)) ->
       (t' = Gone \/ exists ids cur todo, r = Startup ids /\ t' = Injecting cur todo /\ (forall id, In id todo -> rows x id <> Absent /\ files (service x) (guid_of id) <> None) /\ (forall c, cur = Some c -> todo <> [])) ->
       forall w, quiet_threads {| service := move (service x) i r t'; rows := rows x; work := w |}).
    { intros i r t t' T L H w j r0 t0 J. cbn in *. rewrite nth_upd in J. rewrite upd_length. destruct (Nat.eqb_spec i j) as [<-|NE].
      - rewrite T in J. injection J as <- <-. destruct H as [|H]; auto.
      - destruct (Q _ _ _ J) as [|[L' _]]; [auto|]. elim NE. lia. }
    inversion ST; subst; try contradiction; try discriminate;
      match goal with T : nth_error (threads (service x)) ?i = Some (?r, ?t) |- _ => destruct (Z _ _ _ T ltac:(discriminate)) as (ids' & cur' & todo' & A & B & L & D); try discriminate end.
    - injection A as ->. injection B as <- <-. destruct (W _ _ _ Gone H L) as [-> E]. split; [cbn [threads move]; rewrite E; cbn; lia|]. eapply QQ; eauto.
    - subst r. injection B as <- <-. destruct (W _ _ _ (Injecting (Some c) (id :: todo)) H L) as [-> E]. split; [cbn [threads move]; rewrite E; cbn; lia|].
      eapply QQ; [exact H|exact L|]. right. exists ids', (Some c), (id :: todo). split; [reflexivity|]. split; [reflexivity|]. split; [exact D|]. intros c0 _ X. discriminate X.
    - subst r. injection B as <- <-. destruct (W _ _ _ (Injecting None todo) H L) as [-> E]. split; [cbn [threads move]; rewrite E; cbn; lia|].
      eapply QQ; [exact H|exact L|]. right. exists ids', None, todo. split; [reflexivity|]. split; [reflexivity|]. split; [intros id' M; exact (D _ (or_intror M))|]. intros c0 X. discriminate X. }
  inversion SS; subst; try contradiction.
  - destruct (FE _ _ H Logic.I) as [L QT]. split; [apply QT|]. split; [|auto]. unfold left_over. cbn. rewrite app_length. cbn. lia.
  - destruct (FE _ _ H) as [L QT]; [destruct e; cbn in *; auto|]. split; [apply QT|]. split; [|auto]. unfold left_over. cbn. destruct e; lia.
  - split.
    + intros i r t T. cbn in *. destruct (Q _ _ _ T) as [|(L & ids & cur & todo & A & B & D & E)]; [auto|]. right. split; [auto|]. exists ids, cur, todo. split; [auto|]. split; [auto|]. split; [|exact E]. intros id' M. split; [|apply D; auto].
      unfold set_row. destruct (Z.eqb_spec id' id); [discriminate|apply D; auto].
    + split; [unfold left_over; cbn; rewrite (drop_length _ _ _ H); lia|]. cbn. intros id0. unfold set_row. destruct (Z.eqb_spec id0 id); [discriminate|auto].
Qed.
Lemma quiet_run x hs x' : sys_steps x hs x' -> Forall calm_happening hs -> quiet_threads x -> quiet_threads x' /\ length hs + left_over x' <= left_over x /\ (forall id, rows x' id = Pending -> rows x id = Pending).
Proof.
  induction 1 as [x|x h x1 hs x2 S1 S IH]; intros F Q; [cbn; auto|]. inversion F; subst.
  destruct (quiet_step _ _ _ Q H1 S1) as (Q1 & L1 & R1). destruct (IH H2 Q1) as (Q2 & L2 & R2). split; [auto|]. split; [cbn; lia|auto].
Qed.
Lemma restart_quiet x i pending x1 : sys_step x (Serves (Restarts i pending)) x1 -> (forall id, In id pending -> files (service x) (guid_of id) <> None) ->
  quiet_threads x1 /\ left_over x1 = S (3 * length pending) /\ (forall id, rows x1 id = Pending <-> In id pending) /\ (forall id, rows x1 id = Pending -> in_hand x1 id).
Proof.
  intros S Fi. inversion S; subst; [|elim (H2 _ _ eq_refl)]. pose proof H1 as RL. inversion H1; subst. clear H1.
  split; [|split; [|split]].
  - intros j r t J. cbn in *. rewrite nth_snoc, map_length in J. rewrite app_length, map_length. cbn. destruct (Nat.eqb_spec j (length (threads (service x)))) as [->|N].
    + injection J as <- <-. right. split; [lia|]. exists pending, None, pending. split; [reflexivity|]. split; [reflexivity|]. split; [|intros c0 X; discriminate X]. intros id M. split; [apply H3 in M; congruence|apply Fi; auto].
    + rewrite nth_error_map in J. destruct (nth_error (threads (service x)) j); [|discriminate]. injection J as <- <-. auto.
  - unfold left_over, last_weight. cbn. rewrite app_length, map_length. cbn. rewrite nth_error_app2 by (rewrite map_length; lia). rewrite map_length. replace (_ + 1 - 1 - _) with 0 by lia. cbn. lia.
  - intros id. cbn. symmetry. apply H3.
  - intros id H. right. refine (restart_lists _ _ _ _ _ RL _). apply H3. exact H.
Qed.
(* A run nobody holds. *)
Definition alone (x : system) (id : Z) : Prop :=
  ~ In id (work x) /\ forall i r t, nth_error (threads (service x)) i = Some (r, t) -> t <> Gone -> ~ In id (want r).
Lemma step_alone s e s' id es : inv guid_of slow es s -> step s e s' -> (forall i r, e = Arrives i r -> ~ In id (want r)) -> (forall i p, e <> Restarts i p) ->
  (forall i r t, nth_error (threads s) i = Some (r, t) -> t <> Gone -> ~ In id (want r)) ->
  (forall i r t, nth_error (threads s') i = Some (r, t) -> t <> Gone -> ~ In id (want r)) /\ (forall i src p, e <> Queues i id src p).
Proof.
  intros I S A R N.
  assert (KEEP : forall i r t t0, nth_error (threads s) i = Some (r, t) -> t <> Gone -> forall j r0 t1, nth_error (upd (threads s) i (r, t0)) j = Some (r0, t1) -> t1 <> Gone -> ~ In id (want r0)).
  { intros i r t t0 T G j r0 t1 J G1. rewrite nth_upd in J. destruct (Nat.eqb_spec i j) as [<-|]; [|eapply N; eauto]. rewrite T in J. injection J as <- <-. eapply N; eauto. }
  inversion S; subst; unfold move, set_file, set_err; cbn [threads];
    try (split; [eapply KEEP; [eassumption|discriminate]|intros; congruence]).
  - split; [|intros; congruence]. intros j r0 t0 J G. rewrite nth_snoc in J. destruct (Nat.eqb_spec j (length (threads s))); [|eapply N; eauto]. injection J as <- <-. eapply A; reflexivity.
  - split; [eapply KEEP; [eassumption|discriminate]|]. intros j src p X. injection X as _ X _ _. subst id0.
    pose proof (i_prog _ _ _ _ I _ _ _ H) as (tr & W & _). eapply N; [exact H|discriminate|]. rewrite W. apply in_app_iff. cbn. auto.
  - elim (R _ _ eq_refl).
Qed.
Lemma alone_steps x hs x' id : sys_steps x hs x' -> forall es, exec guid_of slow (fun _ => True) es (service x) -> alone x id ->
  (forall i r, In (Serves (Arrives i r)) hs -> ~ In id (want r)) -> (forall i p, ~ In (Serves (Restarts i p)) hs) -> (In (Stores id) hs -> False) ->
  rows x' id = rows x id /\ alone x' id.
Proof.
  induction 1 as [x|x h x1 hs x2 S1 S IH]; intros es E AL A R ST; [auto|].
  assert (X : rows x1 id = rows x id /\ alone x1 id /\ exists es1, exec guid_of slow (fun _ => True) es1 (service x1)).
  { destruct AL as [W N]. inversion S1; subst; cbn.
    - split; [auto|]. split; [|eexists; eapply exec_snoc; [exact E|exact H|exact Logic.I]].
      destruct (step_alone _ _ _ id es (inv_exec _ _ _ _ _ E) H) as [N' Q]; [discriminate|discriminate|exact N|]. split; [|exact N']. cbn. rewrite in_app_iff. cbn. intros [M|[->|[]]]; [auto|]. elim (Q i src p). reflexivity.
    - elim (R i pending). left. reflexivity.
    - split; [auto|]. split; [|eexists; eapply exec_snoc; [exact E|exact H|exact Logic.I]].
      destruct (step_alone _ _ _ id es (inv_exec _ _ _ _ _ E) H) as [N' Q]; [intros i r ->; eapply A; left; reflexivity|exact H1|exact N|]. split; [exact W|exact N'].
    - unfold set_row. destruct (Z.eqb_spec id id0) as [->|]; [elim ST; left; reflexivity|]. split; [auto|]. split; [split; auto|eauto].
    - unfold set_row. destruct (Z.eqb_spec id id0) as [->|]; [elim W; eapply nth_error_In; eauto|]. split; [auto|]. split; [|eauto]. split; [|exact N]. cbn. intros M. apply W. eapply drop_in; eauto.
    - split; [auto|]. split; [|eauto]. split; [|exact N]. cbn. intros M. apply W. eapply drop_in; eauto. }
  destruct X as (R1 & A1 & es1 & E1). destruct (IH _ E1 A1) as [R2 A2]; [intros i r M; eapply A; right; exact M|intros i p M; eapply R; right; exact M|intros M; apply ST; right; exact M|].
  split; [congruence|auto].
Qed.
(* It can go on until it is at rest. *)
Lemma quiet_goes x : quiet_threads x -> ~ at_rest x -> exists h x1, calm_happening h /\ sys_step x h x1.
Proof.
  intros Q N. destruct (work x) as [|w ws] eqn:W.
  - destruct (nth_error (threads (service x)) (length (threads (service x)) - 1)) as [[r t]|] eqn:T.
    + destruct (Q _ _ _ T) as [->|(L & ids & cur & todo & -> & -> & D & E)].
      * elim N. split; [auto|]. intros i r0 t0 J. destruct (Q _ _ _ J) as [|(L & _)]; [auto|]. replace i with (length (threads (service x)) - 1) in J by lia. congruence.
      * destruct todo as [|id todo].
        -- destruct cur as [c|]; [elim (E _ eq_refl); auto|]. exists (Serves Tau). eexists. split; [split; exact Logic.I|]. eapply serves; [eapply start_done; exact T|discriminate|discriminate].
        -- destruct (D _ (or_introl eq_refl)) as [R Fl]. destruct cur as [c|].
           ++ exists (Serves (Queues (length (threads (service x)) - 1) id c (priority_of slow (Startup ids) id))). eexists. split; [split; exact Logic.I|]. eapply queues_run; [eapply inject_queues; exact T|exact R].
           ++ destruct (files (service x) (guid_of id)) as [c|] eqn:Fc; [|elim Fl; auto]. exists (Serves Tau). eexists. split; [split; exact Logic.I|]. eapply serves; [eapply inject_reads; [exact T|exact Fc]|discriminate|discriminate].
    + elim N. split; [auto|]. intros i r0 t0 J. assert (i < length (threads (service x))) by (apply nth_error_Some; congruence). apply nth_error_None in T. lia.
  - exists (Records w). eexists. split; [split; exact Logic.I|]. apply records with (n := 0). rewrite W. reflexivity.
Qed.
End Keep.

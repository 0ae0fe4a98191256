(* C54, C55, C57: the requests that queue runs. *)
From Coq Require Import String Ascii List Bool ZArith Lia.
From Verif Require Import GoStr InModel FeModel FeSpec FeProofs.
Import ListNotations.
Local Open Scope string_scope.
Local Open Scope list_scope.

Section Props.
Variable guid_of : Z -> string.
Variable slow : Z -> bool.
Notation step := (step guid_of slow).
Notation steps := (steps guid_of slow).
Notation exec := (exec guid_of slow).
Notation inv := (inv guid_of slow).

Lemma gone_stays s e s' i r : step s e s' -> nth_error (threads s) i = Some (r, Gone) ->
  nth_error (threads s') i = Some (r, Gone) /\ (forall id c p, e <> Queues i id c p) /\ (forall g, e <> Creates i g) /\ (forall st, e <> Answers i st).
Proof.
  intros H G. destruct H; cbn [threads move set_file set_err]; rewrite ?nth_upd, ?nth_snoc;
    try (match goal with HT : nth_error (threads s) ?j = Some _ |- _ => assert (j <> i) as NE by (intros ->; rewrite HT in G; discriminate G) end;
         rewrite (proj2 (Nat.eqb_neq _ _) NE)).
  all: try (split; [exact G|]; repeat split; intros; congruence).
  - assert (i <> length (threads s)) as NE by (intros ->; assert (nth_error (threads s) (length (threads s)) = None) by (apply nth_error_None; auto); congruence).
    rewrite (proj2 (Nat.eqb_neq _ _) NE). split; [auto|]. repeat split; intros; congruence.
  - assert (i <> length (threads s)) as NE by (intros ->; assert (nth_error (threads s) (length (threads s)) = None) by (apply nth_error_None; auto); congruence).
    rewrite map_length, (proj2 (Nat.eqb_neq _ _) NE), nth_error_map, G. split; [reflexivity|]. repeat split; intros; congruence.
Qed.
Lemma file_grows s e s' g c : step s e s' -> files s g = Some c -> exists c', files s' g = Some c' /\ starts_with c' c /\
  (c' = c \/ exists i id body rest, nth_error (threads s) i = Some (NewRun id body, Copying rest) /\ guid_of id = g).
Proof.
  intros H F. destruct H; cbn [files move set_file set_err]; try (exists c; split; [exact F|split; [apply starts_refl|left; reflexivity]]).
  - destruct (String.eqb_spec g (guid_of id)) as [->|N]; [congruence|]. exists c. split; [exact F|]. split; [apply starts_refl|auto].
  - destruct (String.eqb_spec g (guid_of id)) as [->|N].
    + rewrite H0 in F. injection F as ->. eexists. split; [reflexivity|]. split; [apply starts_app|]. right. eexists _, _, _, _. eauto.
    + exists c. split; [exact F|]. split; [apply starts_refl|auto].
Qed.
Lemma exec_steps es0 s0 es s : exec (fun _ => True) es0 s0 -> steps s0 es s -> exec (fun _ => True) (es0 ++ es) s.
Proof.
  intros E H. revert es0 E. induction H as [|s e s1 es s2 ST H IH]; intros es0 E; [rewrite app_nil_r; auto|].
  replace (es0 ++ e :: es) with ((es0 ++ [e]) ++ es) by (rewrite <- app_assoc; reflexivity). apply IH. eapply exec_snoc; eauto.
Qed.

(* ---- C54 ---- *)
(* However many requests, crashes and restarts: the source of a submission is
   created once, by one request. *)
Theorem C54_one_creator : forall es s, exec (fun _ => True) es s ->
  NoDup (created es) /\ (forall i j g, In (Creates i g) es -> In (Creates j g) es -> i = j) /\
  (forall g, files s g <> None <-> exists i, In (Creates i g) es).
Proof.
  intros es s H. pose proof (inv_exec _ _ _ _ _ H) as I. split; [apply (i_nodup _ _ _ _ I)|]. split.
  - intros i j g. apply creator_unique, (i_nodup _ _ _ _ I).
  - intros g. rewrite <- (i_made _ _ _ _ I). split; [apply created_in|intros (i & G); eapply in_created; eauto].
Qed.

(* It holds the first bytes of the body of that request, and nothing else. *)
Theorem C54_source : forall es s g c, exec (fun _ => True) es s -> files s g = Some c ->
  exists i id body, In (Arrives i (NewRun id body)) es /\ In (Creates i g) es /\ guid_of id = g /\ starts_with body c.
Proof.
  intros es s g c H F. pose proof (inv_exec _ _ _ _ _ H) as I.
  assert (G : In g (created es)) by (apply (i_made _ _ _ _ I); congruence). apply created_in in G. destruct G as (i & G).
  destruct (i_file _ _ _ _ I _ _ G) as (id & body & t & c0 & A & B & C & D & E). exists i, id, body.
  pose proof (i_arr _ _ _ _ I _ _ _ A) as X. rewrite F in C. injection C as <-. auto.
Qed.

(* It only grows, and once its creator was answered it stays as it is, for ever. *)
Theorem C54_source_stays : forall es s es' s' g c, exec (fun _ => True) es s -> steps s es' s' -> files s g = Some c ->
  exists c', files s' g = Some c' /\ starts_with c' c /\
  ((exists i st, In (Creates i g) es /\ In (Answers i st) es) -> c' = c).
Proof.
  intros es s es' s' g c H ST. revert es c H. induction ST as [s|s e s1 es1 s2 S1 ST IH]; intros es c H F.
  - exists c. split; [auto|]. split; [apply starts_refl|auto].
  - destruct (file_grows _ _ _ _ _ S1 F) as (c1 & F1 & G1 & D1).
    destruct (IH (es ++ [e]) c1) as (c2 & F2 & G2 & D2); [eapply exec_snoc; eauto|auto|].
    exists c2. split; [auto|]. split; [eapply starts_trans; eauto|]. intros (i & st & A & B).
    rewrite D2 by (exists i, st; rewrite !in_app_iff; auto).
    destruct D1 as [D1|(j & id & body & rest & D1 & D3)]; [auto|exfalso].
    pose proof (inv_exec _ _ _ _ _ H) as I. pose proof (i_own _ _ _ _ I _ _ _ _ D1) as O. cbn in O. rewrite D3 in O.
    pose proof (creator_unique _ _ _ _ (i_nodup _ _ _ _ I) A O) as <-. destruct (i_ans _ _ _ _ I _ _ B) as (r & X). congruence.
Qed.

Lemma answers_new (ok : state -> Prop) es s i st id body : exec ok es s -> In (Answers i st) es -> nth_error (threads s) i = Some (NewRun id body, Gone) ->
  st = 200%Z /\ ids_queued_by i es = [id] \/ st = 500%Z /\ ids_queued_by i es = [] \/
  st = 409%Z /\ ids_queued_by i es = [] /\ ~ (exists g, In (Creates i g) es) /\ files s (guid_of id) <> None.
Proof.
  intros H. revert i st id body. induction H as [|es s e s' H IH S1 _]; intros i st id body HA HT; [destruct HA|].
  pose proof (inv_exec _ _ _ _ _ H) as I. apply in_snoc in HA. destruct HA as [HA|HA].
  - destruct (i_ans _ _ _ _ I _ _ HA) as (r & G). destruct (gone_stays _ _ _ _ _ S1 G) as (G1 & Q & C & _).
    rewrite HT in G1. injection G1 as <-. specialize (IH _ _ _ _ HA G).
    assert (QE : ids_queued_by i (es ++ [e]) = ids_queued_by i es).
    { unfold ids_queued_by. rewrite queued_app. destruct e; cbn; rewrite ?app_nil_r; auto. destruct (Nat.eqb_spec i i0) as [<-|]; [elim (Q _ _ _ eq_refl)|rewrite app_nil_r; auto]. }
    rewrite QE. destruct IH as [IH|[IH|(A & B & D & E)]]; auto. right. right. repeat split; auto.
    + intros (g & X). apply in_snoc in X. destruct X as [X|X]; [apply D; eauto|]. elim (C g). auto.
    + destruct (files s (guid_of id)) as [c|] eqn:F; [|congruence]. destruct (file_grows _ _ _ _ _ S1 F) as (c1 & F1 & _). congruence.
  - subst e.
    assert (QE : ids_queued_by i (es ++ [Answers i st]) = ids_queued_by i es) by (unfold ids_queued_by; rewrite queued_app; cbn; rewrite app_nil_r; auto).
    rewrite QE. clear QE.
    inversion S1; subst; match goal with X : nth_error (threads s) i = Some _ |- _ => rename X into T end;
      cbn [threads move set_err] in HT; rewrite nth_upd, Nat.eqb_refl, T in HT; try discriminate HT; injection HT as <- <-;
      pose proof (i_prog _ _ _ _ I _ _ _ T) as P; cbn in P; unfold ids_queued_by in *.
    + auto.
    + right. right. repeat split; auto. intros (g & X). apply in_snoc in X. destruct X as [X|X]; [|discriminate].
      pose proof (i_own _ _ _ _ I _ _ _ _ T) as O. cbn in O. apply O. eauto.
    + auto.
    + left. split; [auto|]. destruct P as (tr & A & B). rewrite app_nil_r in A. congruence.
    + right. left. split; [auto|]. destruct P as (tr & A & <-). destruct tr as [|x tr]; [auto|]. injection A as _ A. destruct tr; [|discriminate]. cbn in A. congruence.
Qed.

(* What the answers to /run/new/ mean: 200, the run was queued by this request,
   once, with the stored source, which this request created; 409, another request
   created the source and this one queued nothing; 500, nothing was queued. *)
Theorem C54_answers : forall es s i id body st, exec (fun _ => True) es s ->
  In (Arrives i (NewRun id body)) es -> In (Answers i st) es ->
  st = 200%Z /\ In (Creates i (guid_of id)) es /\ (exists c, queued_by i es = [(id, c, if slow id then 2 else 1)%Z] /\ files s (guid_of id) = Some c /\ starts_with body c) \/
  st = 409%Z /\ queued_by i es = [] /\ ~ In (Creates i (guid_of id)) es /\ (exists j, j <> i /\ In (Creates j (guid_of id)) es) \/
  st = 500%Z /\ queued_by i es = [].
Proof.
  intros es s i id body st H HA HS. pose proof (inv_exec _ _ _ _ _ H) as I.
  destruct (i_arr2 _ _ _ _ I _ _ HA) as [(t & T) _]. destruct (i_ans _ _ _ _ I _ _ HS) as (r & G). rewrite T in G. injection G as <- ->.
  destruct (answers_new _ _ _ _ _ _ _ H HS T) as [(-> & Q)|[(-> & Q)|(-> & Q & C & F)]].
  - left. split; [auto|]. unfold ids_queued_by in Q. destruct (queued_by i es) as [|[[id0 c] p] [|]] eqn:E; try discriminate. injection Q as ->.
    pose proof (i_own _ _ _ _ I _ _ _ _ T) as O. cbn in O. rewrite E in O. specialize (O ltac:(discriminate)). split; [auto|]. exists c.
    assert (IN : In (id, c, p) (queued_by i es)) by (rewrite E; left; auto).
    pose proof (i_prio _ _ _ _ I _ _ _ _ _ _ T IN) as ->. split; [unfold priority_of; destruct (slow id); reflexivity|].
    pose proof (i_new _ _ _ _ I _ _ _ _ _ _ T IN) as F. split; [auto|].
    destruct (i_file _ _ _ _ I _ _ O) as (id1 & b1 & t1 & c1 & A & B & C & D & _). rewrite T in A. injection A as <- <- <-. congruence.
  - right. right. split; [auto|]. apply map_eq_nil in Q. auto.
  - right. left. split; [auto|]. apply map_eq_nil in Q. split; [auto|]. split; [intros X; apply C; eauto|].
    apply (i_made _ _ _ _ I) in F. apply created_in in F. destruct F as (j & F). exists j. split; [intros ->; apply C; eauto|auto].
Qed.

(* A submission whose source exists is never queued again by /run/new/: not even if
   the request that created it failed. *)
Theorem C54_no_retry : forall es s es' s' i id body, exec (fun _ => True) es s -> files s (guid_of id) <> None ->
  steps s es' s' -> In (Arrives i (NewRun id body)) es' -> queued_by i (es ++ es') = [] /\ forall st, In (Answers i st) es' -> st = 409%Z \/ st = 500%Z.
Proof.
  intros es s es' s' i id body H F ST HA. pose proof (exec_steps _ _ _ _ H ST) as H'.
  pose proof (inv_exec _ _ _ _ _ H) as I. pose proof (inv_exec _ _ _ _ _ H') as I'.
  assert (HA' : In (Arrives i (NewRun id body)) (es ++ es')) by (apply in_app_iff; auto).
  destruct (i_arr2 _ _ _ _ I' _ _ HA') as [(t & T) _].
  (* some other request created the file *)
  apply (i_made _ _ _ _ I) in F. apply created_in in F. destruct F as (j & F).
  assert (NI : i <> j).
  { intros <-. destruct (i_file _ _ _ _ I _ _ F) as (id1 & b1 & t1 & c1 & A & _).
    (* i arrived later *)
    clear - HA ST A. assert (LE : forall s es' s', steps s es' s' -> forall r, In (Arrives i r) es' -> length (threads s) <= i).
    { induction 1 as [|s0 e s1 es0 s2 S1 ST0 IH]; intros r [].
      - subst e. inversion S1; subst; auto.
      - pose proof (IH _ H) as L. assert (length (threads s0) <= length (threads s1)); [|lia].
        destruct S1; cbn [threads move set_file set_err]; rewrite ?upd_length, ?app_length, ?map_length; lia. }
    pose proof (LE _ _ _ ST _ HA) as X. apply nth_error_None in X. congruence. }
  assert (Q : queued_by i (es ++ es') = []).
  { destruct (queued_by i (es ++ es')) as [|[[id0 c] p] l] eqn:E; [auto|exfalso].
    pose proof (i_own _ _ _ _ I' _ _ _ _ T) as O. pose proof (i_prog _ _ _ _ I' _ _ _ T) as P. unfold ids_queued_by in P. rewrite E in *.
    assert (X : In (Creates i (guid_of id)) (es ++ es')) by (destruct t; cbn in P; try discriminate P; try apply O; congruence).
    apply NI. eapply (creator_unique _ _ _ _ (i_nodup _ _ _ _ I')); eauto. apply in_app_iff. auto. }
  split; [auto|]. intros st HS.
  destruct (C54_answers _ _ _ _ _ st H' HA') as [(-> & X & _)|[(-> & _)|(-> & _)]]; auto; [apply in_app_iff; auto|].
  elim NI. eapply (creator_unique _ _ _ _ (i_nodup _ _ _ _ I')); eauto. apply in_app_iff. auto.
Qed.

(* ---- C55 ---- *)
Lemma src_from es s i id c p : inv es s -> In (id, c, p) (queued_by i es) ->
  exists j id' body, In (Arrives j (NewRun id' body)) es /\ guid_of id' = guid_of id /\ starts_with body c.
Proof.
  intros I H. destruct (i_src _ _ _ _ I _ _ _ _ H) as (c' & F & G).
  assert (X : In (guid_of id) (created es)) by (apply (i_made _ _ _ _ I); congruence). apply created_in in X. destruct X as (j & X).
  destruct (i_file _ _ _ _ I _ _ X) as (id1 & b1 & t1 & c1 & A & B & C & D & _). exists j, id1, b1.
  split; [apply (i_arr _ _ _ _ I _ _ _ A)|]. split; [auto|]. rewrite F in C. injection C as <-. eapply starts_trans; eauto.
Qed.
(* /run/grade/ queues the runs it was asked for, in order, each once, and stops at
   the first it cannot; with normal priority, or low if it is a rejudge, a debug run
   or the problem is slow; with (the beginning of) what was submitted. *)
Theorem C55_grade : forall es s i low ids, exec (fun _ => True) es s -> In (Arrives i (Grade low ids)) es ->
  (exists rest, ids = ids_queued_by i es ++ rest) /\
  (forall id c p, In (id, c, p) (queued_by i es) -> p = (if low || slow id then 2 else 1)%Z /\
     exists j id' body, In (Arrives j (NewRun id' body)) es /\ guid_of id' = guid_of id /\ starts_with body c).
Proof.
  intros es s i low ids H HA. pose proof (inv_exec _ _ _ _ _ H) as I. destruct (i_arr2 _ _ _ _ I _ _ HA) as [(t & T) _]. split.
  - pose proof (i_prog _ _ _ _ I _ _ _ T) as P. destruct t; cbn in P; try (rewrite P; exists ids; reflexivity).
    + destruct P as (tr & A & <-). exists todo. auto.
    + destruct P as (tr & rest & A & <-). exists rest. auto.
    + destruct P as (tr & rest & A & <-). exists rest. auto.
  - intros id c p HQ. split; [|eapply src_from; eauto]. pose proof (i_prio _ _ _ _ I _ _ _ _ _ _ T HQ) as ->.
    unfold priority_of. destruct (slow id), low; reflexivity.
Qed.
(* The runs that were not ready when the process started: in order, each at most
   once, some of them not at all. *)
Lemma sub_in {A} (l l' : list A) x : sub l l' -> In x l -> In x l'.
Proof. induction 1; cbn; intuition. Qed.
Lemma sub_nodup {A} (l l' : list A) : sub l l' -> NoDup l' -> NoDup l.
Proof.
  induction 1 as [|x l l' H IH|x l l' H IH]; intros HN; auto; inversion HN as [|? ? N1 N2]; subst; auto.
  constructor; auto. intros X. apply N1. eapply sub_in; eauto.
Qed.
Theorem C55_restart : forall es s i ids, exec (fun _ => True) es s -> In (Restarts i ids) es ->
  sub (ids_queued_by i es) ids /\ NoDup (ids_queued_by i es) /\
  (forall id c p, In (id, c, p) (queued_by i es) -> p = (if slow id then 2 else 1)%Z /\
     exists j id' body, In (Arrives j (NewRun id' body)) es /\ guid_of id' = guid_of id /\ starts_with body c).
Proof.
  intros es s i ids H HA. pose proof (inv_exec _ _ _ _ _ H) as I. destruct (i_res2 _ _ _ _ I _ _ HA) as [(t & T) HN].
  assert (S : sub (ids_queued_by i es) ids).
  { pose proof (i_prog _ _ _ _ I _ _ _ T) as P. destruct t; cbn in P; try (rewrite P; apply sub_empty).
    + destruct P as (tr & A & S). rewrite A. apply sub_app. auto.
    + destruct P as (tr & rest & A & S). rewrite A. apply sub_app. auto.
    + destruct P as (tr & rest & A & S). rewrite A. apply sub_app. auto. }
  split; [auto|]. split; [eapply sub_nodup; eauto|].
  intros id c p HQ. split; [|eapply src_from; eauto]. pose proof (i_prio _ _ _ _ I _ _ _ _ _ _ T HQ) as ->.
  unfold priority_of. destruct (slow id); reflexivity.
Qed.

(* ---- C57 ---- *)
(* No two /run/grade/ requests are between assigning the shared variable and looking
   at it. *)
Definition calm (s : state) : Prop := forall i j r r', nth_error (threads s) i = Some (r, Assigned) -> nth_error (threads s) j = Some (r', Assigned) -> i = j.
Lemma assigned (ok : state -> Prop) es s i low ids : (forall s, ok s -> calm s) -> exec ok es s -> nth_error (threads s) i = Some (Grade low ids, Assigned) ->
  if err s then exists rest, rest <> [] /\ ids = ids_queued_by i es ++ rest else ids = ids_queued_by i es.
Proof.
  intros HC H. revert i low ids. induction H as [|es s e s' H IH S1 OK]; intros i low ids T; [destruct i; discriminate T|].
  pose proof (inv_exec _ _ _ _ _ H) as I. apply HC in OK.
  (* a step of another thread *)
  assert (KEEP : forall e0, e = e0 -> (forall id c p, e0 <> Queues i id c p) -> nth_error (threads s) i = Some (Grade low ids, Assigned) -> err s' = err s ->
     if err s' then exists rest, rest <> [] /\ ids = ids_queued_by i (es ++ [e]) ++ rest else ids = ids_queued_by i (es ++ [e])).
  { intros e0 -> Q G E. rewrite E. specialize (IH _ _ _ G). unfold ids_queued_by. rewrite queued_app. destruct e0; cbn; rewrite ?app_nil_r; auto.
    destruct (Nat.eqb_spec i i0) as [<-|]; [elim (Q _ _ _ eq_refl)|rewrite app_nil_r; auto]. }
  unfold calm in OK.
  destruct S1; cbn [threads move set_file set_err err] in *; rewrite ?nth_upd, ?nth_snoc in T;
    try (match goal with HT : nth_error (threads s) ?j = Some _ |- _ => destruct (Nat.eqb_spec j i) as [->|NE]; [rewrite HT in T|] end); try discriminate T;
    try (eapply KEEP; [reflexivity|discriminate|exact T|reflexivity]).
  - destruct (Nat.eqb i (length (threads s))); [discriminate|]. eapply KEEP; eauto. discriminate.
  - injection T as <- <-. unfold ids_queued_by. rewrite queued_app. cbn. rewrite app_nil_r.
    pose proof (i_prog _ _ _ _ I _ _ _ H0) as (tr & A & E). rewrite app_nil_r in A. cbn in A. unfold ids_queued_by in E. congruence.
  - exfalso. apply NE. apply (OK i0 i (Grade low0 ids0) (Grade low ids)); rewrite nth_upd.
    + rewrite Nat.eqb_refl, H0. auto.
    + rewrite (proj2 (Nat.eqb_neq _ _) NE). auto.
  - injection T as <- <-. unfold ids_queued_by. rewrite queued_app. cbn. rewrite app_nil_r.
    pose proof (i_prog _ _ _ _ I _ _ _ H0) as (tr & A & E). cbn in A. unfold ids_queued_by in E. exists todo. split; congruence.
  - exfalso. apply NE. apply (OK i0 i (Grade low0 ids0) (Grade low ids)); rewrite nth_upd.
    + rewrite Nat.eqb_refl, H0. auto.
    + rewrite (proj2 (Nat.eqb_neq _ _) NE). auto.
  - eapply KEEP; [reflexivity| |exact T|reflexivity]. intros id0 c0 p0 X. injection X as X _ _ _. congruence.
  - rewrite map_length in T. destruct (Nat.eqb i (length (threads s))); [discriminate|].
    rewrite nth_error_map in T. destruct (nth_error (threads s) i); discriminate T.
Qed.
Lemma loading_rest (ok : state -> Prop) es s i low ids todo : exec ok es s -> nth_error (threads s) i = Some (Grade low ids, Loading todo) -> exists pre, ids = pre ++ todo.
Proof.
  intros H. revert i low ids todo. induction H as [|es s e s' H IH S1 OK]; intros i low ids todo0 T; [destruct i; discriminate T|].
  destruct S1; cbn [threads move set_file set_err] in T; rewrite ?nth_upd, ?nth_snoc in T;
    try (match goal with HT : nth_error (threads s) ?j = Some _ |- _ => destruct (Nat.eqb_spec j i) as [->|NE]; [rewrite HT in T|] end); try discriminate T; try (eapply IH; exact T).
  - destruct (Nat.eqb i (length (threads s))); [discriminate T|eauto].
  - injection T as <- <- <-. exists []. reflexivity.
  - injection T as <- <- <-. destruct (IH _ _ _ _ H0) as (pre & ->). exists (pre ++ [id]). rewrite <- app_assoc. reflexivity.
  - rewrite map_length in T. destruct (Nat.eqb i (length (threads s))); [discriminate T|].
    rewrite nth_error_map in T. destruct (nth_error (threads s) i); discriminate T.
Qed.
Lemma answers_grade (ok : state -> Prop) es s i st low ids : (forall s, ok s -> calm s) -> exec ok es s -> In (Answers i st) es -> In (Arrives i (Grade low ids)) es ->
  st = 200%Z /\ ids_queued_by i es = ids \/ st = 500%Z /\ exists rest, rest <> [] /\ ids = ids_queued_by i es ++ rest.
Proof.
  intros HC H. revert i st low ids. induction H as [|es s e s' H IH S1 OK]; intros i st low ids HA HR; [destruct HA|].
  pose proof (inv_exec _ _ _ _ _ H) as I. assert (H' : exec ok (es ++ [e]) s') by (eapply exec_snoc; eauto).
  pose proof (inv_exec _ _ _ _ _ H') as I'. destruct (i_arr2 _ _ _ _ I' _ _ HR) as [(t & T) _].
  apply in_snoc in HA. destruct HA as [HA|HA].
  - destruct (i_ans _ _ _ _ I _ _ HA) as (r & G). destruct (gone_stays _ _ _ _ _ S1 G) as (G1 & Q & C & _).
    rewrite T in G1. injection G1 as <- ->. 
    assert (HR1 : In (Arrives i (Grade low ids)) es) by (apply (i_arr _ _ _ _ I _ _ _ G)).
    assert (QE : ids_queued_by i (es ++ [e]) = ids_queued_by i es).
    { unfold ids_queued_by. rewrite queued_app. destruct e; cbn; rewrite ?app_nil_r; auto. destruct (Nat.eqb_spec i i0) as [<-|]; [elim (Q _ _ _ eq_refl)|rewrite app_nil_r; auto]. }
    rewrite QE. eapply IH; eauto.
  - subst e.
    assert (QE : ids_queued_by i (es ++ [Answers i st]) = ids_queued_by i es) by (unfold ids_queued_by; rewrite queued_app; cbn; rewrite app_nil_r; auto).
    rewrite QE. clear QE.
    inversion S1; subst; match goal with X : nth_error (threads s) i = Some _ |- _ => rename X into T1 end;
      cbn [threads move set_err] in T; rewrite nth_upd, Nat.eqb_refl, T1 in T; try discriminate T; injection T as <- <- <-;
      pose proof (i_prog _ _ _ _ I _ _ _ T1) as P; cbn in P; unfold ids_queued_by in *.
    + right. split; [auto|]. destruct (loading_rest _ _ _ _ _ _ _ H T1) as (pre & ->). rewrite P. exists (pre ++ id :: todo). split; [destruct pre; discriminate|reflexivity].
    + pose proof (assigned _ _ _ _ _ _ HC H T1) as G. unfold ids_queued_by in G. destruct (err s); [right; auto|left; auto].
Qed.
(* Without such overlap the answer is the request's own: 200, everything was queued;
   500, not everything. *)
Theorem C57_answers : forall es s i st low ids, exec calm es s -> In (Arrives i (Grade low ids)) es -> In (Answers i st) es ->
  st = 200%Z /\ ids_queued_by i es = ids \/ st = 500%Z /\ ids_queued_by i es <> ids.
Proof.
  intros es s i st low ids H HR HA. destruct (answers_grade calm es s i st low ids ltac:(auto) H HA HR) as [G|(-> & rest & N & G)]; auto; right; split; auto.
  intros E. rewrite E in G. apply N. destruct rest; [auto|]. apply (f_equal (@length _)) in G. rewrite app_length in G. cbn in G. lia.
Qed.
End Props.

(* ---- Executions ---- *)
Definition guids (id : Z) : string := ("ab" ++ GoStr.fmt_int id)%string.
Definition quick (id : Z) : bool := (id =? 9)%Z.
Definition zero : state := {| files := fun _ => None; threads := []; err := false |}.
Lemma run_exec es s : FeModel.steps guids quick zero es s -> FeModel.exec guids quick (fun _ => True) es s.
Proof. intros H. apply (exec_steps guids quick [] zero es s); [constructor|exact H]. Qed.
Ltac sub_goal := first [reflexivity | exact Logic.I | discriminate | (constructor; [intros []|constructor]) | (intros [?|[]]; discriminate)].
Tactic Notation "go" uconstr(t) := eapply steps_cons; [eapply t; repeat sub_goal | cbn [threads files err move set_file set_err app upd length map fst]].
Ltac fin := apply steps_nil.
Local Notation gexec := (FeModel.exec guids quick).

(* 200 does not mean that what was submitted was stored: the connection broke after
   one byte. *)
Theorem C54_whole_body_refuted : ~ forall es s i id body c p, gexec (fun _ => True) es s ->
  In (Arrives i (NewRun id body)) es -> In (Answers i 200%Z) es -> In (Queues i id c p) es -> c = body.
Proof.
  intros P. assert (X : "m" = "main"); [|discriminate X].
  eapply (P _ _ 0 1%Z "main" "m" 1%Z).
  - apply run_exec. go (arrives _ _ _ (NewRun 1 "main")). go (new_lookup _ _ _ 0). go (new_create _ _ _ 0). go (new_copy _ _ _ 0). go (new_copied _ _ _ 0).
    go (inject_reads _ _ _ 0). go (inject_queues _ _ _ 0). go (new_done _ _ _ 0). fin.
  - cbn. tauto.
  - cbn. tauto.
  - cbn. tauto.
Qed.
(* A run can be queued twice, and with a source that is still being written: by the
   goroutine of the start and by its own request. *)
Theorem C54_queued_once_refuted : exists es s, gexec (fun _ => True) es s /\ In (Restarts 0 [1%Z]) es /\ In (Arrives 1 (NewRun 1 "main")) es /\
  queued_by 0 es = [(1%Z, "ma", 1%Z)] /\ queued_by 1 es = [(1%Z, "main", 1%Z)] /\ In (Answers 1 200%Z) es.
Proof.
  eexists _, _. split.
  { apply run_exec. go (crashes _ _ _ [1%Z]). 
    go (arrives _ _ _ (NewRun 1 "main")). go (new_lookup _ _ _ 1). go (new_create _ _ _ 1). go (new_copy _ _ _ 1). go (new_copy _ _ _ 1).
    go (inject_reads _ _ _ 0). go (inject_queues _ _ _ 0). go (new_copy _ _ _ 1). go (new_copy _ _ _ 1). go (new_copied _ _ _ 1).
    go (inject_reads _ _ _ 1). go (inject_queues _ _ _ 1). go (new_done _ _ _ 1). fin. }
  cbn. repeat split; tauto.
Qed.
(* A request whose run was not queued says 500; from then on the submission can only
   be queued by /run/grade/ or a restart (C54_no_retry): its retry says 409. *)
Example C54_no_retry_met : exists es s es' s', gexec (fun _ => True) es s /\ files s (guids 1) <> None /\ FeModel.steps guids quick s es' s' /\
  In (Answers 0 500%Z) es /\ In (Arrives 1 (NewRun 1 "main")) es' /\ In (Answers 1 409%Z) es'.
Proof.
  eexists _, _, _, _. split; [|split; [|split]].
  { apply run_exec. go (arrives _ _ _ (NewRun 1 "main")). go (new_lookup _ _ _ 0). go (new_create _ _ _ 0). go (new_copied _ _ _ 0). go (inject_reads _ _ _ 0). go (new_fails _ _ _ 0). fin. }
  { discriminate. }
  { go (arrives _ _ _ (NewRun 1 "main")). go (new_lookup _ _ _ 1). go (new_exists _ _ _ 1). fin. }
  cbn. tauto.
Qed.
(* Two requests for one submission at the same time. *)
Example C54_answers_met : exists es s, gexec (fun _ => True) es s /\ In (Arrives 0 (NewRun 1 "ab")) es /\ In (Arrives 1 (NewRun 1 "cd")) es /\
  In (Answers 0 409%Z) es /\ In (Answers 1 200%Z) es /\ files s (guids 1) = Some "cd".
Proof.
  eexists _, _. split.
  { apply run_exec. go (arrives _ _ _ (NewRun 1 "ab")). go (arrives _ _ _ (NewRun 1 "cd")). go (new_lookup _ _ _ 0). go (new_lookup _ _ _ 1). go (new_create _ _ _ 1).
    go (new_copy _ _ _ 1). go (new_exists _ _ _ 0). go (new_copy _ _ _ 1). go (new_copied _ _ _ 1).
    go (inject_reads _ _ _ 1). go (inject_queues _ _ _ 1). go (new_done _ _ _ 1). fin. }
  cbn. repeat split; tauto.
Qed.
(* Executions that stay calm. *)
Inductive csteps : state -> list event -> state -> Prop :=
| csteps_nil : forall s, csteps s [] s
| csteps_cons : forall s e s1 es s2, FeModel.step guids quick s e s1 -> calm s1 -> csteps s1 es s2 -> csteps s (e :: es) s2.
Lemma exec_csteps es0 s0 es s : gexec calm es0 s0 -> csteps s0 es s -> gexec calm (es0 ++ es) s.
Proof.
  intros E H. revert es0 E. induction H as [|s e s1 es s2 ST C H IH]; intros es0 E; [rewrite app_nil_r; auto|].
  replace (es0 ++ e :: es) with ((es0 ++ [e]) ++ es) by (rewrite <- app_assoc; reflexivity). apply IH. eapply exec_snoc; eauto.
Qed.
Lemma run_calm es s : csteps zero es s -> gexec calm es s.
Proof. intros H. apply (exec_csteps [] zero es s); [constructor|exact H]. Qed.
Definition is_assigned (t : request * stage) : bool := match snd t with Assigned => true | _ => false end.
Fixpoint count_assigned (l : list (request * stage)) : nat := match l with [] => 0 | t :: l => (if is_assigned t then 1 else 0) + count_assigned l end.
Lemma count_calm s : count_assigned (threads s) <= 1 -> calm s.
Proof.
  unfold calm. generalize (threads s) as l. intros l H i j r r'. revert i j H.
  assert (POS : forall l j r, nth_error l j = Some (r, Assigned) -> 1 <= count_assigned l).
  { clear. induction l as [|t l IH]; intros [|j] r H; cbn in *; try discriminate; [injection H as ->; cbn; lia|apply IH in H; lia]. }
  induction l as [|t l IH]; intros [|i] [|j] H A B; cbn in *; try discriminate; auto.
  - injection A as ->. cbn in H. apply POS in B. lia.
  - injection B as ->. cbn in H. apply POS in A. lia.
  - f_equal. apply IH; auto. lia.
Qed.
Tactic Notation "gc" uconstr(t) := eapply csteps_cons; [eapply t; repeat sub_goal | apply count_calm; cbn; lia | cbn [threads files err move set_file set_err app upd length map fst]].

(* /run/grade/ is not atomic: it says 500 although it queued the first run. *)
Theorem C55_atomic_refuted : exists es s, gexec calm es s /\ In (Arrives 1 (Grade true [1; 2]%Z)) es /\ In (Answers 1 500%Z) es /\
  queued_by 1 es = [(1%Z, "a", 2%Z)].
Proof.
  eexists _, _. split.
  { apply run_calm. gc (arrives _ _ _ (NewRun 1 "a")). gc (new_lookup _ _ _ 0). gc (new_create _ _ _ 0). gc (new_copy _ _ _ 0). gc (new_copied _ _ _ 0).
    gc (arrives _ _ _ (Grade true [1; 2]%Z)). gc (grade_decoded _ _ _ 1). gc (grade_lookup _ _ _ 1). gc (grade_lookup _ _ _ 1). gc (grade_loaded _ _ _ 1).
    gc (inject_reads _ _ _ 1). gc (inject_queues _ _ _ 1). gc (grade_assigns_err _ _ _ 1). gc (grade_answers _ _ _ 1). apply csteps_nil. }
  cbn. tauto.
Qed.
(* A restart queues what it can. *)
Example C55_restart_met : exists es s, gexec (fun _ => True) es s /\ In (Restarts 1 [2; 1; 9]%Z) es /\ queued_by 1 es = [(1%Z, "a", 1%Z); (9%Z, "z", 2%Z)].
Proof.
  eexists _, _. split.
  { apply run_exec. go (arrives _ _ _ (NewRun 1 "a")). go (new_lookup _ _ _ 0). go (new_create _ _ _ 0). go (new_copy _ _ _ 0).
    eapply steps_cons; [apply (crashes _ _ _ [2; 1; 9]%Z); repeat (constructor; [cbn; intuition discriminate|]); constructor|cbn [threads files err move set_file set_err app upd length map fst]].
    go (arrives _ _ _ (NewRun 9 "z")). go (new_lookup _ _ _ 2). go (new_create _ _ _ 2). go (new_copy _ _ _ 2). go (new_copied _ _ _ 2).
    go (start_skips _ _ _ 1). go (inject_reads _ _ _ 1). go (inject_queues _ _ _ 1). go (inject_reads _ _ _ 1). go (inject_queues _ _ _ 1). go (start_done _ _ _ 1). fin. }
  cbn. tauto.
Qed.
(* Two /run/grade/ requests at the same time, calm. *)
Example C57_answers_met : exists es s, gexec calm es s /\ In (Arrives 1 (Grade false [1]%Z)) es /\ In (Arrives 2 (Grade false [2]%Z)) es /\
  In (Answers 1 200%Z) es /\ In (Answers 2 500%Z) es.
Proof.
  eexists _, _. split.
  { apply run_calm. gc (arrives _ _ _ (NewRun 1 "a")). gc (new_lookup _ _ _ 0). gc (new_create _ _ _ 0). gc (new_copy _ _ _ 0). gc (new_copied _ _ _ 0).
    gc (arrives _ _ _ (Grade false [1]%Z)). gc (arrives _ _ _ (Grade false [2]%Z)). gc (grade_decoded _ _ _ 1). gc (grade_decoded _ _ _ 2).
    gc (grade_lookup _ _ _ 1). gc (grade_lookup _ _ _ 2). gc (grade_loaded _ _ _ 1). gc (grade_loaded _ _ _ 2).
    gc (inject_reads _ _ _ 1). gc (grade_assigns_err _ _ _ 2). gc (inject_queues _ _ _ 1). gc (grade_answers _ _ _ 2). gc (grade_assigns_nil _ _ _ 1). gc (grade_answers _ _ _ 1). apply csteps_nil. }
  cbn. tauto.
Qed.
(* With overlap the answers can be those of the other request: the variable err
   belongs to all requests. *)
Theorem C57_own_answer_refuted : exists es s, gexec (fun _ => True) es s /\ In (Arrives 1 (Grade false [1]%Z)) es /\ In (Arrives 2 (Grade false [2]%Z)) es /\
  ids_queued_by 1 es = [] /\ In (Answers 1 200%Z) es /\ In (Answers 0 200%Z) es /\ ids_queued_by 2 es = [2%Z] /\ ids_queued_by 0 es = [2%Z].
Proof.
  eexists _, _. split.
  { apply run_exec. go (arrives _ _ _ (NewRun 2 "b")). go (new_lookup _ _ _ 0). go (new_create _ _ _ 0). go (new_copy _ _ _ 0). go (new_copied _ _ _ 0).
    go (inject_reads _ _ _ 0). go (inject_queues _ _ _ 0). go (new_done _ _ _ 0).
    go (arrives _ _ _ (Grade false [1]%Z)). go (arrives _ _ _ (Grade false [2]%Z)). go (grade_decoded _ _ _ 1). go (grade_decoded _ _ _ 2).
    go (grade_lookup _ _ _ 1). go (grade_lookup _ _ _ 2). go (grade_loaded _ _ _ 1). go (grade_loaded _ _ _ 2).
    go (inject_reads _ _ _ 2). go (inject_queues _ _ _ 2). go (grade_assigns_err _ _ _ 1). go (grade_assigns_nil _ _ _ 2). go (grade_answers _ _ _ 1). fin. }
  cbn. tauto.
Qed.
Theorem C57_failure_refuted : exists es s, gexec (fun _ => True) es s /\ In (Arrives 2 (Grade false [2]%Z)) es /\
  In (Answers 2 500%Z) es /\ ids_queued_by 2 es = [2%Z].
Proof.
  eexists _, _. split.
  { apply run_exec. go (arrives _ _ _ (NewRun 2 "b")). go (new_lookup _ _ _ 0). go (new_create _ _ _ 0). go (new_copy _ _ _ 0). go (new_copied _ _ _ 0).
    go (arrives _ _ _ (Grade false [1]%Z)). go (arrives _ _ _ (Grade false [2]%Z)). go (grade_decoded _ _ _ 1). go (grade_decoded _ _ _ 2).
    go (grade_lookup _ _ _ 1). go (grade_lookup _ _ _ 2). go (grade_loaded _ _ _ 1). go (grade_loaded _ _ _ 2).
    go (inject_reads _ _ _ 2). go (inject_queues _ _ _ 2). go (grade_assigns_nil _ _ _ 2). go (grade_assigns_err _ _ _ 1). go (grade_answers _ _ _ 2). fin. }
  cbn. tauto.
Qed.
Print Assumptions C54_one_creator.
Print Assumptions C54_source.
Print Assumptions C54_source_stays.
Print Assumptions C54_answers.
Print Assumptions C54_no_retry.
Print Assumptions C55_grade.
Print Assumptions C55_restart.
Print Assumptions C57_answers.
Print Assumptions C54_whole_body_refuted.
Print Assumptions C54_queued_once_refuted.
Print Assumptions C55_atomic_refuted.
Print Assumptions C57_own_answer_refuted.
Print Assumptions C57_failure_refuted.

(* C40: the continuous integration service under every interleaving and crash. *)
From Coq Require Import List Bool Arith ZArith Lia.
From Verif Require Import GoBase CiModel CiSysModel.
Import ListNotations.
Local Open Scope list_scope.

(* ---- Specification ---- *)
(* Executions in which every step is allowed by ok. *)
Inductive exec (ok : state -> event -> Prop) : state -> list event -> state -> Prop :=
| ex_nil : forall s, exec ok s [] s
| ex_step : forall s e s1 es s2, ok s e -> step s e s1 -> exec ok s1 es s2 -> exec ok s (e :: es) s2.

(* How many requests for c hold the right to run it: accepted or about to be, queued
   or running. *)
Definition one (x c : nat) : nat := if Nat.eqb x c then 1 else 0.
Definition in_flight (s : state) (c : nat) : nat :=
  sumf (fun r => match r with Stamped x | Sending x => one x c | _ => 0 end) (requests s) +
  sumf (fun x => one x c) (chan s) +
  match at_ s with Start x | Running x | Finished x => one x c | _ => 0 end.
Definition removing (s : state) (c : nat) : Prop := exists e a, at_ s = Removing c e a.
(* The directory of a commit is not being removed while it is in flight. *)
Definition undisturbed (s : state) : Prop := forall c, removing s c -> in_flight s c = 0.
Definition final (v : Z) : Prop := In v [CIStateSkipped; CIStateError; CIStatePassed; CIStateFailed].

(* ---- Proofs ---- *)
Definition marked (s : state) (c : nat) : nat := match fs s c with Some d => if stamp d then 1 else 0 | None => 0 end.
Lemma in_flight_req s i r r' c : nth_error (requests s) i = Some r ->
  in_flight (set_req s i r') c + match r with Stamped x | Sending x => one x c | _ => 0 end = in_flight s c + match r' with Stamped x | Sending x => one x c | _ => 0 end.
Proof.
  intros H. unfold in_flight, set_req. cbn [requests chan at_].
  pose proof (sumf_upd (fun r => match r with Stamped x | Sending x => one x c | _ => 0 end) _ _ _ r' H) as K. cbn beta in K. lia.
Qed.
Lemma in_flight_fs s x d c : in_flight (set_fs s x d) c = in_flight s c.
Proof. reflexivity. Qed.
Lemma marked_fs s x d c : marked (set_fs s x d) c = if Nat.eqb c x then match d with Some d => if stamp d then 1 else 0 | None => 0 end else marked s c.
Proof. unfold marked, set_fs. cbn [fs]. destruct (Nat.eqb c x); auto. Qed.
Lemma marked_req s i r c : marked (set_req s i r) c = marked s c.
Proof. reflexivity. Qed.
Lemma one_refl c : one c c = 1.
Proof. unfold one. rewrite Nat.eqb_refl. auto. Qed.
Lemma marked_at s c d : fs s c = Some d -> marked s c = if stamp d then 1 else 0.
Proof. unfold marked. intros ->. auto. Qed.
Lemma write_marked s c v ok s' : write s c v ok s' -> (forall x, marked s' x = marked s x) /\ (forall x, in_flight s' x = in_flight s x) /\ requests s' = requests s /\ chan s' = chan s /\ cache s' = cache s /\ at_ s' = at_ s.
Proof.
  intros H. inversion H; subst; repeat split. intros x. rewrite marked_fs. destruct (Nat.eqb_spec x c) as [->|]; auto. rewrite (marked_at _ _ _ H0). cbn. auto.
Qed.
Lemma write_nth s c v ok s' i : write s c v ok s' -> nth_error (requests s') i = nth_error (requests s) i.
Proof. intros H. inversion H; subst; auto. Qed.

Lemma req_inflight s e s' : req_step s e s' -> (forall c, in_flight s c <= marked s c) -> forall c, in_flight s' c <= marked s' c.
Proof.
  intros H I c. specialize (I c). inversion H; subst.
  - unfold in_flight, add_req in *. cbn [requests chan at_] in *. rewrite sumf_app. cbn [sumf]. change (marked {| fs := fs s; requests := requests s ++ [Arrived c0]; chan := chan s; cache := cache s; at_ := at_ s |} c) with (marked s c). lia.
  - pose proof (in_flight_req s i _ (Answered c0 (Served v)) c H0). rewrite marked_req. lia.
  - pose proof (in_flight_req s i _ (Missing c0) c H0). rewrite marked_req. lia.
  - pose proof (in_flight_req s i _ (Missing c0) c H0). rewrite marked_req. lia.
  - pose proof (in_flight_req s i _ (Answered c0 NotFound) c H0). rewrite marked_req. lia.
  - pose proof (in_flight_req s i _ (Checked c0) c H0). rewrite marked_req. lia.
  - match goal with |- in_flight (set_req ?t _ _) _ <= _ => pose proof (in_flight_req t i _ (Made c0) c H0) as K end. rewrite marked_req. rewrite in_flight_fs in *. rewrite marked_fs.
    destruct (Nat.eqb_spec c c0) as [->|]; [|lia]. unfold marked in I. destruct (fs s c0) as [d|]; cbn [stamp] in *; lia.
  - pose proof (in_flight_req s i _ (Answered c0 Failed500) c H0). rewrite marked_req. lia.
  - match goal with |- in_flight (set_req ?t _ _) _ <= _ => pose proof (in_flight_req t i _ (Stamped c0) c H0) as K end. rewrite marked_req. rewrite in_flight_fs in *. rewrite marked_fs.
    destruct (Nat.eqb_spec c c0) as [->|N]; cbn [stamp]; [rewrite (marked_at _ _ _ H1), H2 in I; rewrite one_refl in K; lia|]. unfold one in K. destruct (Nat.eqb_spec c0 c); [congruence|lia].
  - pose proof (in_flight_req s i _ (Answered c0 Failed500) c H0). rewrite marked_req. lia.
  - destruct (write_marked _ _ _ _ _ H1) as (M & F & _). rewrite <- (write_nth _ _ _ _ _ i H1) in H0. pose proof (in_flight_req s'0 i _ (Sending c0) c H0). rewrite marked_req, M. rewrite F in *. cbn iota in *. lia.
  - destruct (write_marked _ _ _ _ _ H1) as (M & F & _). rewrite <- (write_nth _ _ _ _ _ i H1) in H0. pose proof (in_flight_req s'0 i _ (Answered c0 Failed500) c H0). rewrite marked_req, M. rewrite F in *. cbn iota in *. lia.
  - pose proof (in_flight_req (set_chan s (chan s ++ [c0])) i _ (Answered c0 Accepted) c H0) as K. rewrite marked_req. unfold in_flight, set_chan in *. cbn [requests chan at_] in *. rewrite sumf_app in K. cbn [sumf] in K. change (marked _ c) with (marked s c). cbn iota in K. lia.
Qed.
Lemma in_flight_at s p c : in_flight (set_at s p) c + match at_ s with Start x | Running x | Finished x => one x c | _ => 0 end = in_flight s c + match p with Start x | Running x | Finished x => one x c | _ => 0 end.
Proof. unfold in_flight, set_at. cbn [requests chan at_]. lia. Qed.
Lemma then_none a c : match then_ a with Start x | Running x | Finished x => one x c | _ => 0 end = 0.
Proof. destruct a; auto. Qed.
Lemma ev_none (e : bool) a c : match (if e then Evicting a else then_ a) with Start x | Running x | Finished x => one x c | _ => 0 end = 0.
Proof. destruct e; auto using then_none. Qed.
Lemma run_inflight s e s' : run_step s e s' -> undisturbed s -> (forall c, in_flight s c <= marked s c) -> forall c, in_flight s' c <= marked s' c.
Proof.
  intros H U I c. pose proof (I c) as Ic.
  assert (AT : forall t p, (forall x, marked t x = marked s x) -> in_flight t c <= in_flight s c -> at_ t = at_ s ->
     (match at_ s with Start x | Running x | Finished x => one x c | _ => 0 end >= match p with Start x | Running x | Finished x => one x c | _ => 0 end) -> in_flight (set_at t p) c <= marked (set_at t p) c).
  { intros t p M F A G. change (marked (set_at t p) c) with (marked t c). rewrite M. pose proof (in_flight_at t p c). rewrite A in *. lia. }
  inversion H; subst.
  - apply AT; auto. rewrite H0. lia.
  - apply AT; auto. rewrite H0. lia.
  - apply AT; auto. rewrite H0. lia.
  - apply AT; auto. rewrite H0. lia.
  - apply AT; auto. cbn. lia.
  - apply AT; auto. cbn. lia.
  - apply AT; auto. cbn. lia.
  - apply AT; auto. rewrite then_none. lia.
  - rewrite in_flight_fs, marked_fs. destruct (Nat.eqb_spec c c0) as [->|]; [|auto]. cbn. rewrite (U c0); [lia|]. do 2 eexists. eauto.
  - rewrite in_flight_fs, marked_fs. destruct (Nat.eqb_spec c c0) as [->|]; [|auto]. cbn. rewrite (U c0); [lia|]. do 2 eexists. eauto.
  - match goal with |- in_flight (set_at ?t ?p) c <= _ => pose proof (in_flight_at t p c) as K end. rewrite ev_none in K. rewrite in_flight_fs in K. cbn [at_ set_fs] in K. rewrite H0 in K. cbn [Nat.add] in K.
    match goal with |- _ <= marked (set_at ?t ?p) c => change (marked (set_at t p) c) with (marked t c) end. rewrite marked_fs. destruct (Nat.eqb_spec c c0) as [->|]; [|lia]. rewrite (U c0) in K; [lia|]. do 2 eexists. eauto.
  - apply AT; auto. rewrite ev_none. lia.
  - apply AT; auto. cbn. lia.
  - pose proof (in_flight_at (set_chan s l) (Start c0) c) as K. change (marked _ c) with (marked s c). unfold in_flight, set_chan, set_at in *. cbn [requests chan at_] in *. rewrite H0, H1 in *. cbn [sumf] in *. lia.
  - destruct (write_marked _ _ _ _ _ H2) as (M & F & _ & _ & _ & A). apply AT; auto. rewrite F. lia. rewrite H0. lia.
  - destruct (write_marked _ _ _ _ _ H1) as (M & F & _ & _ & _ & A). apply AT; auto. rewrite F. lia. rewrite H0. lia.
  - destruct (write_marked _ _ _ _ _ H1) as (M & F & _ & _ & _ & A). rewrite M, F. auto.
  - destruct (write_marked _ _ _ _ _ H2) as (M & F & _ & _ & _ & A). apply AT; auto. rewrite F. lia. rewrite H0. lia.
  - match goal with |- in_flight (set_at ?t ?p) c <= _ => pose proof (in_flight_at t p c) as K end. rewrite in_flight_fs in K. cbn [at_ set_fs] in K. rewrite H0 in K. 
    match goal with |- _ <= marked (set_at ?t ?p) c => change (marked (set_at t p) c) with (marked t c) end. rewrite marked_fs. destruct (Nat.eqb_spec c c0) as [->|]; [|lia]. cbn [stamp].
    assert (marked s c0 <= 1) by (unfold marked; destruct (fs s c0) as [[[] ?]|]; cbn; lia). rewrite one_refl in K. lia.
  - apply AT; auto. rewrite H0. lia.
Qed.
Lemma exec_marked (ok : state -> event -> Prop) s es s' : (forall s e, ok s e -> undisturbed s) -> exec ok s es s' -> (forall c, in_flight s c <= marked s c) -> forall c, in_flight s' c <= marked s' c.
Proof.
  intros OK H. induction H as [|s e s1 es s2 O St H IH]; [auto|]. intros I. apply IH. destruct St as [R|R|R].
  - eapply req_inflight; eauto.
  - eapply run_inflight; eauto.
  - inversion R; subst. intros c. unfold in_flight. cbn. lia.
Qed.

(* As long as no commit's directory is removed under its feet, no commit is ever in
   flight twice: for every interleaving of requests, runs and crashes. *)
Theorem C40_one_in_flight : forall es s, exec (fun s _ => undisturbed s) init es s -> forall c, in_flight s c <= 1.
Proof.
  intros es s H c. assert (K : in_flight s c <= marked s c).
  { revert c. eapply exec_marked; [|exact H|]; [auto|]. intros c. unfold in_flight. cbn. lia. }
  unfold marked in K. destruct (fs s c) as [[[] ?]|]; cbn in K; lia.
Qed.
Print Assumptions C40_one_in_flight.

(* ---- Unfinished reports are marked ---- *)
(* No write of the goroutine and no removal fails, and the process does not die in
   the middle of a removal. *)
Definition careful (s : state) (e : event) : Prop :=
  undisturbed s /\ (forall c, e <> WriteFails c) /\ (forall c, e <> RemoveFails c) /\ (e = Crash -> forall c, ~ removing s c).
Definition finals (s : state) : Prop :=
  (forall c d v, fs s c = Some d -> stamp d = false -> report d = Some v -> final v \/ removing s c) /\
  (forall c d, at_ s = Finished c -> fs s c = Some d -> exists v, report d = Some v /\ final v).
Lemma other_in_flight s c i r : in_flight s c <= 1 -> nth_error (requests s) i = Some r -> match r with Stamped x | Sending x => x = c | _ => False end -> at_ s <> Finished c.
Proof.
  intros L N M A. unfold in_flight in L. rewrite A, one_refl in L.
  assert (K : 1 <= sumf (fun r => match r with Stamped x | Sending x => one x c | _ => 0 end) (requests s)).
  { clear - N M. revert i N. induction (requests s) as [|h t IH]; intros [|i] N; cbn in *; try discriminate.
    - injection N as ->. destruct r; try contradiction; subst; rewrite one_refl; lia.
    - specialize (IH i N). lia. }
  lia.
Qed.
Lemma req_finals s e s' : req_step s e s' -> (forall c, in_flight s c <= marked s c) -> finals s -> finals s'.
Proof.
  intros H T F. destruct F as [F G].
  assert (SAME : forall t, fs t = fs s -> at_ t = at_ s -> finals t).
  { intros t E1 E2. split; rewrite E1; intros c d.
    - intros v A B C. destruct (F c d v A B C) as [|(x & y & K)]; [auto|right]. exists x, y. congruence.
    - rewrite E2. apply G. }
  inversion H; subst; try (apply SAME; reflexivity).
  - split; cbn [set_req set_fs fs at_ removing].
    + intros x d v A B C. destruct (Nat.eqb_spec x c) as [->|]; [|destruct (F x d v A B C) as [|(y & z & K)]; [auto|right; exists y, z; exact K]].
      injection A as <-. destruct (fs s c) as [d'|] eqn:E; [|discriminate]. destruct (F c _ v E B C) as [|(y & z & K)]; [auto|right; exists y, z; exact K].
    + intros x d A B. destruct (Nat.eqb_spec x c) as [->|]; [|eauto]. injection B as <-. destruct (fs s c) as [d'|] eqn:E; [eauto|].
      exfalso. specialize (T c). unfold in_flight, marked in T. rewrite A, one_refl, E in T. lia.
  - split; cbn [set_req set_fs fs at_ removing].
    + intros x d' v A B C. destruct (Nat.eqb_spec x c) as [->|]; [|destruct (F x d' v A B C) as [|(y & z & K)]; [auto|right; exists y, z; exact K]]. injection A as <-. discriminate.
    + intros x d' A B. destruct (Nat.eqb_spec x c) as [->|]; [|eauto]. injection B as <-. destruct (G c d A H1) as (v & K & L). eauto.
  - inversion H1; subst. assert (M1 : marked s c <= 1) by (unfold marked; destruct (fs s c) as [[[] ?]|]; cbn; lia).
    assert (L1 : in_flight s c <= 1) by (specialize (T c); lia). pose proof (other_in_flight s c i _ L1 H0 eq_refl) as NF.
    split; cbn [set_req set_fs fs at_ removing].
    + intros x d' v A B C. destruct (Nat.eqb_spec x c) as [->|]; [|destruct (F x d' v A B C) as [|(y & z & K)]; [auto|right; exists y, z; exact K]]. injection A as <-. cbn in B.
      exfalso. specialize (T c). pose proof (in_flight_req s i _ (Answered c NotFound) c H0) as J. cbn iota in J. rewrite one_refl in J. rewrite (marked_at _ _ _ H2), B in T. lia.
    + intros x d' A B. destruct (Nat.eqb_spec x c) as [->|]; [contradiction|eauto].
  - inversion H1; subst. apply SAME; reflexivity.
Qed.
Lemma run_finals s e s' : run_step s e s' -> careful s e -> (forall c, in_flight s c <= marked s c) -> finals s -> finals s'.
Proof.
  intros H (U & NW & NR & _) T [F G].
  assert (AT : forall t p, fs t = fs s -> at_ t = at_ s -> (forall c e a, at_ s <> Removing c e a) -> (forall c, p <> Finished c) -> finals (set_at t p)).
  { intros t p E1 E2 N1 N2. split; cbn [set_at fs at_]; rewrite E1.
    - intros c d v A B C. destruct (F c d v A B C) as [|(x & y & K)]; [auto|]. exfalso. eapply N1; eauto.
    - intros c d A. exfalso. eapply N2; eauto. }
  inversion H; subst.
  - apply AT; auto; congruence.
  - apply AT; auto; congruence.
  - apply AT; auto; congruence.
  - apply AT; auto; congruence.
  - apply AT; auto; congruence.
  - apply AT; auto; congruence.
  - apply AT; auto; congruence.
  - apply AT; auto; try congruence. intros c. destruct a; discriminate.
  - split; cbn [set_fs fs at_ removing].
    + intros x d' v A B C. destruct (Nat.eqb_spec x c) as [->|]; [right; exists e0, a; exact H0|]. destruct (F x d' v A B C) as [|(y & z & K)]; [auto|right; exists y, z; exact K].
    + intros x d' A. congruence.
  - split; cbn [set_fs fs at_ removing].
    + intros x d' v A B C. destruct (Nat.eqb_spec x c) as [->|]; [right; exists e0, a; exact H0|]. destruct (F x d' v A B C) as [|(y & z & K)]; [auto|right; exists y, z; exact K].
    + intros x d' A. congruence.
  - split; cbn [set_at set_fs fs at_ removing].
    + intros x d' v A B C. destruct (Nat.eqb_spec x c) as [->|N]; [discriminate|]. destruct (F x d' v A B C) as [|(y & z & K)]; [auto|]. exfalso. rewrite H0 in K. injection K as E. auto.
    + intros x d' A. destruct e0; [|destruct a]; discriminate.
  - exfalso. eapply NR; reflexivity.
  - apply AT; auto; congruence.
  - apply AT; auto; congruence.
  - inversion H2; subst; [|exfalso; eapply NW; reflexivity]. split; cbn [set_at set_fs fs at_ removing].
    + intros x d' v' A B C. destruct (Nat.eqb_spec x c) as [->|N].
      * injection A as <-. cbn in C. injection C as <-. left. cbn in H1. unfold final. cbn. tauto.
      * destruct (F x d' v' A B C) as [|(y & z & K)]; [auto|]. congruence.
    + intros x d' A. discriminate.
  - inversion H1; subst; [|exfalso; eapply NW; reflexivity]. split; cbn [set_at set_fs fs at_ removing].
    + intros x d' v' A B C. destruct (Nat.eqb_spec x c) as [->|N].
      * injection A as <-. exfalso. specialize (T c). unfold in_flight in T. rewrite (marked_at _ _ _ H2) in T. cbn in B. rewrite B, H0, one_refl in T. lia.
      * destruct (F x d' v' A B C) as [|(y & z & K)]; [auto|]. congruence.
    + intros x d' A. discriminate.
  - inversion H1; subst; [|exfalso; eapply NW; reflexivity]. split; cbn [set_at set_fs fs at_ removing].
    + intros x d' v' A B C. destruct (Nat.eqb_spec x c) as [->|N].
      * injection A as <-. exfalso. specialize (T c). unfold in_flight in T. rewrite (marked_at _ _ _ H2) in T. cbn in B. rewrite B, H0, one_refl in T. lia.
      * destruct (F x d' v' A B C) as [|(y & z & K)]; [auto|]. congruence.
    + intros x d' A. congruence.
  - inversion H2; subst; [|exfalso; eapply NW; reflexivity]. split; cbn [set_at set_fs fs at_ removing].
    + intros x d' v' A B C. destruct (Nat.eqb_spec x c) as [->|N].
      * injection A as <-. exfalso. specialize (T c). unfold in_flight in T. rewrite (marked_at _ _ _ H3) in T. cbn in B. rewrite B, H0, one_refl in T. lia.
      * destruct (F x d' v' A B C) as [|(y & z & K)]; [auto|]. congruence.
    + intros x d' A B. injection A as <-. rewrite Nat.eqb_refl in B. injection B as <-. cbn. eexists. split; [reflexivity|]. cbn in H1. unfold final. cbn. tauto.
  - split; cbn [set_at set_fs fs at_ removing].
    + intros x d' v A B C. destruct (Nat.eqb_spec x c) as [->|N].
      * injection A as <-. cbn in C. destruct (G c d H0 H1) as (v' & E & L). left. congruence.
      * destruct (F x d' v A B C) as [|(y & z & K)]; [auto|]. congruence.
    + intros x d' A. discriminate.
  - exfalso. eapply NR; reflexivity.
Qed.
Lemma exec_finals s es s' : exec careful s es s' -> (forall c, in_flight s c <= marked s c) -> finals s -> finals s'.
Proof.
  intros H. induction H as [|s e s1 es s2 O St H IH]; [auto|]. intros T F.
  assert (T1 : forall c, in_flight s1 c <= marked s1 c).
  { apply (exec_marked (fun s _ => undisturbed s) s [e]); auto. econstructor; [apply O|exact St|constructor]. }
  apply IH; [exact T1|]. destruct St as [R|R|R].
  - eapply req_finals; eauto.
  - eapply run_finals; eauto.
  - destruct O as (U & _ & _ & NC). inversion R; subst. destruct F as [F G]. split; cbn [fs at_]; [|intros; discriminate].
    intros c d v A B C. destruct (F c d v A B C) as [|K]; [auto|]. exfalso. eapply NC; eauto.
Qed.
Lemma init_finals : (forall c, in_flight init c <= marked init c) /\ finals init.
Proof. split; [intros c; unfold in_flight; cbn; lia|]. split; cbn; intros; discriminate. Qed.

(* Whenever a report that is not final is on disk, its directory carries the mark of
   a run that is not finished (or the directory is being removed). *)
Theorem C40_unfinished_reports_are_marked : forall es s, exec careful init es s ->
  forall c d v, fs s c = Some d -> report d = Some v -> ~ final v -> stamp d = true \/ removing s c.
Proof.
  intros es s H c d v A B C. destruct init_finals as [T F]. destruct (exec_finals _ _ _ H T F) as [K _].
  destruct (stamp d) eqn:E; [auto|]. destruct (K c d v A E B); [contradiction|auto].
Qed.
Print Assumptions C40_unfinished_reports_are_marked.

(* ---- Restarting ---- *)
Definition quiet (s : state) (e : event) : Prop := forall c, e <> RemoveFails c.
Definition rest (a : after) : list nat := match a with ToReload l => l | ToIdle => [] end.
Definition pending (p : place) : list nat :=
  match p with
  | Reload l => l | Caching c a => c :: rest a | Evicting a => rest a | Removing c _ a => c :: rest a
  | _ => [] end.
Definition reloading (p : place) : Prop :=
  match p with Reload _ => True | Caching _ (ToReload _) | Evicting (ToReload _) | Removing _ _ (ToReload _) => True | _ => False end.
Record reload_inv (f0 : nat -> option dir) (s : state) : Prop := {
  ri_place : reloading (at_ s) \/ at_ s = Idle;
  ri_nodup : NoDup (pending (at_ s));
  ri_done : forall c, ~ In c (pending (at_ s)) -> fs s c = None \/ (fs s c = f0 c /\ In c (cache s) /\ exists d, fs s c = Some d /\ stamp d = false);
  ri_todo : forall c, In c (pending (at_ s)) -> ~ removing s c -> fs s c = f0 c;
  ri_cache : forall c, In c (cache s) -> ~ In c (pending (at_ s)) /\ fs s c <> None;
  ri_caching : forall c a, at_ s = Caching c a -> exists d, f0 c = Some d /\ stamp d = false }.
Lemma uncached_in l c x : In x (uncached l c) <-> In x l /\ x <> c.
Proof. unfold uncached. rewrite filter_In. destruct (Nat.eqb_spec x c); cbn; intuition congruence. Qed.
Inductive runs (ok : state -> event -> Prop) : state -> list event -> state -> Prop :=
| rn_nil : forall s, runs ok s [] s
| rn_step : forall s e s1 es s2, ok s e -> run_step s e s1 -> runs ok s1 es s2 -> runs ok s (e :: es) s2.
Lemma reload_step f0 s e s' : run_step s e s' -> quiet s e -> at_ s <> Idle -> reload_inv f0 s -> reload_inv f0 s'.
Proof.
  intros H Q NI I. destruct I as [P ND DN TD CA CC]. destruct P as [P|P]; [|contradiction].
  assert (RM : forall t c, removing t c -> exists e a, at_ t = Removing c e a) by auto.
  inversion H; subst; rewrite ?H0 in *; cbn [reloading] in P; try contradiction.
  - cbn [pending] in *. inversion ND; subst. constructor; cbn [set_at at_ fs cache pending reloading]; auto.
    + intros x N. destruct (Nat.eq_dec x c) as [->|]; [auto|]. apply DN. cbn. intuition.
    + intros x I _. apply TD; [cbn; auto|]. intros (? & ? & K). congruence.
    + intros x I. destruct (CA x I) as [A B]. split; [cbn in A; tauto|auto].
    + discriminate.
  - cbn [pending] in *. constructor; cbn [set_at at_ fs cache pending reloading rest]; auto.
    + intros x I NR. apply TD; [auto|]. intros (? & ? & K). congruence.
    + discriminate.
  - cbn [pending] in *. constructor; cbn [set_at at_ fs cache pending reloading rest]; auto.
    + intros x I NR. apply TD; [auto|]. intros (? & ? & K). congruence.
    + intros x a [= <- <-]. exists d. split; [|auto]. rewrite <- H1. symmetry. apply TD; [cbn; auto|]. intros (? & ? & K). congruence.
  - cbn [pending] in *. constructor; cbn [set_at at_ fs cache pending]; auto; discriminate.
  - destruct a as [l|]; [|contradiction]. cbn [pending rest] in *. inversion ND; subst. destruct (CC c _ eq_refl) as (d & E & S).
    assert (FC : fs s c = f0 c) by (apply TD; [cbn; auto|]; intros (? & ? & K); congruence).
    constructor; cbn [set_at set_cache at_ fs cache pending reloading rest]; auto.
    + intros x N. destruct (Nat.eq_dec x c) as [->|NE].
      * right. split; [auto|]. split; [left; auto|]. exists d. rewrite FC. auto.
      * destruct (DN x) as [A|(A & B & C)]; [cbn; intuition|auto|]. right. split; [auto|]. split; [|auto]. right. apply uncached_in. auto.
    + intros x I _. apply TD; [cbn; auto|]. intros (? & ? & K). congruence.
    + intros x [<-|I]; [split; [auto|congruence]|]. apply uncached_in in I as [I NE]. destruct (CA x I) as [A B]. split; [cbn in A; tauto|auto].
    + discriminate.
  - destruct a as [l|]; [|contradiction]. cbn [pending rest] in *. constructor; cbn [set_at at_ fs cache pending reloading rest]; auto.
    + intros x I NR. apply TD; [auto|]. intros (? & ? & K). congruence.
    + discriminate.
  - destruct a as [l|]; [|contradiction]. cbn [pending rest] in *. destruct (CA c H1) as [N1 N2]. constructor; cbn [set_at set_cache at_ fs cache pending reloading rest]; auto.
    + constructor; auto.
    + intros x N. destruct (DN x) as [A|(A & B & C)]; [cbn in N; tauto|auto|]. right. split; [auto|]. split; [|auto]. apply uncached_in. cbn in N. intuition.
    + intros x [<-|I] NR; [exfalso; apply NR; do 2 eexists; reflexivity|]. apply TD; [auto|]. intros (? & ? & K). congruence.
    + intros x I. apply uncached_in in I as [I NE]. destruct (CA x I) as [A B]. cbn. intuition.
    + discriminate.
  - destruct a as [l|]; [|contradiction]. cbn [pending rest then_] in *. constructor; cbn [set_at at_ fs cache pending reloading rest]; auto.
    + intros x I _. apply TD; [auto|]. intros (? & ? & K). congruence.
    + discriminate.
  - destruct a as [l|]; [|contradiction]. cbn [pending rest] in *. constructor; cbn [set_fs at_ fs cache removing]; rewrite ?H0; cbn [pending rest reloading]; auto.
    + intros x N. destruct (Nat.eqb_spec x c) as [->|]; [exfalso; apply N; left; auto|]. auto.
    + intros x I NR. destruct (Nat.eqb_spec x c) as [->|]; [exfalso; apply NR; do 2 eexists; exact H0|]. apply TD; auto.
    + intros x I. destruct (CA x I) as [A B]. split; [auto|]. destruct (Nat.eqb_spec x c); [discriminate|auto].
  - destruct a as [l|]; [|contradiction]. cbn [pending rest] in *. constructor; cbn [set_fs at_ fs cache removing]; rewrite ?H0; cbn [pending rest reloading]; auto.
    + intros x N. destruct (Nat.eqb_spec x c) as [->|]; [exfalso; apply N; left; auto|]. auto.
    + intros x I NR. destruct (Nat.eqb_spec x c) as [->|]; [exfalso; apply NR; do 2 eexists; exact H0|]. apply TD; auto.
    + intros x I. destruct (CA x I) as [A B]. split; [auto|]. destruct (Nat.eqb_spec x c); [discriminate|auto].
  - destruct a as [l|]; [|contradiction]. cbn [pending rest] in *. inversion ND; subst.
    assert (PE : pending (if e0 then Evicting (ToReload l) else then_ (ToReload l)) = l) by (destruct e0; auto).
    constructor; cbn [set_at set_fs at_ fs cache removing]; rewrite ?PE; auto.
    + left. destruct e0; cbn; auto.
    + intros x N. destruct (Nat.eqb_spec x c) as [->|NE]; [auto|]. apply DN. cbn. intuition.
    + intros x I _. destruct (Nat.eqb_spec x c) as [->|NE]; [contradiction|]. apply TD; [cbn; auto|]. intros (? & ? & K). rewrite H0 in K. injection K as E _ _. auto.
    + intros x I. destruct (CA x I) as [A B]. cbn in A. split; [tauto|]. destruct (Nat.eqb_spec x c); [|auto]. subst. tauto.
    + intros x a K. destruct e0; discriminate.
  - exfalso. eapply Q; reflexivity.
Qed.
Lemma reload_runs f0 s es s' : runs (fun s e => quiet s e /\ at_ s <> Idle) s es s' -> reload_inv f0 s -> reload_inv f0 s'.
Proof. intros H. induction H as [|s e s1 es s2 [O1 O2] St H IH]; [auto|]. intros I. apply IH. eapply reload_step; eauto. Qed.

(* Whatever the disk holds when the process dies, and wherever it dies: once it has
   started again and gone through the directories (no removal failing, no request
   coming in before), no directory carries a mark, the unfinished runs are gone, and
   what is left of the finished ones is as it was, and in the cache. *)
Theorem C40_restart_keeps_finished_runs_only : forall s s1 es s2,
  crash_step s Crash s1 -> runs (fun s e => quiet s e /\ at_ s <> Idle) s1 es s2 -> at_ s2 = Idle ->
  (forall c d, fs s2 c = Some d -> stamp d = false /\ fs s c = Some d /\ In c (cache s2)) /\
  (forall c d, fs s c = Some d -> stamp d = true -> fs s2 c = None) /\
  (forall c d, fs s c = Some d -> stamp d = false -> In c (cache s2) -> fs s2 c = Some d) /\
  (forall c, in_flight s2 c = 0).
Proof.
  intros s s1 es s2 C R A.
  assert (K : reload_inv (fs s) s2).
  { inversion C; subst. eapply reload_runs; [exact R|]. constructor; cbn; auto; try contradiction; try discriminate. intros c N. left. destruct (fs s c) eqn:E; [|auto]. exfalso. apply N, H0. congruence. }
  assert (NF : requests s2 = [] /\ chan s2 = []).
  { assert (K0 : requests s1 = [] /\ chan s1 = []) by (inversion C; subst; auto).
    assert (P1 : reloading (at_ s1)) by (inversion C; subst; cbn; auto). assert (I1 : reload_inv (fs s) s1).
    { inversion C; subst. constructor; cbn; auto; try contradiction; try discriminate. intros c N. left. destruct (fs s c) eqn:E; [|auto]. exfalso. apply N, H0. congruence. }
    clear - R K0 I1. induction R as [|s' e s1' es s2' [O1 O2] St R IH]; [auto|]. apply IH; [|eapply reload_step; eauto].
    destruct K0 as [K1 K2]. destruct (ri_place _ _ I1) as [P|P]; [|contradiction]. inversion St; subst; cbn; auto; rewrite H in P; cbn in P; contradiction. }
  destruct K as [_ ND DN TD CA _]. rewrite A in *. cbn [pending] in *. repeat split.
  - destruct (DN c (fun x => x)) as [E|(E & I & d' & E' & S)]; [congruence|]. congruence.
  - destruct (DN c (fun x => x)) as [E|(E & I & d' & E' & S)]; [congruence|]. congruence.
  - destruct (DN c (fun x => x)) as [E|(E & I & d' & E' & S)]; [congruence|]. auto.
  - intros c d F S. destruct (DN c (fun x => x)) as [E|(E & I & d' & E' & S')]; [auto|]. congruence.
  - intros c d F S I. destruct (DN c (fun x => x)) as [E|(E & _ & d' & E' & S')]; [|congruence]. destruct (CA c I). contradiction.
  - intros c. unfold in_flight. destruct NF as [-> ->]. rewrite A. reflexivity.
Qed.
Print Assumptions C40_restart_keeps_finished_runs_only.

(* A finished run whose directory the restart does not set out to remove (because
   the cache is full, or its size cannot be taken) is there afterwards, and cached. *)
Theorem C40_finished_runs_kept : forall s s1 es s2 c d,
  crash_step s Crash s1 -> runs (fun s e => (quiet s e /\ at_ s <> Idle) /\ ~ removing s c) s1 es s2 -> at_ s2 = Idle ->
  fs s c = Some d -> stamp d = false -> fs s2 c = Some d /\ In c (cache s2).
Proof.
  intros s s1 es s2 c d C R A F S.
  assert (R' : runs (fun s e => quiet s e /\ at_ s <> Idle) s1 es s2).
  { clear - R. induction R as [|s e s1 es s2 [O _] St R IH]; econstructor; eauto. }
  assert (I1 : reload_inv (fs s) s1).
  { inversion C; subst. constructor; cbn; auto; try contradiction; try discriminate. intros x N. left. destruct (fs s x) eqn:E; [|auto]. exfalso. apply N, H0. congruence. }
  assert (F1 : fs s1 c = Some d) by (inversion C; subst; exact F).
  assert (F2 : fs s2 c = Some d).
  { clear - R I1 F1. induction R as [|s' e s1' es s2' [[O1 O2] O3] St R IH]; [auto|]. apply IH; [eapply reload_step; eauto|].
    destruct (ri_place _ _ I1) as [P|P]; [|contradiction].
    inversion St; subst; cbn [set_at set_cache set_fs fs]; try exact F1; try (rewrite H in P; cbn in P; contradiction);
      destruct (Nat.eqb_spec c c0) as [->|]; try exact F1; exfalso; apply O3; do 2 eexists; exact H. }
  split; [exact F2|]. destruct (reload_runs _ _ _ _ R' I1) as [_ _ DN _ _ _]. rewrite A in DN. cbn [pending] in DN.
  destruct (DN c (fun x => x)) as [E|(_ & I & _)]; [congruence|exact I].
Qed.
Print Assumptions C40_finished_runs_kept.

(* So after a restart every report that is served is final, until its commit is run
   again. *)
Theorem C40_reports_are_final_after_restart : forall es s s1 es' s2, exec careful init es s -> (forall c, ~ removing s c) ->
  crash_step s Crash s1 -> runs (fun s e => quiet s e /\ at_ s <> Idle) s1 es' s2 -> at_ s2 = Idle ->
  forall c d v, fs s2 c = Some d -> report d = Some v -> final v.
Proof.
  intros es s s1 es' s2 H NR C R A c d v D V. destruct (C40_restart_keeps_finished_runs_only _ _ _ _ C R A) as (K & _). destruct (K c d D) as (S & D0 & _).
  destruct (exec_finals _ _ _ H (proj1 init_finals) (proj2 init_finals)) as [F _]. destruct (F c d v D0 S V); [auto|]. exfalso. eapply NR; eauto.
Qed.
Print Assumptions C40_reports_are_final_after_restart.

(* ---- A mark left behind ---- *)
(* If the first report cannot be written, the mark stays: the commit cannot be run
   any more, and all requests for it fail, until the process is started again. *)
Definition stuck (s : state) (c : nat) : Prop := in_flight s c = 0 /\ exists d, fs s c = Some d /\ stamp d = true /\ report d = None.
Lemma zero_req s i r c : nth_error (requests s) i = Some r -> in_flight s c = 0 -> match r with Stamped x | Sending x => x <> c | _ => True end.
Proof.
  intros N Z. pose proof (in_flight_req s i r (Answered c NotFound) c N) as K. rewrite Z in K. destruct r as [| | | |x|x|]; auto; intros ->; cbn iota in K; rewrite one_refl in K; lia.
Qed.
Lemma stuck_fs s x d c : stuck s c -> x <> c -> stuck (set_fs s x d) c.
Proof. intros [A (d' & B)] N. split; [exact A|]. exists d'. cbn. destruct (Nat.eqb_spec c x); [congruence|]. exact B. Qed.
Lemma stuck_write s x v ok s' c : stuck s c -> x <> c -> write s x v ok s' -> stuck s' c.
Proof. intros S N W. inversion W; subst; [apply stuck_fs; auto|auto]. Qed.
Lemma stuck_req s i r r' c : stuck s c -> nth_error (requests s) i = Some r -> match r' with Stamped x | Sending x => x <> c | _ => True end -> stuck (set_req s i r') c.
Proof.
  intros [A B] N M. split; [|exact B]. pose proof (in_flight_req s i r r' c N) as K. rewrite A in K.
  assert (match r' with Stamped x | Sending x => one x c | _ => 0 end = 0) by (destruct r' as [| | | |x|x|]; auto; unfold one; destruct (Nat.eqb_spec x c); auto; congruence). lia.
Qed.
Lemma stuck_at s p c : stuck s c -> match p with Start x | Running x | Finished x => x <> c | _ => True end -> stuck (set_at s p) c.
Proof.
  intros [A B] M. split; [|exact B]. pose proof (in_flight_at s p c) as K. rewrite A in K.
  assert (match p with Start x | Running x | Finished x => one x c | _ => 0 end = 0) by (destruct p as [| | | | |x|x|x|]; auto; unfold one; destruct (Nat.eqb_spec x c); auto; congruence). lia.
Qed.
Lemma stuck_not_at s c : stuck s c -> at_ s <> Start c /\ at_ s <> Running c /\ at_ s <> Finished c.
Proof. intros [A _]. unfold in_flight in A. repeat split; intros E; rewrite E, one_refl in A; lia. Qed.
Lemma stuck_not_chan s c l x : stuck s c -> chan s = x :: l -> x <> c.
Proof. intros [A _] E ->. unfold in_flight in A. rewrite E in A. cbn [sumf] in A. rewrite one_refl in A. lia. Qed.
Theorem C40_failed_first_write_blocks_commit : forall c es s s',
  in_flight s c = 0 -> (exists d, fs s c = Some d /\ stamp d = true /\ report d = None) ->
  exec (fun s e => e <> Crash /\ ~ removing s c) s es s' ->
  forall a, In (Answers c a) es -> a = NotFound \/ a = Failed500.
Proof.
  intros c es s s' Z D H. assert (S : stuck s c) by (split; auto). clear Z D. induction H as [|s e s1 es s2 [NC NR] St H IH]; [intros a []|].
  assert (K : stuck s1 c /\ forall a, e = Answers c a -> a = NotFound \/ a = Failed500).
  { destruct St as [R|R|R]; [| |inversion R; subst; congruence].
    - inversion R; subst.
      + split; [|discriminate]. destruct S as [A B]. split; [|exact B]. unfold in_flight, add_req in *. cbn [requests chan at_]. rewrite sumf_app. cbn [sumf]. lia.
      + split; [eapply stuck_req; eauto; exact I|]. intros a [= <- <-]. exfalso. destruct S as [_ (d' & E & _ & RN)]. congruence.
      + split; [eapply stuck_req; eauto; exact I|discriminate].
      + split; [eapply stuck_req; eauto; exact I|discriminate].
      + split; [eapply stuck_req; eauto; exact I|]. intros a [= <- <-]. auto.
      + split; [eapply stuck_req; eauto; exact I|discriminate].
      + split; [|discriminate]. eapply stuck_req; [|exact H0|exact I]. destruct (Nat.eq_dec c0 c) as [->|]; [|apply stuck_fs; auto].
        destruct S as [A (d & E & B)]. split; [exact A|]. exists d. cbn. rewrite Nat.eqb_refl, E. auto.
      + split; [eapply stuck_req; eauto; exact I|]. intros a [= <- <-]. auto.
      + destruct S as [A (d' & E & B & B')]. assert (c0 <> c) by congruence. split; [|discriminate]. eapply stuck_req; [|exact H0|auto]. apply stuck_fs; auto. split; eauto.
      + split; [eapply stuck_req; eauto; exact I|]. intros a [= <- <-]. auto.
      + pose proof (zero_req _ _ _ c H0 (proj1 S)) as N. cbn in N. split; [|intros a [= <- <-]; congruence]. eapply stuck_req; [eapply stuck_write; eauto|rewrite (write_nth _ _ _ _ _ i H1); exact H0|auto].
      + pose proof (zero_req _ _ _ c H0 (proj1 S)) as N. cbn in N. split; [|intros a [= <- <-]; congruence]. eapply stuck_req; [eapply stuck_write; eauto|rewrite (write_nth _ _ _ _ _ i H1); exact H0|exact I].
      + pose proof (zero_req _ _ _ c H0 (proj1 S)) as N. cbn in N. split; [|discriminate]. eapply stuck_req; [|exact H0|exact I]. destruct S as [A B]. split; [|exact B]. unfold in_flight, set_chan in *. cbn [requests chan at_]. rewrite sumf_app. cbn [sumf]. assert (O : one c0 c = 0) by (unfold one; destruct (Nat.eqb_spec c0 c); congruence). lia.
    - destruct (stuck_not_at _ _ S) as (N1 & N2 & N3). inversion R; subst; (split; [|try discriminate; unfold wrote; destruct ok; discriminate]).
      + apply stuck_at; auto.
      + apply stuck_at; auto.
      + apply stuck_at; auto.
      + apply stuck_at; auto.
      + apply stuck_at; auto.
      + apply stuck_at; auto.
      + apply stuck_at; auto.
      + apply stuck_at; auto. destruct a; exact I.
      + apply stuck_fs; auto. intros ->. apply NR. do 2 eexists. eauto.
      + apply stuck_fs; auto. intros ->. apply NR. do 2 eexists. eauto.
      + apply stuck_at; [|destruct e0; [exact I|destruct a; exact I]]. apply stuck_fs; auto. intros ->. apply NR. do 2 eexists. eauto.
      + apply stuck_at; auto. destruct e0; [exact I|destruct a; exact I].
      + apply stuck_at; auto.
      + pose proof (stuck_not_chan _ _ _ _ S H1) as N. apply stuck_at; [|auto]. destruct S as [A B]. split; [|exact B]. unfold in_flight, set_chan in *. cbn [requests chan at_]. rewrite H1 in A. cbn [sumf] in A. lia.
      + apply stuck_at; [|exact I]. eapply stuck_write; [exact S| |eassumption]. intros ->. auto.
      + apply stuck_at; [|intros ->; auto]. eapply stuck_write; [exact S| |eassumption]. intros ->. auto.
      + eapply stuck_write; [exact S| |eassumption]. intros ->. auto.
      + apply stuck_at; [|intros ->; auto]. eapply stuck_write; [exact S| |eassumption]. intros ->. auto.
      + apply stuck_at; [|exact I]. apply stuck_fs; auto. intros ->. auto.
      + apply stuck_at; [auto|exact I]. }
  destruct K as [S1 KA]. intros a [E|I]; [apply KA; congruence|]. apply IH; auto.
Qed.
Print Assumptions C40_failed_first_write_blocks_commit.

(* ---- What does not hold, and examples ---- *)
Ltac rq tac := eapply ex_step; [| apply st_req; tac |]; [| cbn [set_fs set_req add_req set_chan set_cache set_at fs requests chan cache at_ upd app Nat.eqb length init]].
Ltac rn tac := eapply ex_step; [| apply st_run; tac |]; [| cbn [set_fs set_req add_req set_chan set_cache set_at fs requests chan cache at_ upd app Nat.eqb length init then_ uncached filter negb]].
Definition any : state -> event -> Prop := fun _ _ => True.
Definition decent (s : state) (e : event) : Prop :=
  undisturbed s /\ (forall c, e <> OpenFails c) /\ (forall c, e <> WriteFails c) /\ (forall c, e <> RemoveFails c) /\ e <> Crash.
Ltac dec := repeat split; try discriminate; try (intros ?x ?y; discriminate); let c := fresh in let K := fresh in intros c (? & ? & K); cbn in K; discriminate.

(* Two requests come in before there is a report; one is run and its final report
   served; then the other, which has seen no report, starts all over: the commit goes
   back to waiting, with nothing failing or crashing. *)
Theorem C40_finished_reports_stay_refuted : ~ forall es s, exec decent init es s ->
  forall a b c v w, es = a ++ Answers c (Served v) :: b -> final v -> In (Answers c (Served w)) b -> final w.
Proof.
  intros H. enough (E : exists es s, exec decent init es s /\ exists a b, es = a ++ Answers 0 (Served CIStatePassed) :: b /\ In (Answers 0 (Served CIStateWaiting)) b).
  { destruct E as (es & s & X & a & b & E & I). assert (F : final CIStateWaiting) by (eapply (H _ _ X); eauto; cbn; auto). cbn in F. unfold CIStateSkipped, CIStateError, CIStatePassed, CIStateFailed, CIStateWaiting in F. intuition discriminate. }
  eexists. eexists. split.
  - rn ltac:(apply rl_done; reflexivity); [dec|].
    rq ltac:(apply (rq_arrives _ 0)); [dec|]. rq ltac:(apply (rq_arrives _ 0)); [dec|].
    rq ltac:(eapply (rq_missing _ 1); [reflexivity|intros dd; cbn; congruence]); [dec|].
    rq ltac:(eapply (rq_missing _ 0); [reflexivity|intros dd; cbn; congruence]); [dec|].
    rq ltac:(eapply (rq_checked _ 0); reflexivity); [dec|]. rq ltac:(eapply (rq_mkdir _ 0); reflexivity); [dec|].
    rq ltac:(eapply (rq_stamp _ 0); reflexivity); [dec|]. rq ltac:(eapply (rq_write _ 0); [reflexivity|eapply write_ok; reflexivity]); [dec|].
    rq ltac:(eapply (rq_send _ 0); [reflexivity|cbn; lia]); [dec|].
    rn ltac:(eapply id_take; reflexivity); [dec|]. rn ltac:(eapply st_ok; [reflexivity|eapply write_ok; reflexivity]); [dec|].
    rn ltac:(eapply (wk_last _ 0 CIStatePassed); [reflexivity|cbn; auto|eapply write_ok; reflexivity]); [dec|].
    rn ltac:(eapply wk_unstamp; reflexivity); [dec|]. rn ltac:(eapply ca_put; reflexivity); [dec|]. rn ltac:(eapply ev_done; reflexivity); [dec|].
    rq ltac:(apply (rq_arrives _ 0)); [dec|]. rq ltac:(eapply (rq_serve _ 2); reflexivity); [dec|].
    rq ltac:(eapply (rq_checked _ 1); reflexivity); [dec|]. rq ltac:(eapply (rq_mkdir _ 1); reflexivity); [dec|].
    rq ltac:(eapply (rq_stamp _ 1); reflexivity); [dec|]. rq ltac:(eapply (rq_write _ 1); [reflexivity|eapply write_ok; reflexivity]); [dec|].
    rq ltac:(apply (rq_arrives _ 0)); [dec|]. rq ltac:(eapply (rq_serve _ 3); reflexivity); [dec|].
    apply ex_nil.
  - cbn [stamp report]. eexists [_; _; _; _; _; _; _; _; _; _; _; _; _; _; _; _; _], _. split; [reflexivity|]. cbn. auto 10.
Qed.
Print Assumptions C40_finished_reports_stay_refuted.

(* Without failures: the walk over the directories finds the mark of a request that
   came in while it was going on, takes it for a leftover and removes it. *)
Theorem C40_one_in_flight_during_reload_refuted : ~ forall es s, exec (fun s e => forall c, e <> OpenFails c /\ e <> WriteFails c /\ e <> RemoveFails c) init es s -> forall c, in_flight s c <= 1.
Proof.
  intros H. enough (E : exists es s, exec (fun s e => forall c, e <> OpenFails c /\ e <> WriteFails c /\ e <> RemoveFails c) init es s /\ in_flight s 0 = 2).
  { destruct E as (es & s & X & F). specialize (H _ _ X 0). lia. }
  eexists. eexists. split.
  - eapply ex_step; [|apply st_crash; apply (crashes _ [0]); [constructor; [intros []|constructor]|cbn; congruence]|]; [repeat split; discriminate|]. cbn [init fs].
    rq ltac:(apply (rq_arrives _ 0)); [repeat split; discriminate|]. 
    rq ltac:(eapply (rq_missing _ 0); [reflexivity|intros dd; cbn; congruence]); [repeat split; discriminate|].
    rq ltac:(eapply (rq_checked _ 0); reflexivity); [repeat split; discriminate|]. rq ltac:(eapply (rq_mkdir _ 0); reflexivity); [repeat split; discriminate|].
    rq ltac:(eapply (rq_stamp _ 0); reflexivity); [repeat split; discriminate|]. 
    rn ltac:(eapply rl_unfinished; reflexivity); [repeat split; discriminate|]. rn ltac:(eapply rm_stamp; reflexivity); [repeat split; discriminate|].
    rq ltac:(apply (rq_arrives _ 0)); [repeat split; discriminate|]. 
    rq ltac:(eapply (rq_missing _ 1); [reflexivity|intros dd [= <-]; reflexivity]); [repeat split; discriminate|].
    rq ltac:(eapply (rq_checked _ 1); reflexivity); [repeat split; discriminate|]. rq ltac:(eapply (rq_mkdir _ 1); reflexivity); [repeat split; discriminate|].
    rq ltac:(eapply (rq_stamp _ 1); reflexivity); [repeat split; discriminate|]. 
    apply ex_nil.
  - reflexivity.
Qed.
Print Assumptions C40_one_in_flight_during_reload_refuted.

(* Without crashes or failures: a commit is requested again while its finished run is
   being evicted to make room for another's. *)
Theorem C40_one_in_flight_during_eviction_refuted : ~ forall es s, exec (fun s e => (forall c, e <> OpenFails c /\ e <> WriteFails c /\ e <> RemoveFails c) /\ e <> Crash) init es s -> forall c, in_flight s c <= 1.
Proof.
  intros H. enough (E : exists es s, exec (fun s e => (forall c, e <> OpenFails c /\ e <> WriteFails c /\ e <> RemoveFails c) /\ e <> Crash) init es s /\ in_flight s 0 = 2).
  { destruct E as (es & s & X & F). specialize (H _ _ X 0). lia. }
  eexists. eexists. split.
  - rn ltac:(apply rl_done; reflexivity); [repeat split; discriminate|].
    rq ltac:(apply (rq_arrives _ 0)); [repeat split; discriminate|]. rq ltac:(apply (rq_arrives _ 1)); [repeat split; discriminate|].
    rq ltac:(eapply (rq_missing _ 0); [reflexivity|intros dd; cbn; congruence]); [repeat split; discriminate|].
    rq ltac:(eapply (rq_checked _ 0); reflexivity); [repeat split; discriminate|]. rq ltac:(eapply (rq_mkdir _ 0); reflexivity); [repeat split; discriminate|].
    rq ltac:(eapply (rq_stamp _ 0); reflexivity); [repeat split; discriminate|]. rq ltac:(eapply (rq_write _ 0); [reflexivity|eapply write_ok; reflexivity]); [repeat split; discriminate|].
    rq ltac:(eapply (rq_send _ 0); [reflexivity|cbn; lia]); [repeat split; discriminate|].
    rq ltac:(eapply (rq_missing _ 1); [reflexivity|intros dd; cbn; congruence]); [repeat split; discriminate|].
    rq ltac:(eapply (rq_checked _ 1); reflexivity); [repeat split; discriminate|]. rq ltac:(eapply (rq_mkdir _ 1); reflexivity); [repeat split; discriminate|].
    rq ltac:(eapply (rq_stamp _ 1); reflexivity); [repeat split; discriminate|]. rq ltac:(eapply (rq_write _ 1); [reflexivity|eapply write_ok; reflexivity]); [repeat split; discriminate|].
    rq ltac:(eapply (rq_send _ 1); [reflexivity|cbn; lia]); [repeat split; discriminate|].
    rn ltac:(eapply id_take; reflexivity); [repeat split; discriminate|]. rn ltac:(eapply st_ok; [reflexivity|eapply write_ok; reflexivity]); [repeat split; discriminate|].
    rn ltac:(eapply (wk_last _ 0 CIStatePassed); [reflexivity|cbn; auto|eapply write_ok; reflexivity]); [repeat split; discriminate|].
    rn ltac:(eapply wk_unstamp; reflexivity); [repeat split; discriminate|]. rn ltac:(eapply ca_put; reflexivity); [repeat split; discriminate|]. rn ltac:(eapply ev_done; reflexivity); [repeat split; discriminate|].
    rn ltac:(eapply id_take; reflexivity); [repeat split; discriminate|]. rn ltac:(eapply st_ok; [reflexivity|eapply write_ok; reflexivity]); [repeat split; discriminate|].
    rn ltac:(eapply (wk_last _ 1 CIStatePassed); [reflexivity|cbn; auto|eapply write_ok; reflexivity]); [repeat split; discriminate|].
    rn ltac:(eapply wk_unstamp; reflexivity); [repeat split; discriminate|]. rn ltac:(eapply ca_put; reflexivity); [repeat split; discriminate|].
    rn ltac:(eapply (ev_one _ 0); [reflexivity|cbn; auto]); [repeat split; discriminate|]. rn ltac:(eapply rm_report; reflexivity); [repeat split; discriminate|].
    rq ltac:(apply (rq_arrives _ 0)); [repeat split; discriminate|]. rq ltac:(apply (rq_arrives _ 0)); [repeat split; discriminate|].
    rq ltac:(eapply (rq_missing _ 2); [reflexivity|intros dd [= <-]; reflexivity]); [repeat split; discriminate|].
    rq ltac:(eapply (rq_missing _ 3); [reflexivity|intros dd [= <-]; reflexivity]); [repeat split; discriminate|].
    rq ltac:(eapply (rq_checked _ 2); reflexivity); [repeat split; discriminate|]. rq ltac:(eapply (rq_mkdir _ 2); reflexivity); [repeat split; discriminate|].
    rq ltac:(eapply (rq_stamp _ 2); reflexivity); [repeat split; discriminate|]. 
    rn ltac:(eapply rm_stamp; reflexivity); [repeat split; discriminate|].
    rq ltac:(eapply (rq_checked _ 3); reflexivity); [repeat split; discriminate|]. rq ltac:(eapply (rq_mkdir _ 3); reflexivity); [repeat split; discriminate|].
    rq ltac:(eapply (rq_stamp _ 3); reflexivity); [repeat split; discriminate|]. 
    apply ex_nil.
  - reflexivity.
Qed.
Print Assumptions C40_one_in_flight_during_eviction_refuted.

(* If the process dies while it removes the leftovers of an earlier death, a report
   that says waiting can be left without a mark: it is then served for good. *)
Definition steady (s : state) (e : event) : Prop := undisturbed s /\ (forall c, e <> OpenFails c) /\ (forall c, e <> WriteFails c) /\ (forall c, e <> RemoveFails c).
Theorem C40_reports_final_after_any_restart_refuted : ~ forall es s, exec steady init es s -> at_ s = Idle ->
  forall c d v, in_flight s c = 0 -> fs s c = Some d -> report d = Some v -> final v.
Proof.
  intros H. enough (E : exists es s, exec steady init es s /\ at_ s = Idle /\ in_flight s 0 = 0 /\ fs s 0 = Some {| stamp := false; report := Some CIStateWaiting |}).
  { destruct E as (es & s & X & A & F & D). specialize (H _ _ X A _ _ CIStateWaiting F D eq_refl). cbn in H. unfold CIStateSkipped, CIStateError, CIStatePassed, CIStateFailed, CIStateWaiting in H. intuition discriminate. }
  eexists. eexists. split; [|split; [|split]].
  - rn ltac:(apply rl_done; reflexivity); [dec|].
    rq ltac:(apply (rq_arrives _ 0)); [dec|].
    rq ltac:(eapply (rq_missing _ 0); [reflexivity|intros dd; cbn; congruence]); [dec|].
    rq ltac:(eapply (rq_checked _ 0); reflexivity); [dec|]. rq ltac:(eapply (rq_mkdir _ 0); reflexivity); [dec|].
    rq ltac:(eapply (rq_stamp _ 0); reflexivity); [dec|]. rq ltac:(eapply (rq_write _ 0); [reflexivity|eapply write_ok; reflexivity]); [dec|].
    eapply ex_step; [|apply st_crash; apply (crashes _ [0]); [constructor; [intros []|constructor]|]|]; [dec| |].
    { intros c. cbn. destruct c; [auto|]. cbn. congruence. }
    cbn [fs].
    rn ltac:(eapply rl_unfinished; reflexivity); [dec|].
    rn ltac:(eapply rm_stamp; reflexivity); [repeat split; try discriminate; try (intros ?x; discriminate); intros c (e & a & K); injection K as <- _ _; reflexivity|].
    eapply ex_step; [|apply st_crash; apply (crashes _ [0]); [constructor; [intros []|constructor]|]|].
    { repeat split; try discriminate; try (intros ?x; discriminate); intros c (e & a & K); injection K as <- _ _; reflexivity. }
    { intros c. cbn. destruct c; [auto|]. cbn. congruence. }
    cbn [fs].
    rn ltac:(eapply rl_finished; reflexivity); [dec|]. rn ltac:(eapply ca_put; reflexivity); [dec|]. rn ltac:(eapply ev_done; reflexivity); [dec|]. rn ltac:(eapply rl_done; reflexivity); [dec|].
    apply ex_nil.
  - reflexivity.
  - reflexivity.
  - reflexivity.
Qed.
Print Assumptions C40_reports_final_after_any_restart_refuted.

(* The hypotheses are met: a commit whose first write fails; and a commit that was
   accepted when the process died, with what its restart does. *)
Example C40_stuck_example : exists es s, exec any init es s /\ in_flight s 0 = 0 /\ exists d, fs s 0 = Some d /\ stamp d = true /\ report d = None.
Proof.
  eexists. eexists. split; [|split].
  - rn ltac:(apply rl_done; reflexivity); [exact I|]. rq ltac:(apply (rq_arrives _ 0)); [exact I|].
    rq ltac:(eapply (rq_missing _ 0); [reflexivity|intros dd; cbn; congruence]); [exact I|].
    rq ltac:(eapply (rq_checked _ 0); reflexivity); [exact I|]. rq ltac:(eapply (rq_mkdir _ 0); reflexivity); [exact I|].
    rq ltac:(eapply (rq_stamp _ 0); reflexivity); [exact I|]. rq ltac:(eapply (rq_write_fails _ 0); [reflexivity|eapply write_fails]); [exact I|].
    apply ex_nil.
  - reflexivity.
  - eexists. split; [reflexivity|split; reflexivity].
Qed.
Ltac rr tac := eapply rn_step; [| tac |]; [split; [intros ?c; discriminate|discriminate]| cbn [set_fs set_req add_req set_chan set_cache set_at fs requests chan cache at_ upd app Nat.eqb length init then_ uncached filter negb]].
Example C40_restart_example : exists es s, exec careful init es s /\ (exists d, fs s 0 = Some d /\ stamp d = true /\ report d = Some CIStateWaiting) /\ (forall c, ~ removing s c) /\
  exists s1 es' s2, crash_step s Crash s1 /\ runs (fun s e => quiet s e /\ at_ s <> Idle) s1 es' s2 /\ at_ s2 = Idle /\ fs s2 0 = None.
Proof.
  eexists. eexists. split; [|split; [|split]].
  - rn ltac:(apply rl_done; reflexivity); [dec|]. rq ltac:(apply (rq_arrives _ 0)); [dec|].
    rq ltac:(eapply (rq_missing _ 0); [reflexivity|intros dd; cbn; congruence]); [dec|].
    rq ltac:(eapply (rq_checked _ 0); reflexivity); [dec|]. rq ltac:(eapply (rq_mkdir _ 0); reflexivity); [dec|].
    rq ltac:(eapply (rq_stamp _ 0); reflexivity); [dec|]. rq ltac:(eapply (rq_write _ 0); [reflexivity|eapply write_ok; reflexivity]); [dec|].
    apply ex_nil.
  - eexists. split; [reflexivity|split; reflexivity].
  - intros c (e & a & K). discriminate.
  - eexists. eexists. eexists. split; [|split; [|split]].
    + apply (crashes _ [0]); [constructor; [intros []|constructor]|]. intros c. cbn. destruct c; [auto|]. cbn. congruence.
    + cbn [fs]. rr ltac:(eapply rl_unfinished; reflexivity). rr ltac:(eapply rm_stamp; reflexivity). rr ltac:(eapply rm_report; reflexivity).
      rr ltac:(eapply rm_done; [reflexivity|intros d; cbn; intros [= <-]; auto]). rr ltac:(eapply rl_done; reflexivity). apply rn_nil.
    + reflexivity.
    + reflexivity.
Qed.
Example C40_kept_example :
  let d := {| stamp := false; report := Some CIStatePassed |} in
  let s := {| fs := fun c => if Nat.eqb c 0 then Some d else None; requests := []; chan := []; cache := []; at_ := Idle |} in
  exists s1 es s2, crash_step s Crash s1 /\ runs (fun s e => (quiet s e /\ at_ s <> Idle) /\ ~ removing s 0) s1 es s2 /\ at_ s2 = Idle.
Proof.
  eexists. eexists. eexists. split; [|split].
  - apply (crashes _ [0]); [constructor; [intros []|constructor]|]. intros c. cbn. destruct c; [auto|]. cbn. congruence.
  - cbn [fs].
    eapply rn_step; [|eapply rl_finished; reflexivity|]; [split; [split; [intros ?c; discriminate|cbn; discriminate]|intros (? & ? & K); cbn in K; discriminate K]|].
    eapply rn_step; [|eapply ca_put; reflexivity|]; [split; [split; [intros ?c; discriminate|cbn; discriminate]|intros (? & ? & K); cbn in K; discriminate K]|].
    eapply rn_step; [|eapply ev_done; reflexivity|]; [split; [split; [intros ?c; discriminate|cbn; discriminate]|intros (? & ? & K); cbn in K; discriminate K]|].
    eapply rn_step; [|eapply rl_done; reflexivity|]; [split; [split; [intros ?c; discriminate|cbn; discriminate]|intros (? & ? & K); cbn in K; discriminate K]|].
    apply rn_nil.
  - reflexivity.
Qed.

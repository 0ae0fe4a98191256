(* C85: what the grader's status page says. *)
From Coq Require Import String List Arith ZArith NArith Bool Permutation Lia.
From Verif Require Import GoBase RunModel RunSpec RunProps TrcModel SqModel SqSpec SqProofs.
Import ListNotations.
Local Open Scope nat_scope.

(* The attempts listed by GetRunData are those in flight, each once, with the run's
   ID, GUID, queue and tries left, and the runner it was handed to last; whatever the
   order in which the table is gone through. *)
Theorem C85_run_data :
  forall c0 es order, undisturbed c0 es ->
  let x := sq_exec (sq_init c0) es in
  Permutation order (mapping (base x)) ->
  exists data, GetRunData x order = Some data /\ NoDup (map AttemptID data) /\
    forall d, In d data <->
      exists r rx id guid q nm, nth_error (runs (base x)) r = Some rx /\ in_flight (base x) r rx /\ run_is x r id guid q /\
        last_runner (hands (sq_init c0) es) r = Some nm /\ d = mkRD (attempt rx) id guid q (tries rx) nm.
Proof. exact running_l. Qed.
Print Assumptions C85_run_data.

(* The page lists every run in flight once, by its ID and the name of the runner it
   was handed to last. *)
Theorem C85_running :
  forall c0 es order queues others, undisturbed c0 es ->
  let x := sq_exec (sq_init c0) es in
  Permutation order (mapping (base x)) ->
  exists resp rs, grader_status x order queues others = Some resp /\ NoDup rs /\
    (forall r, In r rs <-> exists rx, nth_error (runs (base x)) r = Some rx /\ in_flight (base x) r rx) /\
    Forall2 (fun g r => exists guid q, run_is x r (RunID g) guid q /\
      last_runner (hands (sq_init c0) es) r = Some (RunnerName g)) (Running resp) rs.
Proof.
  intros c0 es order queues others U x P. destruct (running_runs c0 es order U P) as (data & rs & E & N & R & F). fold x in E, R.
  eexists. exists rs. split; [apply status_some; exact E|]. split; [exact N|]. split; [exact R|]. cbn [Running].
  clear - F. induction F as [|d r data rs H F IH]; cbn [map]; constructor; [|exact IH].
  destruct H as (id & guid & q & nm & A & B & C & D). exists guid, q. cbn [RunID RunnerName]. subst. auto.
Qed.
Print Assumptions C85_running.

(* In every schedule, races included, the page is made, and whoever it lists was
   handed that run; no attempt is listed twice. *)
Theorem C85_listed :
  forall c0 es order queues others,
  let x := sq_exec (sq_init c0) es in
  Permutation order (mapping (base x)) ->
  exists data resp, GetRunData x order = Some data /\ NoDup (map AttemptID data) /\
    grader_status x order queues others = Some resp /\ List.length (Running resp) = List.length (mapping (base x)) /\
    forall g, In g (Running resp) -> exists r guid q, run_is x r (RunID g) guid q /\ In (r, RunnerName g) (hands (sq_init c0) es).
Proof.
  intros c0 es order queues others x P. destruct (listed_l c0 es order P) as (data & E & N & D). fold x in E, D.
  exists data. eexists. split; [exact E|]. split; [exact N|]. split; [apply status_some; exact E|]. cbn [Running]. split.
  - rewrite map_length, <- (Permutation_length P). clear - E. revert data E. induction order as [|e order IH]; intros data E; cbn [GetRunData] in E.
    + injection E as <-. reflexivity.
    + destruct (run_data x e); [|discriminate]. destruct (GetRunData x order) as [l|]; [|discriminate]. injection E as <-.
      cbn [List.length]. rewrite (IH l eq_refl). reflexivity.
  - intros g H. apply in_map_iff in H. destruct H as (d & <- & H). destruct (D d H) as (r & A & B).
    exists r, (GUID d), (Queue d). auto.
Qed.
Print Assumptions C85_listed.

(* run_queue_length: every run that waits all the while the page is made is counted,
   no run is counted twice, and none that did not wait at some time meanwhile. *)
Theorem C85_length :
  forall c0 queues es order others resp,
  undisturbed c0 (es ++ List.concat others) -> NoDup queues -> Forall (well_formed queues) (es ++ List.concat others) ->
  let x := sq_exec (sq_init c0) es in
  let seen := visited x (List.concat others) in
  let n := List.length (runs (base (sq_exec x (List.concat others)))) in
  grader_status x order queues others = Some resp ->
  waiting_throughout seen n <= RunQueueLength resp <= waiting_sometime seen n.
Proof.
  intros c0 queues es order others resp U ND W x seen n H. unfold grader_status in H.
  destruct (GetRunData x order); [|discriminate]. injection H as <-. cbn [RunQueueLength]. apply length_l; assumption.
Qed.
Print Assumptions C85_length.

(* When nothing else happens meanwhile, it is the number of runs waiting, in every
   schedule before; and then the runs listed and the runs counted are not the same. *)
Theorem C85_quiet :
  forall c0 queues es order resp,
  NoDup queues -> Forall (well_formed queues) es ->
  let x := sq_exec (sq_init c0) es in
  Permutation order (mapping (base x)) ->
  grader_status x order queues [] = Some resp ->
  RunQueueLength resp = List.length (queue (base x)) /\
  (undisturbed c0 es -> List.length (Running resp) + RunQueueLength resp <= unfinished (base x)).
Proof.
  intros c0 queues es order resp ND W x P H. unfold grader_status in H.
  destruct (GetRunData x order) as [data|] eqn:E; [|discriminate]. injection H as <-. cbn [RunQueueLength Running].
  pose proof (quiet_l c0 queues es ND W) as Q. cbv zeta in Q. fold x in Q. split; [exact Q|].
  intros U. rewrite Q, map_length. apply (apart_l c0 es order data U P E).
Qed.
Print Assumptions C85_quiet.

(* The rest of the page never changes: status ok, no sockets, no embedded runner, no
   runners waiting; the fields have the names the frontend knows. *)
Theorem C85_page :
  forall x order queues others resp, grader_status x order queues others = Some resp ->
  exists running,
  status_json resp = JObj [
    ("status", JStr "ok"); ("broadcaster_sockets", JInt 0); ("embedded_runner", JBool false);
    ("queue", JObj [
      ("running", JArr running);
      ("run_queue_length", JInt (Z.of_nat (RunQueueLength resp)));
      ("runner_queue_length", JInt 0);
      ("runners", JArr [])])]%string /\
  Forall2 (fun j g => j = JObj [("name", JStr (RunnerName g)); ("id", JInt (RunID g))]%string) running (Running resp).
Proof.
  intros x order queues others resp H. unfold grader_status in H. destruct (GetRunData x order); [|discriminate]. injection H as <-.
  eexists. split; [reflexivity|]. cbn [Running]. generalize (map (fun d => mkGR (Runner d) (ID d)) l) as gs.
  induction gs; constructor; auto.
Qed.
Print Assumptions C85_page.

(* ---- the page is not of one moment ---- *)
Lemma undisturbed_b c0 es : (c0 + N.of_nat (List.length es) <? 2 ^ 64)%N = true -> rfbs (RunModel.init c0) (bases es) = true -> undisturbed c0 es.
Proof. intros A B. split; [apply N.ltb_lt; exact A|apply rfbs_sound; exact B]. Qed.

Definition steps (t n : nat) : list sq_event := repeat (XStep t ChFalse) n.
Definition q1 : list string := ["default"%string].
(* One run is handed to a runner, and listed; it times out, and waits again when the
   queues are counted. *)
Definition both_before : list sq_event := XNew 3 "default" 1 7 "g" :: XGetRun 0 "alpha" :: steps 0 2.
Definition both_meanwhile : list (list sq_event) := [XStep 1 ChTrue :: steps 1 6].

Theorem C85_one_moment_refuted :
  ~ (forall c0 es order others resp,
    undisturbed c0 (es ++ List.concat others) -> Forall (well_formed q1) (es ++ List.concat others) ->
    let x := sq_exec (sq_init c0) es in
    Permutation order (mapping (base x)) -> grader_status x order q1 others = Some resp ->
    List.length (Running resp) + RunQueueLength resp <= List.length (runs (base (sq_exec x (List.concat others))))).
Proof.
  intros H. specialize (H 10%N both_before [(11%N, 0)] both_meanwhile (mkResp "ok" 0 false [mkGR "alpha" 7] 1 0 [])).
  cbv zeta in H.
  assert (E : List.length (runs (base (sq_exec (sq_exec (sq_init 10) both_before) (List.concat both_meanwhile)))) = 1) by (vm_compute; reflexivity).
  rewrite E in H. cbn [Running RunQueueLength List.length] in H.
  assert (X : 1 + 1 <= 1); [|lia]. apply H.
  - apply undisturbed_b; vm_compute; reflexivity.
  - repeat constructor.
  - vm_compute. apply Permutation_refl.
  - vm_compute. reflexivity.
Qed.
Print Assumptions C85_one_moment_refuted.

(* A run comes back to channel 0 after that was read, and the one waiting on channel 1
   is handed out before that is: the page says that none waits. *)
Definition none_before : list sq_event :=
  XNew 3 "default" 1 7 "g" :: XGetRun 0 "alpha" :: steps 0 2 ++ [XNew 3 "default" 1 8 "h"].
Definition none_meanwhile : list (list sq_event) :=
  [[]; XStep 1 ChTrue :: steps 1 6 ++ [XGetRun 0 "beta"]; []; []].

Theorem C85_some_moment_refuted :
  ~ (forall c0 es order others resp,
    undisturbed c0 (es ++ List.concat others) -> Forall (well_formed q1) (es ++ List.concat others) ->
    let x := sq_exec (sq_init c0) es in
    Permutation order (mapping (base x)) -> grader_status x order q1 others = Some resp ->
    exists y, In y (visited x (List.concat others)) /\ RunQueueLength resp = List.length (queue (base y))).
Proof.
  intros H. specialize (H 10%N none_before [(11%N, 0)] none_meanwhile (mkResp "ok" 0 false [mkGR "alpha" 7] 0 0 [])).
  destruct H as (y & A & B).
  - apply undisturbed_b; vm_compute; reflexivity.
  - repeat constructor.
  - vm_compute. apply Permutation_refl.
  - vm_compute. reflexivity.
  - assert (X : forallb (fun y => negb (Nat.eqb (List.length (queue (base y))) 0))
      (visited (sq_exec (sq_init 10) none_before) (List.concat none_meanwhile)) = true) by (vm_compute; reflexivity).
    rewrite forallb_forall in X. specialize (X _ A). rewrite <- B in X. discriminate.
Qed.
Print Assumptions C85_some_moment_refuted.

(* ---- the hypotheses are met ---- *)
Definition busy : list sq_event :=
  XNew 3 "default" 1 7 "g" :: XNew 1 "contest" 2 8 "h" :: XNew 2 "default" 3 9 "i" ::
  XGetRun 0 "alpha" :: steps 0 2 ++ [XStep 1 ChTrue] ++ steps 1 6 ++
  XGetRun 2 "beta" :: steps 2 2 ++ [XGetRun 0 "gamma"] ++ steps 4 2 ++ [XResult 14].
Example C85_busy :
  undisturbed 10 (busy ++ List.concat [[]; [XNew 1 "default" 1 1 "k"]; []; []; []; [XGetRun 0 "delta"]; []; []]) /\
  NoDup ["default"; "contest"]%string /\
  Forall (well_formed ["default"; "contest"]%string) (busy ++ List.concat [[]; [XNew 1 "default" 1 1 "k"]; []; []; []; [XGetRun 0 "delta"]; []; []]) /\
  grader_status (sq_exec (sq_init 10) busy) (rev (mapping (base (sq_exec (sq_init 10) busy)))) ["default"; "contest"]%string
    [[]; [XNew 1 "default" 1 1 "k"]; []; []; []; [XGetRun 0 "delta"]; []; []] =
    Some (mkResp "ok" 0 false [mkGR "beta" 7; mkGR "gamma" 8] 2 0 []) /\
  grader_status (sq_exec (sq_init 10) busy) (mapping (base (sq_exec (sq_init 10) busy))) ["default"; "contest"]%string [] =
    Some (mkResp "ok" 0 false [mkGR "gamma" 8; mkGR "beta" 7] 1 0 []) /\
  GetRunData (sq_exec (sq_init 10) busy) (mapping (base (sq_exec (sq_init 10) busy))) =
    Some [mkRD 12 8 "h" "contest" 1 "gamma"; mkRD 14 7 "g" "default" 2 "beta"] /\
  unfinished (base (sq_exec (sq_init 10) busy)) = 3.
Proof.
  split; [apply undisturbed_b; vm_compute; reflexivity|].
  split; [apply NoDup_cons; [cbn; intuition discriminate|apply NoDup_cons; [cbn; tauto|apply NoDup_nil]]|].
  split.
  { apply Forall_forall. intros e He. cbn in He.
    repeat (destruct He as [<-|He]; [cbn; first [exact Logic.I|split; [tauto|lia]]|]). destruct He. }
  repeat match goal with |- _ /\ _ => split end; vm_compute; reflexivity.
Qed.

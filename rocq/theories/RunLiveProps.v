(* C75: every run comes to an end. *)
From Coq Require Import List Arith ZArith NArith Bool Lia.
From Verif Require Import GoBase RunModel RunSpec RunProofs RunBoundsProofs RunLinProofs RunLinFacts RunProps RunLiveSpec RunLiveProofs.
Import ListNotations.

(* Whatever the schedule, races included: the grader's work is bounded by the runs and the
   uploads it was given. *)
Theorem C75_bounded : forall c0 es, moves (init c0) es -> length es <= sumf sets_off es.
Proof. intros c0 es M. pose proof (bounded es (init c0) (ex_intro _ c0 (ex_intro _ [] eq_refl)) M) as B. change (mu (init c0)) with 0 in B. lia. Qed.
(* Without races it never gets stuck: while a run is not closed, or somebody still works on
   it, a runner can take a run, a goroutine can go on, or a timer can fire; no upload is
   needed for that. *)
Theorem C75_not_stuck : forall c0 es r x, (c0 + N.of_nat (length es) < 2 ^ 64)%N -> race_free_exec (init c0) es ->
  let s := exec (init c0) es in
  nth_error (runs s) r = Some x -> closedF x = false \/ workers s r <> 0 ->
  exists e, internal e /\ race_free s e /\ step s e <> s.
Proof. intros c0 es r x HN HR s Hx C. destruct (states c0 es HN HR) as (_ & HV & HL & HG). eapply progress; eauto. Qed.
(* So when it can no longer move, every run is closed and nobody works on it. *)
Theorem C75_ends : forall c0 es, (c0 + N.of_nat (length es) < 2 ^ 64)%N -> race_free_exec (init c0) es ->
  let s := exec (init c0) es in
  (forall e, internal e -> race_free s e -> step s e = s) ->
  forall r x, nth_error (runs s) r = Some x -> closedF x = true /\ workers s r = 0.
Proof.
  intros c0 es HN HR s D r x Hx.
  assert (N : ~ (closedF x = false \/ workers s r <> 0)).
  { intros C. destruct (C75_not_stuck c0 es r x HN HR Hx C) as (e & I & RF & NE). apply NE, D; auto. }
  destruct (closedF x); [|tauto]. destruct (Nat.eq_dec (workers s r) 0); tauto.
Qed.
(* And it can: even if no runner ever answers again, every run is closed after so many
   events, by timeouts alone. *)
Theorem C75_without_answers : forall c0 es, (c0 + N.of_nat (length es) + N.of_nat (sumf sets_off es) < 2 ^ 64)%N ->
  moves (init c0) es -> race_free_exec (init c0) es ->
  exists es', Forall internal es' /\ race_free_exec (exec (init c0) es) es' /\ length es' <= sumf sets_off es /\
    forall r x, nth_error (runs (exec (init c0) (es ++ es'))) r = Some x -> closedF x = true /\ workers (exec (init c0) (es ++ es')) r = 0.
Proof.
  intros c0 es HN MV HR. assert (HN0 : (c0 + N.of_nat (length es) < 2 ^ 64)%N) by lia. destruct (states c0 es HN0 HR) as (A & HV & HL & HG).
  pose proof (bounded es (init c0) (ex_intro _ c0 (ex_intro _ [] eq_refl)) MV) as B. change (mu (init c0)) with 0 in B.
  pose proof (counter_exec es (init c0) HN0) as CE. change (counter (init c0)) with c0 in CE.
  destruct (can_end (mu (exec (init c0) es)) (exec (init c0) es)) as (es' & I & RF & M & E); auto; [lia|].
  exists es'. split; [auto|]. split; [auto|]. split; [|rewrite exec_app; exact E].
  pose proof (bounded es' _ A M) as B'. assert (Z : sumf sets_off es' = 0).
  { clear - I. induction I as [|e l H I IH]; cbn; auto. destruct e; cbn in *; tauto || auto. }
  lia.
Qed.

(* A run with two tries whose runners never answer: two hand-outs, two timeouts. *)
Definition silent_schedule : list event :=
  [ENew 2; EGetRun 0] ++ repeat (EStep 0 ChFalse) 2 ++ [EStep 1 ChTrue] ++ repeat (EStep 1 ChFalse) 7 ++
  [EGetRun 0] ++ repeat (EStep 2 ChFalse) 2 ++ [EStep 3 ChTrue] ++ repeat (EStep 3 ChFalse) 8.
Fixpoint moves_by (s : state) (es : list event) : bool :=
  match es with [] => true | e :: es => negb (Nat.eqb (mu (step s e)) (mu s)) && moves_by (step s e) es end.
Lemma moves_by_ok es : forall s, moves_by s es = true -> moves s es.
Proof.
  induction es as [|e es IH]; intros s H; cbn in *; [exact Logic.I|]. apply andb_true_iff in H as [A B]. split; [|auto].
  intros E. rewrite E, Nat.eqb_refl in A. discriminate.
Qed.
Example silent_example : moves (init 10) silent_schedule /\ race_free_exec (init 10) silent_schedule /\
  exists x, nth_error (runs (exec (init 10) silent_schedule)) 0 = Some x /\ closedF x = true /\ nready x = 1 /\ workers (exec (init 10) silent_schedule) 0 = 0.
Proof.
  split; [apply moves_by_ok; vm_compute; reflexivity|]. split.
  - apply rfbs_sound. vm_compute. reflexivity.
  - eexists. split; [vm_compute; reflexivity|]. vm_compute. auto.
Qed.
Print Assumptions C75_bounded.
Print Assumptions C75_not_stuck.
Print Assumptions C75_ends.
Print Assumptions C75_without_answers.

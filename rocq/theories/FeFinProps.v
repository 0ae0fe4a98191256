(* C56, C58: what is recorded and what is told of a finished run. *)
From Coq Require Import String Ascii List Bool ZArith QArith Lia.
From Verif Require Import GoStr InModel BcFilterModel BcFilterSpec BcFilterProps FeModel FeSpec.
Import ListNotations.
Local Open Scope string_scope.

(* ---- C56 ---- *)
(* The score that is told of a run in the message of broadcastRun is its contest
   score; the score recorded of it is the same, unless the problem is graded all or
   nothing: then it is 1 for a contest score of 1, and 0 for any other. *)
Definition all_or_nothing (run : run_info) : Prop := ri_PartialScore run = 1%Z.
Theorem C56_recorded : forall RationalToFloat run r, let r' := updateDatabase RationalToFloat true run r in
  w_status r' = "ready" /\ w_verdict r' = ri_Verdict run /\ w_runtime r' = (ri_Time run * 1000)%Q /\ w_memory r' = ri_Memory run /\
  w_score r' = RationalToFloat (ri_Score run) /\ w_judged_by r' = ri_JudgedBy run /\
  (ri_PenaltyType run = "runtime" -> w_penalty r' = w_runtime r') /\ (ri_PenaltyType run <> "runtime" -> w_penalty r' = w_penalty r) /\
  (~ all_or_nothing run -> w_contest_score r' = RationalToFloat (ri_ContestScore run)) /\
  (all_or_nothing run -> RationalToFloat (ri_ContestScore run) == 1 -> w_contest_score r' == 1) /\
  (all_or_nothing run -> ~ RationalToFloat (ri_ContestScore run) == 1 -> w_contest_score r' == 0).
Proof.
  intros F run r r'. unfold r', updateDatabase, all_or_nothing. cbn [negb].
  assert (X : forall a b : row, w_status a = w_status b -> True) by auto. clear X.
  destruct (String.eqb_spec (ri_PenaltyType run) "runtime") as [->|N]; cbn; repeat split; auto; try congruence; intros.
  all: destruct (Z.eqb_spec (ri_PartialScore run) 1); try congruence; cbn.
  all: destruct (Qeq_bool (F (ri_ContestScore run)) 1) eqn:E; cbn; auto; try reflexivity.
  all: try (apply Qeq_bool_iff in E; congruence).
  all: apply Qeq_bool_iff in H0; congruence.
Qed.
(* If the database cannot be written, the run stays as it was: not ready. *)
Theorem C56_database_error : forall RationalToFloat run r, updateDatabase RationalToFloat false run r = r.
Proof. reflexivity. Qed.
(* The recorded and the told contest score are the same exactly if the problem is
   not graded all or nothing, or the score is 0 or 1. *)
Theorem C56_agree : forall RationalToFloat run r,
  w_contest_score (updateDatabase RationalToFloat true run r) == RationalToFloat (ri_ContestScore run) <->
  (~ all_or_nothing run \/ RationalToFloat (ri_ContestScore run) == 0 \/ RationalToFloat (ri_ContestScore run) == 1).
Proof.
  intros F run r. destruct (C56_recorded F run r) as (_ & _ & _ & _ & _ & _ & _ & _ & A & B & C).
  destruct (Z.eq_dec (ri_PartialScore run) 1) as [P|P].
  - destruct (Qeq_dec (F (ri_ContestScore run)) 1) as [E|E].
    + rewrite (B P E), E. split; auto. reflexivity.
    + rewrite (C P E). split; [intros X; right; left; symmetry; auto|]. intros [X|[X|X]]; [elim X; auto|symmetry; auto|elim E; auto].
  - rewrite (A P). split; auto. reflexivity.
Qed.
(* What is told of a run with a number and a known author: the text is made of the
   run, the author, the score and then the contest score, neither of them zeroed. *)
Theorem C56_told : forall RationalToFloat text user run,
  (ri_ID run = 0%Z \/ user = None -> broadcastRun RationalToFloat text user run = None) /\
  (forall u, ri_ID run <> 0%Z -> user = Some u -> exists m, broadcastRun RationalToFloat text user run = Some m /\
    m_text m = text run u (RationalToFloat (ri_Score run)) (RationalToFloat (ri_ContestScore run)) /\
    m_user m = u /\ m_problem m = ri_ProblemName run /\ m_public m = false /\
    (forall c, ri_Contest run = Some c -> m_contest m = c) /\ (ri_Contest run = None -> m_contest m = "") /\
    (forall z, ri_Problemset run = Some z -> m_problemset m = z) /\ (ri_Problemset run = None -> m_problemset m = 0%Z)).
Proof.
  intros F text user run. unfold broadcastRun. split.
  - intros [->| ->]; [reflexivity|]. destruct (ri_ID run =? 0)%Z; reflexivity.
  - intros u H ->. destruct (Z.eqb_spec (ri_ID run) 0) as [E|_]; [congruence|]. eexists. split; [reflexivity|]. cbn.
    split; [reflexivity|]. split; [reflexivity|]. split; [reflexivity|]. split; [reflexivity|].
    split; [intros c ->; reflexivity|]. split; [intros ->; reflexivity|]. split; [intros c ->; reflexivity|intros ->; reflexivity].
Qed.
Print Assumptions C56_told.
(* The full score of a problem that is graded all or nothing and is worth more (or
   less) than one point is recorded as 0. *)
Theorem C56_full_score_refuted : ~ forall run r, ri_Verdict run = "AC" -> ri_Score run == 1 ->
  w_contest_score (updateDatabase (fun q => q) true run r) == 0 -> ri_ContestScore run == 0.
Proof.
  intros P.
  pose (run := {| ri_ID := 7; ri_Contest := Some "finals"; ri_Problemset := Some 3%Z; ri_ProblemName := "sums"; ri_Verdict := "AC"; ri_Time := 1 # 2; ri_Memory := 4096;
                  ri_Score := 1; ri_ContestScore := 100; ri_JudgedBy := "runner1"; ri_PenaltyType := "none"; ri_PartialScore := 1 |}).
  pose (r := {| w_status := "waiting"; w_verdict := "JE"; w_runtime := 0; w_penalty := 0; w_memory := 0%Z; w_score := 0; w_contest_score := 0; w_judged_by := "" |}).
  specialize (P run r eq_refl ltac:(reflexivity) ltac:(reflexivity)). discriminate P.
Qed.
Print Assumptions C56_recorded.
Print Assumptions C56_database_error.
Print Assumptions C56_agree.
Print Assumptions C56_full_score_refuted.

(* ---- C58 ---- *)
(* The outcome of a run is told only to its author and to the administrators of the
   site and of the problem, contest or problemset it belongs to; and runs without a
   number, which are ephemeral, are told to nobody. *)
Theorem C58_confidential : forall RationalToFloat text user run m s, broadcastRun RationalToFloat text user run = Some m ->
  matches s m = true -> (s_user s <> "" \/ forall f, In f (s_filters s) -> ~ is_user_filter f) ->
  s_admin s = true \/ (s_user s <> "" /\ user = Some (s_user s)) \/ In (ri_ProblemName run) (s_problems s) \/
  In (match ri_Contest run with Some c => c | None => "" end) (s_contests s) \/ In (match ri_Problemset run with Some z => z | None => 0%Z end) (s_problemsets s).
Proof.
  intros F text user run m s H HM HA. unfold broadcastRun in H. destruct (ri_ID run =? 0)%Z; [discriminate|]. destruct user as [u|]; [|discriminate]. injection H as <-.
  destruct (C27_confidential s _ HM HA) as [A|[A|[(A & B)|A]]]; cbn [m_public m_user m_problem m_contest m_problemset] in *.
  - auto.
  - discriminate A.
  - right. left. subst u. auto.
  - right. right. exact A.
Qed.
(* A run that is told has a number, and an author the database knows. *)
Theorem C58_known : forall RationalToFloat text user run, broadcastRun RationalToFloat text user run <> None <-> ri_ID run <> 0%Z /\ user <> None.
Proof.
  intros F text user run. unfold broadcastRun. destruct (Z.eqb_spec (ri_ID run) 0); destruct user; split; intros H; try tauto; try (split; congruence); try congruence; intuition congruence.
Qed.
(* Its author, subscribed to its problem, contest, problemset or to himself, is told. *)
Theorem C58_author : forall RationalToFloat text u run m s, broadcastRun RationalToFloat text (Some u) run = Some m -> u <> "" -> s_user s = u ->
  (In (User u) (s_filters s) \/ In (Problem (ri_ProblemName run)) (s_filters s) \/
   (exists c t, ri_Contest run = Some c /\ In (Contest c t) (s_filters s)) \/ (exists z t, ri_Problemset run = Some z /\ In (Problemset z t) (s_filters s))) ->
  matches s m = true.
Proof.
  intros F text u run m s H NE HU HF. unfold broadcastRun in H. destruct (ri_ID run =? 0)%Z; [discriminate|]. injection H as <-.
  unfold matches. apply existsb_exists.
  assert (O : negb (s_user s =? "") && (u =? s_user s) = true).
  { rewrite HU, String.eqb_refl, andb_true_r. apply negb_true_iff, String.eqb_neq. auto. }
  destruct HF as [HF|[HF|[(c & t & E & HF)|(z & t & E & HF)]]]; (eexists; split; [exact HF|]); cbn [filter_matches m_public m_user m_problem m_contest m_problemset].
  - rewrite HU. apply String.eqb_refl.
  - rewrite O, String.eqb_refl, !orb_true_r. reflexivity.
  - rewrite E, O, String.eqb_refl, !orb_true_r. reflexivity.
  - rewrite E, O, Z.eqb_refl, !orb_true_r. reflexivity.
Qed.
Print Assumptions C58_confidential.
Print Assumptions C58_known.
Print Assumptions C58_author.

Definition example_run : run_info :=
  {| ri_ID := 7; ri_Contest := Some "finals"; ri_Problemset := Some 3%Z; ri_ProblemName := "sums"; ri_Verdict := "PA"; ri_Time := 1 # 2; ri_Memory := 4096;
     ri_Score := 1 # 2; ri_ContestScore := 1 # 2; ri_JudgedBy := "runner1"; ri_PenaltyType := "runtime"; ri_PartialScore := 1 |}.
Definition example_row : row :=
  {| w_status := "waiting"; w_verdict := "JE"; w_runtime := 0; w_penalty := 5; w_memory := 0%Z; w_score := 0; w_contest_score := 0; w_judged_by := "" |}.
(* The told score, one half, is not the recorded one. *)
Example C56_agree_met : all_or_nothing example_run /\ w_contest_score (updateDatabase (fun q => q) true example_run example_row) == 0 /\
  ~ ri_ContestScore example_run == 0 /\ w_penalty (updateDatabase (fun q => q) true example_run example_row) == 500.
Proof. repeat split. discriminate. Qed.
Definition example_text (run : run_info) (u : string) (a b : Q) : string := u ++ " " ++ ri_Verdict run.
Definition author : subscriber := {| s_user := "alice"; s_admin := false; s_problems := []; s_contests := []; s_problemsets := []; s_filters := [Contest "finals" ""] |}.
Definition organizer : subscriber := {| s_user := "bob"; s_admin := false; s_problems := []; s_contests := ["finals"]; s_problemsets := []; s_filters := [Contest "finals" ""] |}.
Definition contestant : subscriber := {| s_user := "carol"; s_admin := false; s_problems := []; s_contests := []; s_problemsets := []; s_filters := [Contest "finals" ""; User "alice"] |}.
Example C58_met : exists m, broadcastRun (fun q => q) example_text (Some "alice") example_run = Some m /\
  matches author m = true /\ matches organizer m = true /\ matches contestant m = false.
Proof. eexists. split; [reflexivity|]. repeat split; reflexivity. Qed.

(* C38, C39, C41: reports. *)
From Coq Require Import String Ascii List Bool ZArith QArith Lia.
From Verif Require Import GoStr LitModel CiModel CiSpec.
Import ListNotations.
Local Open Scope list_scope.

(* ---- C39 ---- *)
Theorem C39_state_round_trip : forall s text, In (s, text) spelling -> CIState_MarshalJSON s = text /\ CIState_UnmarshalJSON text = s.
Proof. intros s text H. cbn in H. repeat (destruct H as [[= <- <-]|H]; [split; reflexivity|]). destruct H. Qed.
Print Assumptions C39_state_round_trip.

(* Whatever is not the spelling of a state is read as failed, and an integer that
   is no state is written as failed: neither is ever an error. *)
Theorem C39_anything_else_is_failed :
  (forall text, ~ In text (map snd spelling) -> CIState_UnmarshalJSON text = CIStateFailed) /\
  (forall s, ~ In s (map fst spelling) -> CIState_MarshalJSON s = """failed"""%string).
Proof.
  split; intros x H; cbn [spelling map fst snd In] in H.
  - unfold CIState_UnmarshalJSON. repeat (match goal with |- context [(?a =? ?b)%string] => destruct (String.eqb_spec a b); [exfalso; subst; tauto|] end). reflexivity.
  - unfold CIState_MarshalJSON, CIState_String. repeat (match goal with |- context [Z.eqb ?a ?b] => destruct (Z.eqb_spec a b); [exfalso; subst; tauto|] end). reflexivity.
Qed.
Print Assumptions C39_anything_else_is_failed.
Theorem C39_states_told_apart : forall s s', In s (map fst spelling) -> In s' (map fst spelling) -> CIState_MarshalJSON s = CIState_MarshalJSON s' -> s = s'.
Proof.
  assert (K : forall s, In s (map fst spelling) -> CIState_UnmarshalJSON (CIState_MarshalJSON s) = s).
  { intros s H. apply in_map_iff in H as ((x & t) & E & I). cbn in E. subst. apply C39_state_round_trip in I as [-> ->]. reflexivity. }
  intros s s' H H' E. rewrite <- (K s H), <- (K s' H'), E. reflexivity.
Qed.
Print Assumptions C39_states_told_apart.
Example C39_example : CIState_UnmarshalJSON "null" = CIStateFailed /\ CIState_UnmarshalJSON """waitin\u0067""" = CIStateFailed /\ CIState_MarshalJSON 77 = """failed"""%string.
Proof. repeat split. Qed.
(* A JSON text can spell the same string in several ways: this decoder only knows one
   of them. *)

(* ---- C41 ---- *)
Lemma Qgtb_spec a b : Qgtb a b = true <-> ~ (a <= b)%Q.
Proof. unfold Qgtb. rewrite <- Qle_bool_iff. destruct (Qle_bool a b); cbn; intuition congruence. Qed.
Lemma Qgtb_false a b : Qgtb a b = false <-> (a <= b)%Q.
Proof. unfold Qgtb. rewrite <- Qle_bool_iff. destruct (Qle_bool a b); cbn; intuition congruence. Qed.
Theorem C41_score_range_accepted_iff : forall (flt : Type) (FloatToRational : flt -> Q) (json : option (list flt)) r,
  ScoreRange_UnmarshalJSON FloatToRational json = Some r <->
  exists a b, json = Some [a; b] /\ r = {| Min := FloatToRational a; Max := FloatToRational b |} /\ (0 <= Min r /\ Min r <= Max r /\ Max r <= 1)%Q.
Proof.
  intros flt f json r. split.
  - destruct json as [[|a [|b [|? ?]]]|]; cbn; try discriminate. destruct (Qgtb (f a) (f b)) eqn:E1; [discriminate|].
    destruct (Qgtb 0 (f a)) eqn:E2; [discriminate|]. destruct (Qgtb (f b) 1) eqn:E3; [discriminate|]. cbn [orb]. intros [= <-].
    apply Qgtb_false in E1, E2, E3. exists a, b. cbn. auto.
  - intros (a & b & -> & -> & H1 & H2 & H3). cbn in *. apply Qgtb_false in H1, H2, H3. rewrite H2, H1, H3. reflexivity.
Qed.
Print Assumptions C41_score_range_accepted_iff.
Example C41_example : exists r, ScoreRange_UnmarshalJSON (fun n => n # 10) (Some [5; 10]%Z) = Some r /\ (Min r == 1 # 2)%Q /\ (Max r == 1)%Q.
Proof. eexists. split; [reflexivity|]. split; reflexivity. Qed.

(* ---- C38 ---- *)
Lemma test_state_meets setting r : (meets setting r /\ test_state setting r = CIStatePassed) \/ (~ meets setting r /\ test_state setting r = CIStateFailed).
Proof.
  destruct setting as [ss|]; cbn.
  - destruct (String.eqb_spec (sol_Verdict ss) "") as [V|V].
    + cbn [negb andb]. destruct (sol_ScoreRange ss) as [sr|].
      * destruct (Qgtb (Min sr) (r_Score r)) eqn:A; cbn [orb].
        { right. split; [|auto]. intros [_ K]. destruct (K _ eq_refl). apply Qgtb_spec in A. auto. }
        change (Qltb (Max sr) (r_Score r)) with (Qgtb (r_Score r) (Max sr)). destruct (Qgtb (r_Score r) (Max sr)) eqn:B.
        { right. split; [|auto]. intros [_ K]. destruct (K _ eq_refl). apply Qgtb_spec in B. auto. }
        left. split; [|auto]. split; [congruence|]. intros range [= <-]. apply Qgtb_false in A, B. auto.
      * left. split; [|auto]. split; [congruence|discriminate].
    + cbn [negb andb]. destruct (String.eqb_spec (sol_Verdict ss) (r_Verdict r)) as [E|E]; cbn [negb].
      * destruct (sol_ScoreRange ss) as [sr|].
        -- destruct (Qgtb (Min sr) (r_Score r)) eqn:A; cbn [orb].
           { right. split; [|auto]. intros [_ K]. destruct (K _ eq_refl). apply Qgtb_spec in A. auto. }
           change (Qltb (Max sr) (r_Score r)) with (Qgtb (r_Score r) (Max sr)). destruct (Qgtb (r_Score r) (Max sr)) eqn:B.
           { right. split; [|auto]. intros [_ K]. destruct (K _ eq_refl). apply Qgtb_spec in B. auto. }
           left. split; [|auto]. split; [auto|]. intros range [= <-]. apply Qgtb_false in A, B. auto.
        -- left. split; [|auto]. split; [auto|discriminate].
      * right. split; [intros [K _]; apply E; symmetry; auto|]. destruct (sol_ScoreRange ss); [destruct (_ || _)|]; auto.
  - destruct (String.eqb_spec (r_Verdict r) "AC"); cbn [negb]; auto.
Qed.
Lemma do_test_shown setting o : shown setting o (fst (fst (do_test setting o))).
Proof. destruct o as [e|p r [e|]]; cbn; auto. destruct (test_state_meets setting r); auto. Qed.
Lemma do_test_state setting o t f w : do_test setting o = (t, f, w) -> (f = true -> t_state t = CIStateError) /\ (f = false -> t_state t = CIStatePassed \/ t_state t = CIStateFailed).
Proof.
  destruct o as [e|p r [e|]]; cbn; intros [= <- <- <-]; cbn; (split; [|]); try discriminate; auto.
  intros _. destruct (test_state_meets setting r) as [[_ ->]|[_ ->]]; auto.
Qed.
Lemma do_test_written setting o t f w v : do_test setting o = (t, f, w) -> In v w -> exists p r late, o = Ran p r late /\
  (v = {| t_state := CIStateRunning; t_error := ""; t_result := None |} \/ shown setting (Ran p r None) v).
Proof.
  destruct o as [e|p r late]; intros H I; [injection H as <- <- <-; destruct I|]. exists p, r, late. split; [auto|].
  assert (W : In v ((if p then [{| t_state := CIStateRunning; t_error := ""; t_result := None |}] else []) ++ [{| t_state := test_state setting r; t_error := ""; t_result := Some r |}])).
  { destruct late; injection H as <- <- <-; exact I. }
  apply in_app_or in W as [W|[<-|[]]]; [destruct p; [destruct W as [<-|[]]; auto|destruct W]|]. right. cbn. destruct (test_state_meets setting r); auto.
Qed.

Lemma coherent_app todo1 ts1 : Forall2 (fun x t => shown (fst x) (snd x) t) todo1 ts1 -> forall todo2 ts2, coherent todo2 ts2 -> coherent (todo1 ++ todo2) (ts1 ++ ts2).
Proof. induction 1 as [|(s & o) t l l' H F IH]; intros; cbn; [auto|]. constructor; auto. Qed.
Lemma worst_step states f x : worst states f -> In x [CIStateError; CIStatePassed; CIStateFailed] -> worst (states ++ [x]) (if Z.eqb x CIStateError then CIStateError else if Z.eqb f CIStatePassed then x else f).
Proof.
  intros W I. unfold worst in *. rewrite !in_app_iff. cbn [In] in *.
  destruct I as [<-|[<-|[<-|[]]]]; cbn [Z.eqb CIStateError CIStatePassed CIStateFailed Pos.eqb].
  - left. auto.
  - destruct W as [[A ->]|[(A & B & ->)|(A & B & ->)]]; cbn; [left; auto|right; left|right; right]; unfold CIStatePassed, CIStateError, CIStateFailed in *; intuition discriminate.
  - destruct W as [[A ->]|[(A & B & ->)|(A & B & ->)]]; cbn; [left; auto|right; left|right; left]; unfold CIStatePassed, CIStateError, CIStateFailed in *; intuition discriminate.
Qed.
Lemma do_tests_ok : forall todo before done f f' ts rs, do_tests done f todo = (f', ts, rs) ->
  Forall2 (fun x t => shown (fst x) (snd x) t) before done -> worst (map t_state done) f ->
  Forall2 (fun x t => shown (fst x) (snd x) t) (before ++ todo) ts /\ worst (map t_state ts) f' /\
  Forall (fun v => v_state v = CIStateRunning /\ v_error v = ""%string /\ coherent (before ++ todo) (v_tests v)) rs.
Proof.
  induction todo as [|(s & o) todo IH]; cbn [do_tests]; intros before done f f' ts rs H F W.
  - injection H as <- <- <-. rewrite app_nil_r. auto.
  - destruct (do_test s o) as [[t e] w] eqn:T. destruct (do_tests (done ++ [t]) _ todo) as [[f1 ts1] rs1] eqn:D. injection H as <- <- <-.
    assert (S : shown s o t) by (pose proof (do_test_shown s o) as S; rewrite T in S; exact S).
    destruct (IH (before ++ [(s, o)]) _ _ _ _ _ D) as (A & B & C).
    + apply Forall2_app; [auto|]. constructor; [exact S|constructor].
    + rewrite map_app. cbn [map]. destruct (do_test_state _ _ _ _ _ T) as [E1 E2].
      replace (if e then CIStateError else if Z.eqb f CIStatePassed then t_state t else f) with (if Z.eqb (t_state t) CIStateError then CIStateError else if Z.eqb f CIStatePassed then t_state t else f).
      * apply worst_step; [auto|]. cbn. destruct e; [rewrite E1 by auto; auto|]. destruct (E2 eq_refl) as [-> | ->]; auto.
      * destruct e; [rewrite E1 by auto; reflexivity|]. destruct (E2 eq_refl) as [-> | ->]; reflexivity.
    + rewrite <- app_assoc in A, C. cbn [app] in A, C. split; [auto|]. split; [auto|]. apply Forall_app. split; [|auto].
      apply Forall_forall. intros v I. apply in_map_iff in I as (x & <- & I). cbn [v_state v_error v_tests]. split; [auto|]. split; [auto|].
      destruct (do_test_written _ _ _ _ _ _ T I) as (p & r & late & -> & X). apply coherent_app; [auto|]. apply one_now. exact X.
Qed.
Lemma combine_split {A B} : forall (l : list A) (l' : list B), length l = length l' -> map fst (combine l l') = l /\ length (combine l l') = length l.
Proof. intros l l' H. split; [|rewrite combine_length; lia]. revert l' H. induction l as [|x l IH]; intros [|y l'] H; cbn in *; try discriminate; [auto|]. f_equal. apply IH. lia. Qed.

(* The last report shows every test as it ended up, and its state is the worst of
   theirs; the reports before it are waiting or running and show the tests run one
   after the other. *)
Theorem C38_report_is_worst_of_tests : forall ts outcome rs, processCIRequest (Config ts) outcome = Reports rs ->
  let plan := combine (map ct_setting ts) (map outcome (seq 0 (length ts))) in
  exists first middle last, rs = first :: middle ++ [last] /\
    worst (map t_state (v_tests last)) (v_state last) /\ v_error last = ""%string /\
    Forall2 (fun x t => shown (fst x) (snd x) t) plan (v_tests last) /\
    v_state first = CIStateWaiting /\ v_tests first = map (fun _ => waiting_test) ts /\
    (forall v, In v middle -> v_state v = CIStateRunning /\ coherent plan (v_tests v)).
Proof.
  intros ts oc rs H plan. unfold processCIRequest in H. fold plan in H. destruct (do_tests [] CIStatePassed plan) as [[f views] m] eqn:D.
  injection H as <-. destruct (do_tests_ok _ [] _ _ _ _ _ D (Forall2_nil _)) as (A & B & C). { right; right. cbn. auto. }
  eexists _, m, _. split; [reflexivity|]. cbn. repeat split; auto. all: rewrite Forall_forall in C; apply C in H as (K & _ & L); auto.
Qed.
Print Assumptions C38_report_is_worst_of_tests.
(* A commit that cannot be configured gets one report, without tests: skipped or
   error. *)
Theorem C38_unconfigured : forall outcome,
  processCIRequest Skip outcome = Reports [{| v_state := CIStateSkipped; v_error := "error"; v_tests := [] |}] /\
  processCIRequest Fail outcome = Reports [{| v_state := CIStateError; v_error := "error"; v_tests := [] |}].
Proof. split; reflexivity. Qed.
Print Assumptions C38_unconfigured.

Example C38_example :
  let any := {| Cases := []; Limits := None; Validator := None; Interactive := None |} in
  let sol v sr := {| ct_setting := Some {| sol_Filename := "a.cpp"; sol_ScoreRange := sr; sol_Verdict := v; sol_Language := "" |}; ct_filename := "a.cpp"; ct_language := "cpp11"; ct_source := ""; ct_input := any |} in
  let r := {| r_Verdict := "PA"; r_Score := 1 # 2 |} in
  let oc n := match n with O => Ran true r None | S O => EarlyError "full" | _ => Ran false r None end in
  exists rs, processCIRequest (Config [sol "" (Some {| Min := 1 # 2; Max := 1 |}); sol "AC" None; sol "AC" None]%string) oc = Reports rs /\
    map v_state rs = [CIStateWaiting; CIStateRunning; CIStateRunning; CIStateRunning; CIStateError] /\
    map t_state (v_tests (List.last rs {| v_state := 0; v_error := ""; v_tests := [] |})) = [CIStatePassed; CIStateError; CIStateFailed].
Proof. eexists. split; [reflexivity|]. split; reflexivity. Qed.

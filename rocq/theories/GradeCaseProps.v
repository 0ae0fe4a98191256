(* C19, C22, C47: what each case of a graded run is reported with, and the
   resources reported for the whole run. *)
From Coq Require Import String List Arith NArith ZArith Bool QArith Permutation Lia Setoid.
From Flocq Require Import IEEE754.BinarySingleNaN.
From Verif Require Import TokModel TokSpec ValModel ValSpec ValProofs NumModel GradeModel GradeSpec GradeProofs GradeScoreProofs ValProps GradeProps.
Import ListNotations.
Local Open Scope nat_scope.

(* ---- specification ---- *)
(* The two files that decide the score of a case: the problem's expected output
   and the contestant's output or, for the custom validator, the validator's own
   output (nothing at all if the validator did not end well). *)
Definition empty_file : reader := mkRd [] EEOF false.
Definition graded_on (validator : string) (c : case_data) (expected output : reader) : Prop :=
  (validator <> "custom"%string /\ va_expected (cvalid c) = Some expected /\ va_contestant (cvalid c) = Some output) \/
  (validator = "custom"%string /\ expected = empty_file /\
   ((fst (va_custom (cvalid c)) = OK /\ snd (va_custom (cvalid c)) = Some output) \/
    (fst (va_custom (cvalid c)) <> OK /\ output = empty_file))).
(* The verdict that goes with a score. *)
Definition verdict_of (q : Q) (v : verdict) : Prop :=
  (q == 1 -> v = AC)%Q /\ (q == 0 -> v = WA)%Q /\ (~ q == 1 -> ~ q == 0 -> v = PA)%Q.

Lemma graded_on_score f n p m val c ex co : graded_on val c ex co ->
  case_score f n p m val c = Some (score (CalculateScore f n p m val ex co)).
Proof.
  unfold case_score, graded_on. intros [(A & B & C)|(A & B & C)].
  - destruct (String.eqb_spec val "custom"); [contradiction|]. rewrite B, C. reflexivity.
  - subst val ex. cbn [String.eqb Ascii.eqb Bool.eqb].
    destruct (va_custom (cvalid c)) as [v o]. cbn [fst snd] in C. destruct C as [[-> ->]|[H ->]]; [reflexivity|].
    destruct v; try reflexivity. contradiction.
Qed.
Lemma score_graded_on f n p m val c q : case_score f n p m val c = Some q -> exists ex co, graded_on val c ex co.
Proof.
  unfold case_score, graded_on. destruct (String.eqb_spec val "custom") as [->|E].
  - destruct (va_custom (cvalid c)) as [v o]. cbn [fst snd]. intros H. exists empty_file.
    assert (X : {v = OK} + {v <> OK}) by (destruct v; (left; congruence) || (right; congruence)).
    destruct X as [->|X]; [|exists empty_file; right; auto].
    destruct o as [co|]; [|discriminate]. exists co. right. auto.
  - destruct (va_contestant (cvalid c)) as [co|]; [|discriminate]. destruct (va_expected (cvalid c)) as [ex|]; [|discriminate].
    intros _. exists ex, co. left. auto.
Qed.

Lemma cases_done f n p m val M wl gs r : processes_ok gs ->
  r = fst (run_and_validate f n p m val M wl (weight_factor gs) gs) ->
  Forall2 (group_done f n p m val M (weight_factor gs)) gs (rr_groups r) /\
  forall c cr, In (c, cr) (combine (all_cases gs) (case_results r)) -> done f n p m val M (weight_factor gs) c cr.
Proof.
  intros HP HG. pose proof (run_and_validate_spec f n p m val M wl (weight_factor gs) gs HP) as S. cbn zeta in S. rewrite <- HG in S. destruct S as (S0 & _).
  split; auto.
  assert (FL : Forall2 (done f n p m val M (weight_factor gs)) (all_cases gs) (case_results r)).
  { unfold all_cases, case_results. clear - S0. revert S0. generalize (weight_factor gs) (rr_groups r). intros k grs S0. induction S0 as [|g gr gs grs (_ & D & _) _ IH]; cbn; auto. apply Forall2_app; auto. }
  clear - FL. induction FL as [|c cr cs crs H _ IH]; cbn; [tauto|]. intros c' cr' [E|E]; [injection E as <- <-; auto|auto].
Qed.

(* ---- C19 ---- *)
(* The result has the problem's groups and cases, in order and by name.  A case
   whose processes did not end well keeps their verdict and scores nothing;
   otherwise its score is what the validator says about the expected output and
   the output produced, and its verdict is the one that goes with it.  Only if
   one of these files is missing does the case stay OK, with score 0. *)
Theorem C19_case_score :
  forall fold_eq num_eq parse maxTok st validator max_score wall_limit gs r tr,
  Grade fold_eq num_eq parse maxTok st validator max_score wall_limit gs = (r, false, tr) ->
  rr_compile_error r = false -> processes_ok gs ->
  map (fun g => (gr_name g, map cr_name (gr_cases g))) (rr_groups r) = map (fun g => (gname g, map cname (gcases g))) gs /\
  forall c cr, In (c, cr) (combine (all_cases gs) (case_results r)) ->
  (mverdict (cr_meta cr) <> OK -> cr_verdict cr = mverdict (cr_meta cr) /\ cr_score cr == 0 /\ cr_contest cr == 0)%Q /\
  (mverdict (cr_meta cr) = OK -> forall expected output, graded_on validator c expected output ->
     let q := score (CalculateScore fold_eq num_eq parse maxTok validator expected output) in
     (cr_score cr == q)%Q /\ verdict_of q (cr_verdict cr)) /\
  (mverdict (cr_meta cr) = OK -> (forall expected output, ~ graded_on validator c expected output) ->
     cr_verdict cr = OK /\ cr_score cr == 0 /\ cr_contest cr == 0)%Q.
Proof.
  intros f n p m st val M wl gs r tr HG HC HP. apply Grade_ran in HG; auto.
  destruct (cases_done _ _ _ _ _ _ _ _ _ HP HG) as [S0 CH].
  split.
  { clear - S0. revert S0. generalize (weight_factor gs) (rr_groups r). intros k grs S0.
    induction S0 as [|g gr gs grs (A & D & _) _ IH]; cbn; [auto|]. rewrite IH, A. f_equal. f_equal.
    clear - D. induction D as [|c cr cs crs (A & _) _ IH]; cbn; congruence. }
  intros c cr Hc. destruct (CH c cr Hc) as (_ & _ & O).
  destruct O as [exc HV HN HMt HS HCt|exc HV HOk HMt HFs HS HCt|exc q HQ HOk HMt HS HCt HV].
  - assert (X : mverdict (cr_meta cr) <> OK) by congruence.
    split; [|split; intros; contradiction]. intros _. rewrite HS, HCt, HMt. repeat split; try reflexivity. auto.
  - assert (X : mverdict (cr_meta cr) = OK) by congruence.
    split; [intros; contradiction|]. split.
    + intros _ ex co HGr. rewrite (graded_on_score f n p m val c ex co HGr) in HFs. discriminate.
    + intros _ _. rewrite HS, HCt, HV. repeat split; reflexivity.
  - assert (X : mverdict (cr_meta cr) = OK) by congruence.
    split; [intros; contradiction|]. split.
    + intros _ ex co HGr. rewrite (graded_on_score _ _ _ _ _ _ _ _ HGr) in HQ. injection HQ as <-. cbv zeta. split; [exact HS|].
      rewrite HV. unfold verdict_of. set (q := score _). repeat split.
      * intros Z. apply Qeq_bool_iff in Z. rewrite Z. reflexivity.
      * intros Z. destruct (Qeq_bool q 1) eqn:E; [apply Qeq_bool_eq in E; rewrite Z in E; discriminate E|].
        apply Qeq_bool_iff in Z. rewrite Z. reflexivity.
      * intros A B. destruct (Qeq_bool q 1) eqn:E; [apply Qeq_bool_eq in E; contradiction|].
        destruct (Qeq_bool q 0) eqn:E0; [apply Qeq_bool_eq in E0; contradiction|]. reflexivity.
    + intros _ NG. destruct (score_graded_on _ _ _ _ _ _ _ HQ) as (ex & co & Y). destruct (NG _ _ Y).
Qed.
Print Assumptions C19_case_score.

(* ---- C47, custom validators ---- *)
(* With a custom validator a case whose processes ended well is worth the number
   the validator printed first, moved into [0, 1], and nothing if it printed no
   number or did not end well itself. *)
Definition within_unit (v q : Q) : Prop := (v <= 0 -> q == 0)%Q /\ (0 <= v <= 1 -> q == v)%Q /\ (1 <= v -> q == 1)%Q.
Theorem C47_custom_score :
  forall fold_eq num_eq parse maxTok st max_score wall_limit gs r tr,
  Grade fold_eq num_eq parse maxTok st "custom" max_score wall_limit gs = (r, false, tr) ->
  rr_compile_error r = false -> processes_ok gs -> (4 <= maxTok)%N ->
  forall c cr, In (c, cr) (combine (all_cases gs) (case_results r)) -> mverdict (cr_meta cr) = OK ->
  (fst (va_custom (cvalid c)) <> OK -> cr_score cr == 0 /\ cr_verdict cr = WA)%Q /\
  (fst (va_custom (cvalid c)) = OK -> forall out ts,
     snd (va_custom (cvalid c)) = Some out -> readable IsNonWhitespace maxTok out ->
     tokenized IsNonWhitespace (chars (contents out)) ts ->
     verdict_of (cr_score cr) (cr_verdict cr) /\
     match ts with
     | [] => (cr_score cr == 0)%Q
     | t :: _ => match parse (text t) with None => (cr_score cr == 0)%Q | Some v => within_unit v (cr_score cr) end
     end).
Proof.
  intros f n p m st M wl gs r tr HG HC HP HM c cr Hc HO.
  destruct (C19_case_score _ _ _ _ _ _ _ _ _ _ _ HG HC HP) as [_ CS]. destruct (CS c cr Hc) as (_ & CS1 & _). clear CS.
  split.
  - intros NV. assert (GO : graded_on "custom" c empty_file empty_file) by (right; auto).
    destruct (CS1 HO _ _ GO) as [E V]. unfold verdict_of in V.
    assert (Z : score (CalculateScore f n p m "custom" empty_file empty_file) == 0).
    { assert (R : readable IsNonWhitespace m empty_file).
      { unfold readable, empty_file. split; [exact Logic.I|]. split; [reflexivity|constructor]. }
      assert (T : tokenized IsNonWhitespace (chars (contents empty_file)) []) by constructor.
      pose proof (C17_value f n p m "custom" empty_file empty_file [] HM (or_intror eq_refl) R T) as V0. cbn zeta iota in V0.
      destruct V0 as [-> _]. reflexivity. }
    split; [rewrite E; exact Z|apply V; exact Z].
  - intros OKV out ts HO2 R T. assert (GO : graded_on "custom" c empty_file out) by (right; auto).
    destruct (CS1 HO _ _ GO) as [E V].
    pose proof (C17_value f n p m "custom" empty_file out ts HM (or_intror eq_refl) R T) as V0. cbn zeta in V0, E, V.
    split.
    { unfold verdict_of in *. rewrite E. exact V. }
    destruct ts as [|t ts]; [rewrite E; destruct V0 as [-> _]; reflexivity|].
    destruct (p (text t)) as [v|]; [|rewrite E; destruct V0 as [-> _]; reflexivity].
    destruct V0 as (_ & A & B & C). unfold within_unit. rewrite E. auto.
Qed.
Print Assumptions C47_custom_score.

(* ---- C22: resources of the whole run ---- *)
Lemma run_cases_resources M wl k cs : forall s,
  let '(s', rs) := run_cases M wl k s cs in
  s_time s' = fold_left fadd (map (fun r => mtime (cr_meta r)) rs) (s_time s) /\
  s_mem s' = fold_left Z.max (map (fun r => mmem (cr_meta r)) rs) (s_mem s).
Proof.
  induction cs as [|c cs IH]; intros s; cbn [run_cases]; [cbn; auto|].
  unfold run_one. destruct (run_case (exceeds wl s) c) as [mm ev].
  match goal with |- context [run_cases M wl k ?s0 cs] => specialize (IH s0); destruct (run_cases M wl k s0 cs) as [s2 rs] end.
  cbn [s_time s_mem] in IH. exact IH.
Qed.
(* The run's time is the sum of the times of its cases, in the order they are
   run; its memory is the largest used by a case. *)
Theorem C22_run_resources :
  forall fold_eq num_eq parse maxTok st validator max_score wall_limit gs r tr,
  Grade fold_eq num_eq parse maxTok st validator max_score wall_limit gs = (r, false, tr) ->
  rr_compile_error r = false ->
  rr_time r = fold_left fadd (map (fun cr => mtime (cr_meta cr)) (case_results r)) fzero /\
  (forall cr, In cr (case_results r) -> mmem (cr_meta cr) <= rr_mem r)%Z /\
  (rr_mem r = 0%Z \/ exists cr, In cr (case_results r) /\ mmem (cr_meta cr) = rr_mem r).
Proof.
  intros f n p m st val M wl gs r tr HG HC. apply Grade_ran in HG; auto.
  assert (RM : rr_time r = fold_left fadd (map mtime (map cr_meta (case_results r))) fzero /\
     rr_mem r = fold_left Z.max (map mmem (map cr_meta (case_results r))) 0%Z).
  { unfold run_and_validate in *.
    pose proof (run_cases_flat M wl (weight_factor gs) gs (mkRS OK fzero fzero 0 [])) as RF.
    pose proof (run_cases_resources M wl (weight_factor gs) (all_cases gs) (mkRS OK fzero fzero 0 [])) as RW. rewrite RF in RW.
    destruct (run_groups_ran M wl (weight_factor gs) gs (mkRS OK fzero fzero 0 [])) as [RR _].
    destruct (run_groups M wl (weight_factor gs) (mkRS OK fzero fzero 0 []) gs) as [s rss]. cbn [fst snd s_time s_mem] in *.
    assert (LN : Forall2 (fun g rs => length (gcases g) = length rs) gs rss).
    { clear - RR. revert RR. generalize (weight_factor gs). intros k RR. induction RR as [|g rs gs rss H _ IH]; constructor; auto. eapply Forall2_length; eauto. }
    pose proof (validate_metas f n p m val M (weight_factor gs) gs (s_verdict s) 0 rss LN) as VM.
    destruct (validate_groups f n p m val M (weight_factor gs) (s_verdict s) 0 gs rss) as [[grs v] sc].
    assert (EM : map cr_meta (case_results r) = map cr_meta (concat rss)).
    { rewrite HG. destruct (veqb v PA && Qeq_bool sc 0)%bool; [exact VM|]. destruct (veqb v OK); exact VM. }
    assert (EW : rr_time r = s_time s /\ rr_mem r = s_mem s).
    { rewrite HG. destruct (veqb v PA && Qeq_bool sc 0)%bool; [split; reflexivity|]. destruct (veqb v OK); split; reflexivity. }
    rewrite EM, !map_map. destruct EW as [-> ->]. exact RW. }
  destruct RM as [-> E]. rewrite E, map_map. split; [reflexivity|].
  assert (FM : forall l a, (a <= fold_left Z.max l a)%Z /\ (forall x, In x l -> x <= fold_left Z.max l a)%Z /\
     (fold_left Z.max l a = a \/ In (fold_left Z.max l a) l)).
  { induction l as [|y l IH]; intros a; cbn [fold_left]; [split; [lia|]; split; [intros x []|auto]|].
    destruct (IH (Z.max a y)) as (A & B & C). split; [lia|]. split.
    - intros x [<-|Hx]; [lia|auto].
    - destruct C as [C|C]; [|right; right; exact C]. rewrite C. destruct (Z.max_spec a y) as [[_ ->]|[_ ->]]; [right; left; auto|auto]. }
  rewrite map_map.
  destruct (FM (map (fun x => mmem (cr_meta x)) (case_results r)) 0%Z) as (_ & B & C). split.
  - intros cr Hc. apply B. apply in_map_iff. eauto.
  - destruct C as [C|C]; [left; exact C|right]. apply in_map_iff in C as (cr & C1 & C2). eauto.
Qed.
Print Assumptions C22_run_resources.

(* ---- an example that meets the hypotheses ---- *)
(* A custom validator: it prints a number the harness reads as 3/4 for the first
   case, crashes on the second; the third case runs out of memory. *)
Definition cu_case (name : string) (run : run_answer) (v : verdict) (out : list N) : case_data :=
  mkC name 1 run (mkVA (file [55]%N) (file [56]%N) (v, file out)).
Definition cu_gs : list group_data :=
  [mkG "a" [cu_case "a.1" (Procs fok) OK [120; 10]%N];
   mkG "b" [cu_case "b.1" (Procs fok) RTE [120; 10]%N; cu_case "b.2" (Procs [proc "Main" (mkM MLE 0 fzero fzero 9 None)]) OK [120]%N]].
Definition cu_grade :=
  Grade (fun _ _ => false) (fun _ _ => false) (fun t => if bytes_eqb t [120]%N then Some (3#4) else None) MaxTokenLength
    (SReady [mkB "Main" Contestant (Some OK) false]) "custom" 100 (B754_infinity false) cu_gs.
Example case_score_example :
  let '(r, err, tr) := cu_grade in
  err = false /\ rr_compile_error r = false /\ processes_ok cu_gs /\
  map (fun cr => (cr_name cr, cr_verdict cr, Qred (cr_score cr))) (case_results r) =
    [("a.1"%string, PA, 3#4); ("b.1"%string, WA, 0); ("b.2"%string, MLE, 0)]%Q /\
  rr_mem r = 9%Z /\ rr_verdict r = MLE /\
  graded_on "custom" (cu_case "a.1" (Procs fok) OK [120; 10]%N) empty_file (mkRd [[120; 10]%N] EEOF false).
Proof.
  destruct cu_grade as [[r err] tr] eqn:E.
  assert (X : (let '(r, err, tr) := cu_grade in
     (err, rr_compile_error r, map (fun cr => (cr_name cr, cr_verdict cr, Qred (cr_score cr))) (case_results r), rr_mem r, rr_verdict r)) =
     (false, false, [("a.1"%string, PA, 3#4); ("b.1"%string, WA, 0); ("b.2"%string, MLE, 0)]%Q, 9%Z, MLE)) by (vm_compute; reflexivity).
  rewrite E in X. injection X as -> -> -> -> ->.
  split; [reflexivity|]. split; [reflexivity|]. split.
  { intros g c Hg Hc. unfold cu_gs in Hg. cbn [In] in Hg.
    destruct Hg as [<-|[<-|[]]]; cbn [gcases In] in Hc; repeat (destruct Hc as [<-|Hc]); try destruct Hc;
      cbn; intros a [<-|[]]; unfold process_verdict; cbn; intuition discriminate. }
  split; [reflexivity|]. split; [reflexivity|]. split; [reflexivity|].
  right. split; [reflexivity|]. split; [reflexivity|]. left. split; reflexivity.
Qed.

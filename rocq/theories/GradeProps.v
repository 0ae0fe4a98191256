(* C18-C24, C47: verdicts and scores of a graded run. *)
From Coq Require Import String List Arith NArith ZArith Bool QArith Permutation Lia Lqa Setoid.
From Flocq Require Import Core.Raux IEEE754.BinarySingleNaN.
From Verif Require Import TokModel TokSpec ValModel ValSpec ValProofs NumModel GradeModel GradeSpec GradeProofs GradeScoreProofs GradeAggProofs.
From Verif Require ValProps.
Import ListNotations.
Local Open Scope Q_scope.

(* ---- C18 ---- *)
(* Combining two verdicts of the list gives the one that is at least as bad as
   the other; it never panics, and is associative, commutative, idempotent. *)
Theorem C18_worse_is_min : forall a b : verdict,
  exists w, worse_string (vname a) (vname b) = Some (vname w) /\
  (w = a \/ w = b) /\ at_least_as_bad w a /\ at_least_as_bad w b.
Proof.
  intros a b. exists (worse a b). split; [destruct a, b; reflexivity|].
  rewrite !rank_spec, !worse_rank. split; [unfold worse; destruct (_ <=? _)%nat; auto|lia].
Qed.
Print Assumptions C18_worse_is_min.

Definition worse_opt (a b : option string) : option string :=
  match a, b with Some x, Some y => worse_string x y | _, _ => None end.
Lemma slice_index_unknown s : ~ In s VerdictList -> slice_index VerdictList s 0 = (-1)%Z.
Proof.
  intros H. unfold VerdictList in *. cbn in H. cbn [slice_index].
  repeat match goal with |- context [String.eqb ?x s] => destruct (String.eqb_spec x s); [exfalso; subst; tauto|] end. reflexivity.
Qed.
Lemma known_name s : In s VerdictList -> exists v, s = vname v.
Proof.
  unfold VerdictList; cbn. intros H.
  repeat (destruct H as [<-|H]; [|]); [exists JE|exists CE|exists MLE|exists RFE|exists RTE|exists TLE|exists OLE|exists WA|exists PA|exists AC|exists OK|destruct H]; reflexivity.
Qed.
Theorem C18_worse_laws : forall x y z : string,
  worse_string x y = worse_string y x /\
  worse_opt (worse_string x y) (Some z) = worse_opt (Some x) (worse_string y z) /\
  (In x VerdictList -> worse_string x x = Some x).
Proof.
  assert (K : forall s, In s VerdictList \/ ~ In s VerdictList) by (intros s; destruct (in_dec string_dec s VerdictList); auto).
  assert (U : forall a b, ~ In a VerdictList -> worse_string a b = None /\ worse_string b a = None).
  { intros a b H. unfold worse_string. rewrite (slice_index_unknown a H).
    assert (X : (Z.min (-1) (slice_index VerdictList b 0) <? 0)%Z = true) by (apply Z.ltb_lt; lia).
    rewrite X. rewrite Z.min_comm, X. auto. }
  intros x y z. split; [unfold worse_string; rewrite Z.min_comm; auto|].
  split; [|intros H; apply known_name in H; destruct H as (v & ->); destruct v; reflexivity].
  destruct (K x) as [Kx|Kx]; [|rewrite (proj1 (U x y Kx)); cbn; destruct (worse_string y z) as [w|]; [symmetry; exact (proj1 (U x w Kx))|reflexivity]].
  destruct (K y) as [Ky|Ky]; [|rewrite (proj2 (U y x Ky)), (proj1 (U y z Ky)); auto].
  destruct (K z) as [Kz|Kz]; [|rewrite (proj2 (U z y Kz)); destruct (worse_string x y) as [w|]; cbn; [exact (proj2 (U z w Kz))|reflexivity]].
  apply known_name in Kx, Ky, Kz. destruct Kx as (a & ->), Ky as (b & ->), Kz as (c & ->). destruct a, b, c; reflexivity.
Qed.
Print Assumptions C18_worse_laws.

(* A verdict outside the list (the run's initial empty verdict, say) makes it
   panic, runner/runner.go:1325-1340. *)
Theorem C18_worse_total_refuted : exists a b, worse_string a b = None.
Proof. exists "VE"%string, "OK"%string. reflexivity. Qed.
Print Assumptions C18_worse_total_refuted.

(* The verdict of a run: the worst of its cases' verdicts, wrong and partial
   answers counting as partial; WA instead of PA without any points, AC instead
   of OK. *)
Theorem C18_run_verdict :
  forall fold_eq num_eq parse maxTok st validator max_score wall_limit gs r tr,
  Grade fold_eq num_eq parse maxTok st validator max_score wall_limit gs = (r, false, tr) ->
  rr_compile_error r = false -> processes_ok gs ->
  exists w, is_worst w (map counts_as (case_verdicts r)) /\
  rr_verdict r = match w with
                 | PA => if Qeq_bool (rr_score r) 0 then WA else PA
                 | OK => AC
                 | _ => w
                 end.
Proof.
  intros f n p m st val M wl gs r tr HG HC HP. apply Grade_ran in HG; auto.
  pose proof (run_and_validate_spec f n p m val M wl (weight_factor gs) gs HP) as S. cbn zeta in S. rewrite <- HG in S.
  destruct S as (_ & (S1 & S2 & S3) & _).
  exists (worst (map counts_as (case_verdicts r))). split; [apply worst_is|]. rewrite S1.
  assert (I := proj1 (worst_is (map counts_as (case_verdicts r)))).
  destruct (worst (map counts_as (case_verdicts r))) eqn:E; cbn [veqb rank Nat.eqb andb]; auto.
  assert (X : PA <> OK) by discriminate. specialize (S3 X). destruct (Qeq_bool (rr_score r) 0) eqn:E1.
  - apply Qeq_bool_eq in E1. rewrite S3 in E1. apply Qeq_bool_iff in E1. rewrite E1. reflexivity.
  - destruct (Qeq_bool (total (map gr_score (rr_groups r))) 0) eqn:E2; auto.
    apply Qeq_bool_eq in E2. apply Qeq_bool_neq in E1. rewrite S3 in E1. contradiction.
Qed.
Print Assumptions C18_run_verdict.

Corollary C18_order_irrelevant :
  forall fold_eq num_eq parse maxTok st st' validator max_score wall_limit wall_limit' gs gs' r r' tr tr',
  Grade fold_eq num_eq parse maxTok st validator max_score wall_limit gs = (r, false, tr) ->
  Grade fold_eq num_eq parse maxTok st' validator max_score wall_limit' gs' = (r', false, tr') ->
  rr_compile_error r = false -> rr_compile_error r' = false -> processes_ok gs -> processes_ok gs' ->
  Permutation (case_verdicts r) (case_verdicts r') -> rr_score r == rr_score r' ->
  rr_verdict r = rr_verdict r'.
Proof.
  intros f n p m st st' val M wl wl' gs gs' r r' tr tr' H1 H2 C1 C2 P1 P2 HP HS.
  destruct (C18_run_verdict _ _ _ _ _ _ _ _ _ _ _ H1 C1 P1) as (w & W & ->).
  destruct (C18_run_verdict _ _ _ _ _ _ _ _ _ _ _ H2 C2 P2) as (w' & W' & ->).
  assert (w = w') as <-.
  { eapply is_worst_unique; [|exact W']. eapply is_worst_perm; [|exact W]. apply Permutation_map; auto. }
  destruct w; auto.
  destruct (Qeq_bool (rr_score r) 0) eqn:E1, (Qeq_bool (rr_score r') 0) eqn:E2; auto.
  - apply Qeq_bool_eq in E1. apply Qeq_bool_neq in E2. rewrite HS in E1. contradiction.
  - apply Qeq_bool_eq in E2. apply Qeq_bool_neq in E1. rewrite HS in E1. contradiction.
Qed.
Print Assumptions C18_order_irrelevant.

(* ---- C19 ---- *)
Theorem C19_score_range :
  forall fold_eq num_eq parse maxTok st validator max_score wall_limit gs r err tr,
  Grade fold_eq num_eq parse maxTok st validator max_score wall_limit gs = (r, err, tr) ->
  processes_ok gs -> nonneg_weights gs ->
  0 <= rr_score r <= 1 /\ rr_contest r == max_score * rr_score r /\ rr_max r = max_score /\
  forall cr, In cr (case_results r) -> 0 <= cr_score cr <= 1 /\ cr_contest cr == cr_max cr * cr_score cr.
Proof.
  intros f n p m st val M wl gs r err tr HG HP HW.
  destruct (rr_compile_error r || err)%bool eqn:EC.
  - unfold Grade in HG.
    assert (E : exists v ce, r = early v M ce).
    { destruct st as [| | | |bins]; try (injection HG as <- _ _; unfold early; eauto; fail).
      destruct (compile_all bins) as [ev [e|]]; [injection HG as <- _ _; eauto|].
      destruct (run_and_validate _ _ _ _ _ _ _ _ gs) as [r' ev'] eqn:ER. injection HG as <- <- _.
      pose proof (run_and_validate_spec f n p m val M wl (weight_factor gs) gs HP) as S. cbn zeta in S. rewrite ER in S. cbn [fst] in S.
      destruct S as (_ & _ & _ & _ & S). rewrite S in EC. discriminate EC. }
    destruct E as (v & ce & ->). cbn. split; [lra|]. split; [ring|]. split; [auto|]. tauto.
  - apply orb_false_iff in EC. destruct EC as [EC ->].
    apply Grade_ran in HG; auto.
    pose proof (run_and_validate_spec f n p m val M wl (weight_factor gs) gs HP) as S. cbn zeta in S. rewrite <- HG in S.
    destruct S as (S0 & (S1 & S2 & S3) & S4 & S5 & _).
    split; [|split; [auto|split; [auto|]]].
    + destruct (groups_range f n p m val M (weight_factor gs) (factor_pos gs) gs _ S0 HW) as [A B].
      assert (T : total_weight gs * weight_factor gs <= 1).
      { destruct (Qlt_le_dec 0 (total_weight gs)) as [L|L]; [rewrite factor_total; auto; lra|].
        assert (total_weight gs * weight_factor gs <= 0 * weight_factor gs) by (apply Qmult_le_compat_r; [auto|apply Qlt_le_weak, factor_pos]). lra. }
      destruct (veqb (worst (map counts_as (case_verdicts r))) OK) eqn:E.
      * apply veqb_eq in E. rewrite (S2 E). lra.
      * rewrite S3; [lra|]. intros X. rewrite X in E. discriminate E.
    + intros cr Hcr. destruct (result_meta_fine f n p m val M (weight_factor gs) gs _ HP S0 cr Hcr) as (g & c & _ & _ & D & _).
      split; [eapply done_range; eauto|]. destruct D as (_ & D & O). rewrite D. destruct O; rewrite HC, HS; try ring.
Qed.
Print Assumptions C19_score_range.

(* Every case validated with full marks: AC and exactly the maximal score. *)
Theorem C19_full_score :
  forall fold_eq num_eq parse maxTok st validator max_score wall_limit gs r tr,
  Grade fold_eq num_eq parse maxTok st validator max_score wall_limit gs = (r, false, tr) ->
  rr_compile_error r = false -> processes_ok gs ->
  (forall cr, In cr (case_results r) -> cr_score cr == 1) ->
  rr_verdict r = AC /\ rr_score r = 1 /\ rr_contest r == max_score /\
  forall cr, In cr (case_results r) -> cr_verdict cr = AC /\ cr_contest cr == cr_max cr.
Proof.
  intros f n p m st val M wl gs r tr HG HC HP HA. apply Grade_ran in HG; auto.
  pose proof (run_and_validate_spec f n p m val M wl (weight_factor gs) gs HP) as S. cbn zeta in S. rewrite <- HG in S.
  destruct S as (S0 & (S1 & S2 & S3) & S4 & S5 & _).
  assert (HV : forall cr, In cr (case_results r) -> cr_verdict cr = AC).
  { intros cr Hcr. destruct (result_meta_fine f n p m val M (weight_factor gs) gs _ HP S0 cr Hcr) as (g & c & _ & _ & D & V).
    apply (done_AC _ _ _ _ _ _ _ _ _ D V). auto. }
  assert (W : worst (map counts_as (case_verdicts r)) = OK).
  { assert (X : forall v, In v (case_verdicts r) -> v = AC).
    { unfold case_verdicts. intros v Hv. apply in_flat_map in Hv. destruct Hv as (gr & Hg & Hv). apply in_map_iff in Hv.
      destruct Hv as (cr & <- & Hr). apply HV. unfold case_results. apply in_flat_map. eauto. }
    clear - X. induction (case_verdicts r) as [|v l IH]; auto. cbn. rewrite (X v); [|cbn; auto]. rewrite IH; [reflexivity|].
    intros; apply X; cbn; auto. }
  rewrite W in *. cbn in S1. split; auto. split; auto. split; [rewrite S4, (S2 eq_refl); ring|].
  intros cr Hcr. split; auto. specialize (HA cr Hcr).
  destruct (result_meta_fine f n p m val M (weight_factor gs) gs _ HP S0 cr Hcr) as (g & c & _ & _ & (_ & D & O) & _).
  rewrite D. destruct O.
  - rewrite HS in HA; discriminate HA.
  - rewrite HS in HA; discriminate HA.
  - rewrite HC0. rewrite HS in HA. rewrite HA. ring.
Qed.
Print Assumptions C19_full_score.

(* Conversely AC and a full score are only given for full marks on every case. *)
Theorem C19_accepted_iff :
  forall fold_eq num_eq parse maxTok st validator max_score wall_limit gs r tr,
  Grade fold_eq num_eq parse maxTok st validator max_score wall_limit gs = (r, false, tr) ->
  rr_compile_error r = false -> processes_ok gs -> files_open (String.eqb validator "custom") gs ->
  (rr_verdict r = AC <-> forall cr, In cr (case_results r) -> cr_score cr == 1) /\
  (rr_verdict r = AC -> rr_score r = 1) /\
  (pos_weights gs -> (rr_score r == 1 <-> rr_verdict r = AC)).
Proof.
  intros f n p m st val M wl gs r tr HG HC HP HO.
  assert (FULL := C19_full_score _ _ _ _ _ _ _ _ _ _ _ HG HC HP).
  apply Grade_ran in HG; auto.
  pose proof (run_and_validate_spec f n p m val M wl (weight_factor gs) gs HP) as S. cbn zeta in S. rewrite <- HG in S.
  destruct S as (S0 & (S1 & S2 & S3) & S4 & S5 & _).
  assert (NA : rr_verdict r = AC -> worst (map counts_as (case_verdicts r)) = OK).
  { rewrite S1. assert (X := proj1 (worst_is (map counts_as (case_verdicts r)))).
    destruct (worst (map counts_as (case_verdicts r))) eqn:E; cbn [veqb rank Nat.eqb andb]; try discriminate; auto.
    - destruct (Qeq_bool _ 0); discriminate.
    - destruct X as [[_ X]|X]; [discriminate X|]. apply in_map_iff in X. destruct X as (v & X & _). destruct v; discriminate X. }
  assert (FWD : rr_verdict r = AC -> forall cr, In cr (case_results r) -> cr_score cr == 1).
  { intros HA cr Hcr. specialize (NA HA).
    destruct (result_meta_fine f n p m val M (weight_factor gs) gs _ HP S0 cr Hcr) as (g & c & Hg & Hc & D & V).
    apply (done_AC _ _ _ _ _ _ _ _ _ D V).
    assert (CV : counts_as (cr_verdict cr) = OK).
    { assert (I : In (counts_as (cr_verdict cr)) (map counts_as (case_verdicts r))).
      { apply in_map. unfold case_verdicts. unfold case_results in Hcr. apply in_flat_map in Hcr. destruct Hcr as (gr & A & B).
        apply in_flat_map. exists gr. split; auto. apply in_map. auto. }
      apply (proj2 (worst_is _)) in I. rewrite NA in I. apply rank_spec in I. cbn in I. destruct (counts_as (cr_verdict cr)); cbn in I; auto; lia. }
    destruct D as (_ & _ & O). destruct O.
    - rewrite HM in V. rewrite <- HV in V. unfold process_verdict in V. destruct (cr_verdict cr); cbn in *; try discriminate; try congruence; tauto.
    - exfalso. eapply files_open_cscore; eauto.
    - rewrite HV in CV |- *. destruct (Qeq_bool q 1); auto. destruct (Qeq_bool q 0); discriminate. }
  split; [split; [exact FWD|intros H; apply FULL; auto]|]. split; [intros H; apply S2; auto|].
  intros HW. split; [|intros H; rewrite (S2 (NA H)); reflexivity].
  intros H1. apply (fun X => proj1 (FULL X)). intros cr Hcr. 
  destruct (Qeq_dec (cr_score cr) 1) as [E|E]; auto. exfalso.
  assert (T : total (map gr_score (rr_groups r)) < total_weight gs * weight_factor gs).
  { apply (groups_strict f n p m val M (weight_factor gs) (factor_pos gs) gs _ S0 HW). apply Exists_exists. exists cr. auto. }
  assert (W : worst (map counts_as (case_verdicts r)) <> OK).
  { intros W. apply E. apply FWD; auto. rewrite S1, W. reflexivity. }
  rewrite (S3 W) in H1.
  assert (T2 : total_weight gs * weight_factor gs <= 1).
  { destruct (Qlt_le_dec 0 (total_weight gs)) as [L|L]; [rewrite factor_total; auto; lra|].
    assert (total_weight gs * weight_factor gs <= 0 * weight_factor gs) by (apply Qmult_le_compat_r; [auto|apply Qlt_le_weak, factor_pos]). lra. }
  lra.
Qed.
Print Assumptions C19_accepted_iff.

(* ---- C20 ---- *)
(* A group's score is the weighted sum of its cases' scores when all of these are
   positive and 0 otherwise; the run's score is the sum of the groups' scores. *)
Definition group_pays (gs : list group_data) (max_score : Q) (g : group_data) (gr : group_result) : Prop :=
  gr_name gr = gname g /\ map cr_name (gr_cases gr) = map cname (gcases g) /\
  ((forall cr, In cr (gr_cases gr) -> 0 < cr_score cr) ->
     gr_score gr == total (map (fun p => cweight (fst p) * cr_score (snd p)) (combine (gcases g) (gr_cases gr))) / total_weight gs) /\
  ((exists cr, In cr (gr_cases gr) /\ ~ 0 < cr_score cr) -> gr_score gr == 0) /\
  gr_contest gr == max_score * gr_score gr.

Theorem C20_groups_all_or_nothing :
  forall fold_eq num_eq parse maxTok st validator max_score wall_limit gs r tr,
  Grade fold_eq num_eq parse maxTok st validator max_score wall_limit gs = (r, false, tr) ->
  rr_compile_error r = false -> processes_ok gs -> files_open (String.eqb validator "custom") gs ->
  0 < total_weight gs ->
  Forall2 (group_pays gs max_score) gs (rr_groups r) /\
  rr_score r == total (map gr_score (rr_groups r)) /\ rr_contest r == total (map gr_contest (rr_groups r)).
Proof.
  intros f n p m st val M wl gs r tr HG HC HP HO HT.
  assert (AI := C19_accepted_iff _ _ _ _ _ _ _ _ _ _ _ HG HC HP HO).
  apply Grade_ran in HG; auto.
  pose proof (run_and_validate_spec f n p m val M wl (weight_factor gs) gs HP) as S. cbn zeta in S. rewrite <- HG in S.
  destruct S as (S0 & (S1 & S2 & S3) & S4 & S5 & _).
  assert (WF : weight_factor gs == 1 / total_weight gs).
  { apply (Qmult_inj_l _ _ (total_weight gs)); [lra|]. rewrite factor_total by auto. field. lra. }
  split; [|assert (SS : rr_score r == total (map gr_score (rr_groups r)));
           [|split; [exact SS|]]].
  - eapply Forall2_nth_or; [exact S0|]. intros g gr Hg (D1 & D2 & D3 & D4 & D5).
    assert (FI : forall cr, In cr (gr_cases gr) -> (case_fine cr = true <-> 0 < cr_score cr)).
    { intros cr Hcr. destruct (Forall2_in_r _ _ _ _ D2 Hcr) as (c & Hc & Dc).
      apply (done_fine _ _ _ _ _ _ _ _ _ Dc).
      - destruct (done_meta _ _ _ _ _ _ _ _ _ Dc) as (ex & ->). apply process_run_case. apply (HP g); auto.
      - eapply files_open_cscore; eauto. }
    split; auto. split.
    { clear - D2. induction D2 as [|c r cs rs (H & _) _ IH]; cbn; congruence. }
    split; [|split; auto].
    + intros HA. assert (E : forallb case_fine (gr_cases gr) = true).
      { apply forallb_forall. intros cr Hcr. apply FI; auto. }
      rewrite E in D4. rewrite D4. rewrite (total_ext eq
        (fun cr : case_data * case_result => cr_score (snd cr) * (cweight (fst cr) * weight_factor gs))
        (fun cr => cweight (fst cr) * cr_score (snd cr) * weight_factor gs) _ (combine (gcases g) (gr_cases gr))).
      * rewrite total_scale, WF. field. lra.
      * clear. induction (combine (gcases g) (gr_cases gr)); auto.
      * intros a b ->. ring.
    + intros (cr & Hcr & HN). destruct (forallb case_fine (gr_cases gr)) eqn:E; [|rewrite D4; reflexivity].
      exfalso. apply HN. apply FI; auto. rewrite forallb_forall in E. auto.
  - destruct (veqb (worst (map counts_as (case_verdicts r))) OK) eqn:E.
    + apply veqb_eq in E. rewrite (S2 E). rewrite (groups_full f n p m val M (weight_factor gs) gs _ S0).
      { rewrite factor_total; auto. reflexivity. }
      apply Forall_forall. apply AI. rewrite S1, E. reflexivity.
    + apply S3. intros X. rewrite X in E. discriminate E.
  - rewrite S4, SS. rewrite <- total_scale_l. clear - S0. induction S0 as [|g gr gs0 grs (_ & _ & _ & _ & D) _ IH]; cbn; [reflexivity|].
    rewrite D, IH. reflexivity.
Qed.
Print Assumptions C20_groups_all_or_nothing.

(* Better case scores never lower the score of the run. *)
Theorem C20_monotone :
  forall fold_eq num_eq parse maxTok st st' validator max_score wall_limit wall_limit' gs gs' r r' tr tr',
  Grade fold_eq num_eq parse maxTok st validator max_score wall_limit gs = (r, false, tr) ->
  Grade fold_eq num_eq parse maxTok st' validator max_score wall_limit' gs' = (r', false, tr') ->
  rr_compile_error r = false -> rr_compile_error r' = false -> processes_ok gs -> processes_ok gs' ->
  files_open (String.eqb validator "custom") gs -> files_open (String.eqb validator "custom") gs' ->
  map (fun g => map cweight (gcases g)) gs = map (fun g => map cweight (gcases g)) gs' ->
  nonneg_weights gs -> 0 < total_weight gs ->
  Forall2 (fun gr gr' => Forall2 (fun cr cr' => cr_score cr <= cr_score cr') (gr_cases gr) (gr_cases gr')) (rr_groups r) (rr_groups r') ->
  rr_score r <= rr_score r'.
Proof.
  intros f n p m st st' val M wl wl' gs gs' r r' tr tr' H1 H2 C1 C2 P1 P2 F1 F2 EW HW HT HL.
  assert (TW : total_weight gs = total_weight gs').
  { unfold total_weight. rewrite <- (map_map (fun g => map cweight (gcases g)) total gs), EW, map_map. reflexivity. }
  destruct (C20_groups_all_or_nothing _ _ _ _ _ _ _ _ _ _ _ H1 C1 P1 F1 HT) as (G1 & -> & _).
  assert (HT' : 0 < total_weight gs') by (rewrite <- TW; auto).
  destruct (C20_groups_all_or_nothing _ _ _ _ _ _ _ _ _ _ _ H2 C2 P2 F2 HT') as (G2 & -> & _).
  assert (WF : weight_factor gs = weight_factor gs').
  { unfold weight_factor. replace (all_weights gs') with (all_weights gs); auto. unfold all_weights.
    rewrite !flat_map_concat_map, EW. reflexivity. }
  apply Grade_ran in H1, H2; auto.
  pose proof (run_and_validate_spec f n p m val M wl (weight_factor gs) gs P1) as S. cbn zeta in S. rewrite <- H1 in S.
  pose proof (run_and_validate_spec f n p m val M wl' (weight_factor gs') gs' P2) as S'. cbn zeta in S'. rewrite <- H2 in S'.
  rewrite <- WF in S'. destruct S as (S & _), S' as (S' & _).
  assert (FO1 := files_open_cscore f n p m val gs F1). assert (FO2 := files_open_cscore f n p m val gs' F2).
  assert (FP := factor_pos gs). clear - S S' HL EW HW P1 P2 FO1 FO2 FP. set (k := weight_factor gs) in *. clearbody k.
  revert gs gs' S S' EW HW P1 P2 FO1 FO2. induction HL as [|gr gr' grs grs' H1 H2 IH]; intros gs gs' S S' EW HW P1 P2 FO1 FO2;
    inversion S as [|g ? gs0 ? X1 X2]; inversion S' as [|g' ? gs0' ? Y1 Y2]; subst; cbn; [lra|].
  cbn in EW. injection EW as E1 E2.
  assert (A : gr_score gr <= gr_score gr').
  { apply (group_monotone f n p m val M k FP g gr g' gr'); auto; [intros c Hc; apply (HW g c); cbn; auto|].
    destruct X1 as (_ & X1 & _), Y1 as (_ & Y1 & _).
    assert (FX : forall cr, In cr (gr_cases gr) -> (case_fine cr = true <-> 0 < cr_score cr)).
    { intros cr Hcr. destruct (Forall2_in_r _ _ _ _ X1 Hcr) as (c & Hc & Dc). apply (done_fine _ _ _ _ _ _ _ _ _ Dc).
      - destruct (done_meta _ _ _ _ _ _ _ _ _ Dc) as (ex & ->). apply process_run_case. apply (P1 g); cbn; auto.
      - apply (FO1 g c); cbn; auto. }
    assert (FY : forall cr, In cr (gr_cases gr') -> (case_fine cr = true <-> 0 < cr_score cr)).
    { intros cr Hcr. destruct (Forall2_in_r _ _ _ _ Y1 Hcr) as (c & Hc & Dc). apply (done_fine _ _ _ _ _ _ _ _ _ Dc).
      - destruct (done_meta _ _ _ _ _ _ _ _ _ Dc) as (ex & ->). apply process_run_case. apply (P2 g'); cbn; auto.
      - apply (FO2 g' c); cbn; auto. }
    clear - H1 FX FY. induction H1 as [|a b l l' L H1 IH]; constructor.
    - split; auto. rewrite FX, FY by (cbn; auto). lra.
    - apply IH; intros; [apply FX|apply FY]; cbn; auto. }
  assert (B : total (map gr_score grs) <= total (map gr_score grs')).
  { apply (IH gs0 gs0' X2 Y2 E2).
    - intros g1 c1 U V. apply (HW g1 c1); cbn; auto.
    - intros g1 c1 U V. apply (P1 g1 c1); cbn; auto.
    - intros g1 c1 U V. apply (P2 g1 c1); cbn; auto.
    - intros g1 c1 U V. apply (FO1 g1 c1); cbn; auto.
    - intros g1 c1 U V. apply (FO2 g1 c1); cbn; auto. }
  lra.
Qed.
Print Assumptions C20_monotone.

(* ---- C21 ---- *)
Theorem C21_maxima_add_up :
  forall fold_eq num_eq parse maxTok st validator max_score wall_limit gs r tr,
  Grade fold_eq num_eq parse maxTok st validator max_score wall_limit gs = (r, false, tr) ->
  rr_compile_error r = false -> processes_ok gs -> 0 < total_weight gs ->
  total (map gr_max (rr_groups r)) == rr_max r /\ rr_max r = max_score /\
  (forall gr, In gr (rr_groups r) -> total (map cr_max (gr_cases gr)) == gr_max gr) /\
  Forall2 (fun g gr => gr_max gr * total_weight gs == max_score * total (map cweight (gcases g))) gs (rr_groups r).
Proof.
  intros f n p m st val M wl gs r tr HG HC HP HT. apply Grade_ran in HG; auto.
  pose proof (run_and_validate_spec f n p m val M wl (weight_factor gs) gs HP) as S. cbn zeta in S. rewrite <- HG in S.
  destruct S as (S0 & _ & _ & S5 & _). assert (FT := factor_total gs HT). set (k := weight_factor gs) in *. clearbody k.
  assert (GM : Forall2 (fun g gr => gr_max gr == M * k * total (map cweight (gcases g))) gs (rr_groups r)).
  { eapply Forall2_nth_or; [exact S0|]. intros g gr _ (_ & _ & -> & _). unfold group_weight. rewrite sumQ_total. ring. }
  split; [|split; [auto|split]].
  - rewrite S5. transitivity (M * (total_weight gs * k)); [|rewrite FT; ring]. unfold total_weight.
    clear - GM. induction GM as [|g gr gs0 grs H _ IH]; cbn; [ring|]. rewrite H, IH. ring.
  - intros gr Hgr. destruct (Forall2_in_r _ _ _ _ S0 Hgr) as (g & _ & _ & D & -> & _).
    unfold group_weight. rewrite sumQ_total. clear - D. induction D as [|c cr cs crs (_ & H & _) _ IH]; cbn; [ring|]. rewrite H, IH. ring.
  - eapply Forall2_nth_or; [exact GM|]. cbn. intros g gr _ ->. rewrite <- (Qmult_1_r (M * total (map cweight (gcases g)))), <- FT. ring.
Qed.
Print Assumptions C21_maxima_add_up.

(* ---- C22 ---- *)
(* Verdict and wall time of an interactive case do not depend on the order in
   which its processes finish (there is at most one problemsetter process, the
   parent); nor does the table of individual results. *)
Theorem C22_order_irrelevant :
  forall arrivals arrivals' : list arrival,
  Permutation arrivals arrivals' ->
  (forall a b l1 l2 l3, arrivals = l1 ++ a :: l2 ++ b :: l3 -> ~ (atype a = Problemsetter /\ atype b = Problemsetter)) ->
  mverdict (aggregate arrivals) = mverdict (aggregate arrivals') /\
  mwall (aggregate arrivals) = mwall (aggregate arrivals') /\
  Permutation (individual arrivals) (individual arrivals').
Proof.
  intros l l' HP H1. assert (L : (length (parents l) <= 1)%nat).
  { clear - H1. induction l as [|a l IH]; [cbn; lia|].
    assert (I : (length (parents l) <= 1)%nat).
    { apply IH. intros x y l1 l2 l3 ->. apply (H1 x y (a :: l1) l2 l3). reflexivity. }
    unfold parents in *. cbn [filter]. destruct (negb (child a)) eqn:E; auto. cbn.
    destruct (filter (fun a0 => negb (child a0)) l) as [|b t] eqn:EF; [cbn; lia|]. exfalso.
    assert (Hb : In b (filter (fun a0 => negb (child a0)) l)) by (rewrite EF; cbn; auto).
    apply filter_In in Hb. destruct Hb as [Hb Eb]. apply in_split in Hb. destruct Hb as (l2 & l3 & ->).
    apply (H1 a b [] l2 l3 eq_refl). unfold child in *. destruct (atype a), (atype b); try discriminate; auto. }
  destruct (aggregate_perm l l' HP L) as [A B]. split; auto. split; auto. apply individual_perm; auto.
Qed.
Print Assumptions C22_order_irrelevant.

(* A case with a single process (the common case) is reported as that process
   ended. *)
Lemma Bcompare_refl_fin s m e h : Bcompare (B754_finite s m e h : float64) (B754_finite s m e h) = Some Eq.
Proof. rewrite Bcompare_correct by reflexivity. rewrite Rcompare_Eq by reflexivity. reflexivity. Qed.
Theorem C22_single_process :
  forall a, atype a = Contestant -> (0 <= mmem (ameta a))%Z ->
  let m := aggregate [a] in
  mverdict m = mverdict (ameta a) /\ mmem m = mmem (ameta a) /\
  (mverdict (ameta a) <> OK -> mexit m = mexit (ameta a) /\ msignal m = msignal (ameta a)) /\
  (is_nan (mtime (ameta a)) = false -> Bcompare (mtime m) (mtime (ameta a)) = Some Eq) /\
  (is_nan (mwall (ameta a)) = false -> Bltb fzero (mwall (ameta a)) = true -> mwall m = mwall (ameta a)) /\
  individual [a] = [].
Proof.
  intros [nm [v ex t w me sg] ty]. cbn [ameta atype mverdict mexit mtime mwall mmem msignal]. intros -> HM. unfold aggregate. cbn [fold_left agg_step atype].
  cbn [agg0 gparent gchosen gverdict gtime gwall gmem ameta mverdict mtime mwall mmem mexit msignal].
  split; [rewrite worse_OK_l; reflexivity|]. split; [cbn; lia|].
  split; [destruct v; cbn; auto; congruence|]. split; [|split; [|reflexivity]].
  - intros HN. unfold fadd. destruct t as [[]|[]| |s m e h]; try discriminate; try reflexivity.
    unfold Bplus, fzero. apply Bcompare_refl_fin.
  - intros HN HP. destruct (fmaxx_spec fzero w) as [[E K]|[E K]]; [|exact E].
    exfalso. destruct w as [[]|[]| |[] m e h]; try discriminate HP; try discriminate HN; try discriminate E.
Qed.
Print Assumptions C22_single_process.

(* The resources of a case: the times of the contestant's processes are added up
   (in the order they ended), the wall time is the longest one, and no process
   took more memory than is reported. *)
Theorem C22_resources :
  forall l, Forall (fun a => is_finite (mwall (ameta a)) = true /\ (0 <= mmem (ameta a))%Z) l ->
  let contestants := filter (fun a => match atype a with Problemsetter => false | _ => true end) l in
  mtime (aggregate l) = fold_left (fun t a => Bplus mode_NE t (mtime (ameta a))) contestants (B754_zero false) /\
  (forall a, In a contestants -> Rdefinitions.Rle (B2R (mwall (ameta a))) (B2R (mwall (aggregate l)))) /\ Rdefinitions.Rle Rdefinitions.R0 (B2R (mwall (aggregate l))) /\
  (mwall (aggregate l) = B754_zero false \/ exists a, In a contestants /\ mwall (aggregate l) = mwall (ameta a)) /\
  (forall a, In a contestants -> (mmem (ameta a) <= mmem (aggregate l))%Z).
Proof.
  intros l HF. destruct (agg_resources l agg0 HF eq_refl (Z.le_refl 0)) as (A1 & A2 & A3 & A4 & A5 & _). repeat split; auto.
Qed.
Print Assumptions C22_resources.

(* False of the code: memory, total time and the reported exit status do depend
   on the order; memory can exceed the sum of all processes' memory
   (runner/runner.go:1001 adds the maximum to the running total). *)
Definition proc (name : string) (m : meta) : arrival := mkA name m Contestant.
Definition f_of (m : positive) (e : Z) (h : SpecFloat.bounded prec emax m e = true) : float64 := B754_finite false m e h.
Theorem C22_memory_refuted :
  exists l l', Permutation l l' /\ mmem (aggregate l) <> mmem (aggregate l') /\
  (fold_right Z.add 0 (map (fun a => mmem (ameta a)) l) < mmem (aggregate l))%Z.
Proof.
  exists [proc "b" (mkM OK 0 fzero fzero 2 None); proc "a" (mkM OK 0 fzero fzero 1 None)],
         [proc "a" (mkM OK 0 fzero fzero 1 None); proc "b" (mkM OK 0 fzero fzero 2 None)].
  split; [apply perm_swap|]. split; [vm_compute; discriminate|vm_compute; reflexivity].
Qed.
Print Assumptions C22_memory_refuted.

Theorem C22_time_refuted :
  exists l l', Permutation l l' /\ Forall (fun a => is_finite (mtime (ameta a)) = true) l /\
  Bltb (mtime (aggregate l)) (mtime (aggregate l')) = true.
Proof.
  (* 1 + 2^-53 + 2^-53 against 2^-53 + 2^-53 + 1 *)
  pose (one := f_of 4503599627370496 (-52) eq_refl). pose (eps := f_of 4503599627370496 (-105) eq_refl).
  exists [proc "a" (mkM OK 0 one fzero 0 None); proc "b" (mkM OK 0 eps fzero 0 None); proc "c" (mkM OK 0 eps fzero 0 None)],
         [proc "b" (mkM OK 0 eps fzero 0 None); proc "c" (mkM OK 0 eps fzero 0 None); proc "a" (mkM OK 0 one fzero 0 None)].
  split; [|split; [repeat constructor|vm_compute; reflexivity]].
  eapply perm_trans; [apply perm_swap|]. apply perm_skip. apply perm_swap.
Qed.
Print Assumptions C22_time_refuted.

Theorem C22_exit_status_refuted :
  exists l l', Permutation l l' /\ mverdict (aggregate l) = RTE /\ mexit (aggregate l) <> mexit (aggregate l') /\
  (* and the exit status reported need not belong to a process with the reported verdict *)
  mexit (aggregate l') = 0%Z.
Proof.
  exists [proc "a" (mkM RTE 3 fzero fzero 0 None); proc "b" (mkM TLE 0 fzero fzero 0 None)],
         [proc "b" (mkM TLE 0 fzero fzero 0 None); proc "a" (mkM RTE 3 fzero fzero 0 None)].
  split; [apply perm_swap|]. split; [reflexivity|]. split; [vm_compute; discriminate|reflexivity].
Qed.
Print Assumptions C22_exit_status_refuted.

(* ---- C23 ---- *)
Definition compiles (b : binary) : Prop := b_meta b = Some OK /\ b_err b = false.
Lemma compile_all_ok bs bs' : Forall compiles bs -> compile_all (bs ++ bs') =
  (map (fun b => Compiled (b_name b)) bs ++ fst (compile_all bs'), snd (compile_all bs')).
Proof.
  induction 1 as [|b bs [H1 H2] H IH]; cbn [app compile_all]; [destruct (compile_all bs'); auto|].
  rewrite H1, H2. cbn [orb negb]. rewrite IH. reflexivity.
Qed.
Lemma compile_all_bad b bs : ~ compiles b -> compile_all (b :: bs) = ([Compiled (b_name b)], Some (b_err b)).
Proof.
  intros H. cbn [compile_all]. destruct (b_err b) eqn:E; auto. destruct (b_meta b) as [[]|] eqn:EM; auto.
  exfalso. apply H. split; auto.
Qed.
(* The first binary that fails to compile ends the run: CE, no points, no group
   results, no later compilation, nothing executed; the compiler's error is
   passed on. *)
Theorem C23_compile_error :
  forall fold_eq num_eq parse maxTok bs b bs' validator max_score wall_limit gs,
  Forall compiles bs -> ~ compiles b ->
  exists r, Grade fold_eq num_eq parse maxTok (SReady (bs ++ b :: bs')) validator max_score wall_limit gs =
    (r, b_err b, map (fun x => Compiled (b_name x)) (bs ++ [b])) /\
  rr_verdict r = CE /\ rr_score r = 0 /\ rr_contest r = 0 /\ rr_max r = max_score /\ rr_groups r = [] /\ rr_compile_error r = true.
Proof.
  intros f n p m bs b bs' val M wl gs H1 H2. exists (early CE M true). unfold Grade.
  rewrite compile_all_ok, (compile_all_bad b bs' H2) by auto. cbn [fst snd]. rewrite map_app.
  split; [reflexivity|]. cbn. tauto.
Qed.
Print Assumptions C23_compile_error.

(* A compile error is reported only for this reason or because the submission
   itself is unusable, and nothing was executed. *)
Theorem C23_only_then :
  forall fold_eq num_eq parse maxTok st validator max_score wall_limit gs r err tr,
  Grade fold_eq num_eq parse maxTok st validator max_score wall_limit gs = (r, err, tr) -> processes_ok gs ->
  (rr_compile_error r = true \/ rr_groups r = [] /\ gs <> [] ->
   rr_score r = 0 /\ rr_groups r = [] /\ forall c, ~ In (Executed c) tr) /\
  (rr_compile_error r = true -> rr_verdict r = CE /\
   (st = SUnsupportedLanguage \/ st = SBadOutputOnly \/ exists bs, st = SReady bs /\ Exists (fun b => ~ compiles b) bs)).
Proof.
  intros f n p m st val M wl gs r err tr HG HP. unfold Grade in HG.
  assert (CE : forall bs ev e, compile_all bs = (ev, Some e) -> Exists (fun b => ~ compiles b) bs /\ forall c, ~ In (Executed c) ev).
  { clear. induction bs as [|b bs IH]; intros ev e H; [discriminate H|]. cbn in H.
    destruct (b_err b || negb match b_meta b with Some OK => true | _ => false end)%bool eqn:E.
    - injection H as <- _. split; [|cbn; intuition discriminate]. left. intros [A B]. rewrite A, B in E. discriminate E.
    - destruct (compile_all bs) as [ev0 r0]. injection H as <- ->. destruct (IH ev0 e eq_refl) as [A B].
      split; [right; auto|]. intros c [X|X]; [discriminate X|]. eapply B; eauto. }
  destruct st as [| | | |bins].
  1-4: injection HG as <- _ <-; cbn; split; [auto|]; (discriminate || intros _; split; auto).
  destruct (compile_all bins) as [ev [e|]] eqn:EC.
  - injection HG as <- _ <-. destruct (CE _ _ _ EC) as [A B]. cbn. split; [auto|]. intros _. split; auto. right. right. eauto.
  - destruct (run_and_validate f n p m val M wl (weight_factor gs) gs) as [r' ev'] eqn:ER. injection HG as <- _ <-.
    pose proof (run_and_validate_spec f n p m val M wl (weight_factor gs) gs HP) as S. cbn zeta in S. rewrite ER in S. cbn [fst] in S.
    destruct S as (S0 & _ & _ & _ & S). split; [|congruence]. intros [X|[X Y]]; [congruence|].
    rewrite X in S0. inversion S0; subst. congruence.
Qed.
Print Assumptions C23_only_then.

(* ---- C24 ---- *)
Lemma Forall2_length {A B} (R : A -> B -> Prop) l l' : Forall2 R l l' -> length l = length l'.
Proof. induction 1; cbn; congruence. Qed.
(* The wall time used by the cases of a result, in order. *)
Definition wall_used (l : list case_result) : float64 := fold_left (fun w cr => fadd w (mwall (cr_meta cr))) l fzero.
(* The case is run by processes of its own (not an output-only submission). *)
Definition has_processes (c : case_data) : bool := match crun c with Procs _ => true | Cat _ => false end.
Definition all_cases (gs : list group_data) : list case_data := flat_map gcases gs.

Section C24.
Variable max_score : Q.
Variable wall_limit : float64.
Variable factor : Q.
Notation rone := (run_one max_score wall_limit factor).
Notation rcases := (run_cases max_score wall_limit factor).
Notation rgroups := (run_groups max_score wall_limit factor).
(* the executions the trace must hold *)
Fixpoint runs_of (w : float64) (cs : list case_data) (ms : list meta) : list event :=
  match cs, ms with
  | c :: cs', m :: ms' => (if (negb (Bltb wall_limit w) && has_processes c)%bool then [Executed (cname c)] else []) ++ runs_of (fadd w (mwall m)) cs' ms'
  | _, _ => []
  end.
Fixpoint metas_ok (w : float64) (cs : list case_data) (ms : list meta) : Prop :=
  match cs, ms with
  | c :: cs', m :: ms' => m = fst (run_case (Bltb wall_limit w) c) /\ metas_ok (fadd w (mwall m)) cs' ms'
  | [], [] => True
  | _, _ => False
  end.
Lemma run_cases_flat gs : forall s, run_cases max_score wall_limit factor s (all_cases gs) = (fst (rgroups s gs), concat (snd (rgroups s gs))).
Proof.
  assert (A : forall cs cs' s, rcases s (cs ++ cs') =
    (fst (rcases (fst (rcases s cs)) cs'), snd (rcases s cs) ++ snd (rcases (fst (rcases s cs)) cs'))).
  { induction cs as [|c cs IH]; intros cs' s; cbn [app run_cases fst snd].
    - destruct (rcases s cs'); reflexivity.
    - destruct (rone s c) as [s1 r]. rewrite IH. destruct (rcases s1 cs) as [s2 rs]. cbn [fst snd].
      destruct (rcases s2 cs'); reflexivity. }
  induction gs as [|g gs IH]; intros s; [reflexivity|]. unfold all_cases in *. cbn [flat_map run_groups].
  rewrite A. destruct (rcases s (gcases g)) as [s1 r] eqn:E. cbn [fst snd]. rewrite IH.
  destruct (rgroups s1 gs) as [s2 rs]. reflexivity.
Qed.
Lemma run_cases_wall cs : forall s,
  let '(s', rs) := rcases s cs in
  metas_ok (s_wall s) cs (map cr_meta rs) /\ s_trace s' = s_trace s ++ runs_of (s_wall s) cs (map cr_meta rs) /\
  s_wall s' = fold_left fadd (map (fun r => mwall (cr_meta r)) rs) (s_wall s).
Proof.
  induction cs as [|c cs IH]; intros s; cbn [run_cases].
  - cbn. rewrite app_nil_r. auto.
  - unfold run_one. destruct (run_case (exceeds wall_limit s) c) as [m ev] eqn:E.
    match goal with |- context [rcases ?s0 cs] => specialize (IH s0); destruct (rcases s0 cs) as [s2 rs] end.
    cbn [s_wall s_trace] in IH. destruct IH as (I1 & I2 & I3). cbn [map cr_meta metas_ok runs_of fold_left].
    unfold exceeds in E. split; [split; [rewrite E; reflexivity|exact I1]|]. split; [|exact I3].
    rewrite I2, <- app_assoc. f_equal. f_equal. unfold run_case in E. unfold has_processes.
    destruct (Bltb wall_limit (s_wall s)); cbn [negb andb]; [injection E as _ <-; reflexivity|].
    destruct (crun c) as [[]|]; injection E as _ <-; reflexivity.
Qed.
End C24.

Lemma validate_metas f n p m val M k gs : forall v t rss,
  Forall2 (fun g rs => length (gcases g) = length rs) gs rss ->
  let '(grs, _, _) := validate_groups f n p m val M k v t gs rss in
  map cr_meta (flat_map gr_cases grs) = map cr_meta (concat rss).
Proof.
  assert (C : forall cs rs v sc ok, length cs = length rs ->
    let '(rs', _, _, _) := validate_cases f n p m val M k v sc ok cs rs in map cr_meta rs' = map cr_meta rs).
  { induction cs as [|c cs IH]; intros [|r rs] v sc ok H; try discriminate H; [reflexivity|]. cbn [validate_cases].
    destruct (validate_one f n p m val M k v sc ok c r) as [[[r' v'] sc'] ok'] eqn:E.
    specialize (IH rs v' sc' ok' ltac:(cbn in H; lia)). destruct (validate_cases _ _ _ _ _ _ _ v' sc' ok' cs rs) as [[[rs'' ?] ?] ?].
    cbn. rewrite IH. f_equal. unfold validate_one in E. destruct (veqb (cr_verdict r) OK); [|injection E as <- _ _ _; auto].
    destruct (case_score _ _ _ _ _ c); injection E as <- _ _ _; reflexivity. }
  induction gs as [|g gs IH]; intros v t rss H; inversion H as [|? rs ? rss0 H1 H2]; subst; [reflexivity|]. cbn [validate_groups].
  specialize (C (gcases g) rs v 0 true H1). destruct (validate_cases _ _ _ _ _ _ _ v 0 true (gcases g) rs) as [[[rs' v'] sc] ok].
  match goal with |- context [validate_groups f n p m val M k v' ?t1 gs rss0] => specialize (IH v' t1 rss0 H2); destruct (validate_groups f n p m val M k v' t1 gs rss0) as [[grs ?] ?] end.
  cbn [flat_map concat]. rewrite !map_app, <- IH, <- C. f_equal. destruct ok; reflexivity.
Qed.

Lemma fadd_zero_cmp l w : Bltb l (fadd w fzero) = Bltb l w.
Proof.
  unfold fadd, fzero. destruct w as [s|s| |s m e h]; try reflexivity.
  destruct l as [s'|s'| |s' m' e' h'], s; try destruct s'; reflexivity.
Qed.

(* Case number i is run exactly when the wall time used by the cases before it is
   within the limit; otherwise it is reported TLE, without score, and nothing is
   executed for it.  Once exceeded, the limit stays exceeded. *)
Theorem C24_wall_time_limit :
  forall fold_eq num_eq parse maxTok st validator max_score wall_limit gs r tr,
  Grade fold_eq num_eq parse maxTok st validator max_score wall_limit gs = (r, false, tr) ->
  rr_compile_error r = false -> processes_ok gs ->
  length (case_results r) = length (all_cases gs) /\
  (forall pre cr post cpre c cpost,
   case_results r = pre ++ cr :: post -> all_cases gs = cpre ++ c :: cpost -> length pre = length cpre ->
   (Bltb wall_limit (wall_used pre) = true ->
      cr_verdict cr = TLE /\ cr_score cr = 0 /\ cr_meta cr = vmeta TLE /\ Forall (fun cr' => cr_verdict cr' = TLE) post) /\
   (Bltb wall_limit (wall_used pre) = false -> cr_meta cr = fst (run_case false c))) /\
  (exists bins, st = SReady bins /\
   tr = map (fun b => Compiled (b_name b)) bins ++ runs_of wall_limit fzero (all_cases gs) (map cr_meta (case_results r))) /\
  rr_wall r = wall_used (case_results r).
Proof.
  intros f n p m st val M wl gs r tr HG HC HP. pose proof HG as HG0. apply Grade_ran in HG; auto.
  pose proof (run_and_validate_spec f n p m val M wl (weight_factor gs) gs HP) as S. cbn zeta in S. rewrite <- HG in S. destruct S as (S0 & _).
  assert (FL : Forall2 (done f n p m val M (weight_factor gs)) (all_cases gs) (case_results r)).
  { unfold all_cases, case_results. clear - S0. revert S0. generalize (weight_factor gs) (rr_groups r). intros k grs S0. induction S0 as [|g gr gs grs (_ & D & _) _ IH]; cbn; auto. apply Forall2_app; auto. }
  assert (RM : metas_ok wl fzero (all_cases gs) (map cr_meta (case_results r)) /\
     snd (run_and_validate f n p m val M wl (weight_factor gs) gs) = runs_of wl fzero (all_cases gs) (map cr_meta (case_results r)) /\
     rr_wall r = wall_used (case_results r)).
  { clear HG0 FL. unfold run_and_validate in *.
    pose proof (run_cases_flat M wl (weight_factor gs) gs (mkRS OK fzero fzero 0 [])) as RF.
    pose proof (run_cases_wall M wl (weight_factor gs) (all_cases gs) (mkRS OK fzero fzero 0 [])) as RW. rewrite RF in RW.
    destruct (run_groups_ran M wl (weight_factor gs) gs (mkRS OK fzero fzero 0 [])) as [RR _].
    destruct (run_groups M wl (weight_factor gs) (mkRS OK fzero fzero 0 []) gs) as [s rss]. cbn [fst snd s_wall s_trace app] in *.
    destruct RW as (R1 & R2 & R3).
    assert (LN : Forall2 (fun g rs => length (gcases g) = length rs) gs rss).
    { clear - RR. revert RR. generalize (weight_factor gs). intros k RR. induction RR as [|g rs gs rss H _ IH]; constructor; auto. eapply Forall2_length; eauto. }
    pose proof (validate_metas f n p m val M (weight_factor gs) gs (s_verdict s) 0 rss LN) as VM.
    destruct (validate_groups f n p m val M (weight_factor gs) (s_verdict s) 0 gs rss) as [[grs v] sc].
    assert (EM : map cr_meta (case_results r) = map cr_meta (concat rss)).
    { rewrite HG. destruct (veqb v PA && Qeq_bool sc 0)%bool; [exact VM|]. destruct (veqb v OK); exact VM. }
    assert (EW : rr_wall r = s_wall s).
    { rewrite HG. destruct (veqb v PA && Qeq_bool sc 0)%bool; [reflexivity|]. destruct (veqb v OK); reflexivity. }
    rewrite EM. split; auto. split; [rewrite <- R2; destruct (veqb v PA && Qeq_bool sc 0)%bool; [reflexivity|]; destruct (veqb v OK); reflexivity|].
    rewrite EW, R3. unfold wall_used.
    assert (FF : forall l w, fold_left (fun w cr => fadd w (mwall (cr_meta cr))) l w = fold_left fadd (map mwall (map cr_meta l)) w).
    { induction l as [|x l IH]; intros w; cbn; auto. }
    rewrite FF, EM, map_map. reflexivity. }
  destruct RM as (RM & RT & RW).
  split; [symmetry; eapply Forall2_length; exact FL|]. split; [|split; [|exact RW]].
  - intros pre cr post cpre c cpost E1 E2 HL. rewrite E1, E2 in RM, FL.
    assert (MM : metas_ok wl (wall_used pre) (c :: cpost) (cr_meta cr :: map cr_meta post) /\
                 Forall2 (done f n p m val M (weight_factor gs)) (c :: cpost) (cr :: post)).
    { unfold wall_used. clear - RM FL HL. revert cpre HL FL RM. generalize fzero. induction pre as [|x pre IH]; intros w [|y cpre] HL FL RM; try discriminate HL.
      - split; auto.
      - cbn in *. inversion FL; subst. apply IH with (cpre := cpre); auto. apply RM. }
    destruct MM as (MM & DD). clear RM FL. cbn [metas_ok] in MM. destruct MM as [M1 M2]. inversion DD as [|? ? ? ? D1 D2]; subst.
    split; intros HB; rewrite HB in M1; [|exact M1].
    assert (VT : forall c0 r0, done f n p m val M (weight_factor gs) c0 r0 -> cr_meta r0 = vmeta TLE -> cr_verdict r0 = TLE /\ cr_score r0 = 0).
    { clear. intros c0 r0 (_ & _ & O) E. destruct O.
      - rewrite <- HM, E in HV. auto.
      - rewrite <- HM, E in HO. discriminate HO.
      - rewrite <- HM, E in HO. discriminate HO. }
    cbn in M1. destruct (VT _ _ D1 M1) as [A B]. split; auto. split; auto. split; auto.
    rewrite M1 in M2. cbn [mwall vmeta] in M2. rewrite <- fadd_zero_cmp in HB.
    set (w0 := fadd (wall_used pre) fzero) in *. clearbody w0. clear - D2 M2 HB VT. revert w0 HB M2. induction D2 as [|c0 r0 cs rs H1 H2 IH]; intros w HB M2; constructor.
    + cbn in M2. destruct M2 as [M2 _]. rewrite HB in M2. apply (VT _ _ H1 M2).
    + cbn in M2. destruct M2 as [M1 M2]. rewrite HB in M1. cbn in M1. rewrite M1 in M2. cbn [mwall vmeta] in M2. rewrite <- fadd_zero_cmp in HB. eapply IH; eauto.
  - unfold Grade in HG0. destruct st as [| | | |bins]; try discriminate HG0; try (injection HG0 as <- _; discriminate HC).
    exists bins. split; auto. destruct (compile_all bins) as [ev [e|]] eqn:EC; [injection HG0 as <- _; discriminate HC|].
    destruct (run_and_validate f n p m val M wl (weight_factor gs) gs) as [r' ev']. injection HG0 as _ <-. cbn [snd] in RT. rewrite RT. f_equal.
    clear - EC. revert ev EC. induction bins as [|b bins IH]; intros ev EC; cbn in EC; [injection EC as <-; reflexivity|].
    destruct (_ || _)%bool; [discriminate EC|]. destruct (compile_all bins) as [ev0 r0]. injection EC as <- ->. cbn. f_equal. auto.
Qed.
Print Assumptions C24_wall_time_limit.

(* The verdict of each case of a run within the wall time limit: as its
   processes ended, or for an output-only submission as its file is; a case
   that ended well is then judged by its output only. *)
Lemma one_parent_len l : one_parent l -> (length (parents l) <= 1)%nat.
Proof.
  intros H1. induction l as [|a l IH]; [cbn; lia|].
  assert (I : (length (parents l) <= 1)%nat).
  { apply IH. intros x y l1 l2 l3 ->. apply (H1 x y (a :: l1) l2 l3). reflexivity. }
  unfold parents in *. cbn [filter]. destruct (negb (child a)) eqn:E; auto. cbn.
  destruct (filter (fun a0 => negb (child a0)) l) as [|b t] eqn:EF; [cbn; lia|]. exfalso.
  assert (Hb : In b (filter (fun a0 => negb (child a0)) l)) by (rewrite EF; cbn; auto).
  apply filter_In in Hb. destruct Hb as [Hb Eb]. apply in_split in Hb. destruct Hb as (l2 & l3 & ->).
  apply (H1 a b [] l2 l3 eq_refl). unfold child in *. destruct (atype a), (atype b); try discriminate; auto.
Qed.
Lemma aggregate_ends l : one_parent l -> case_ends l (mverdict (aggregate l)).
Proof.
  intros H1. pose proof (one_parent_len _ H1) as L. rewrite aggregate_verdict by exact L. cbn zeta.
  assert (HP : forall p, In p l -> atype p = Problemsetter -> parents l = [p]).
  { intros p I E. assert (J : In p (parents l)) by (apply filter_In; split; auto; unfold child; rewrite E; reflexivity).
    destruct (parents l) as [|q [|? ?]]; cbn in J, L; [tauto| |lia]. destruct J as [->|[]]. reflexivity. }
  exists (worst (map (fun a => mverdict (ameta a)) (children l))). split; [apply worst_is|].
  set (w := worst _). split; [|split].
  - intros HW. destruct (veqb w OK) eqn:EW; [apply veqb_eq in EW; contradiction|].
    destruct (parents l) as [|p [|? ?]]; auto. rewrite andb_false_r. reflexivity.
  - intros HW HO. rewrite HW. destruct (parents l) as [|p [|? ?]] eqn:EP; auto.
    assert (J : In p (parents l)) by (rewrite EP; cbn; auto). apply filter_In in J. destruct J as [J K].
    rewrite HO; auto. unfold child in K. destruct (atype p); try discriminate K; reflexivity.
  - intros HW p I E HN. rewrite (HP p I E), HW. destruct (veqb (mverdict (ameta p)) OK) eqn:EV; [apply veqb_eq in EV; contradiction|]. cbn [negb andb veqb rank Nat.eqb].
    unfold parent_verdict, blamed_on_contestant. split; [intros ->; reflexivity|]. split; [intros ->; reflexivity|].
    intros N1 N2. destruct (mverdict (ameta p)); try congruence;
    (destruct ((mexit (ameta p) =? 239) || (mexit (ameta p) =? 240) || (mexit (ameta p) =? 241) || (mexit (ameta p) =? 242))%Z eqn:EX;
     [split; auto; intros HB; exfalso; apply HB; left; rewrite !orb_true_iff, !Z.eqb_eq in EX; cbn; intuition
     |rewrite !orb_false_iff, !Z.eqb_neq in EX; destruct (msignal (ameta p)) as [s|]; [destruct (String.eqb_spec s "SIGPIPE") as [->|NS]|]; split; auto;
      [intros HB; exfalso; apply HB; right; reflexivity
      |intros [HB|HB]; [cbn in HB; exfalso; intuition congruence|congruence]
      |intros [HB|HB]; [cbn in HB; exfalso; intuition congruence|congruence]]]).
Qed.
Theorem C22_case_verdict :
  forall fold_eq num_eq parse maxTok st validator max_score wall_limit gs r tr,
  Grade fold_eq num_eq parse maxTok st validator max_score wall_limit gs = (r, false, tr) ->
  rr_compile_error r = false -> processes_ok gs ->
  forall pre cr post cpre c cpost,
  case_results r = pre ++ cr :: post -> all_cases gs = cpre ++ c :: cpost -> length pre = length cpre ->
  Bltb wall_limit (wall_used pre) = false ->
  ends c (mverdict (cr_meta cr)) /\
  (mverdict (cr_meta cr) <> OK -> cr_verdict cr = mverdict (cr_meta cr)) /\
  (mverdict (cr_meta cr) = OK -> In (cr_verdict cr) [OK; AC; PA; WA]).
Proof.
  intros f n p m st val M wl gs r tr HG HC HP pre cr post cpre c cpost E1 E2 HL HB.
  destruct (C24_wall_time_limit _ _ _ _ _ _ _ _ _ _ _ HG HC HP) as (_ & H & _).
  destruct (H _ _ _ _ _ _ E1 E2 HL) as [_ HM]. specialize (HM HB). split.
  - rewrite HM. unfold ends, run_case. destruct (crun c) as [[ole|]|l]; cbn; auto. apply aggregate_ends.
  - apply Grade_ran in HG; auto.
    pose proof (run_and_validate_spec f n p m val M wl (weight_factor gs) gs HP) as S. cbn zeta in S. rewrite <- HG in S. destruct S as (S0 & _).
    assert (FL : Forall2 (done f n p m val M (weight_factor gs)) (all_cases gs) (case_results r)).
    { unfold all_cases, case_results. clear - S0. revert S0. generalize (weight_factor gs) (rr_groups r). intros k grs S0. induction S0 as [|g gr gs grs (_ & D & _) _ IH]; cbn; auto. apply Forall2_app; auto. }
    rewrite E1, E2 in FL.
    assert (D : done f n p m val M (weight_factor gs) c cr).
    { clear - FL HL. revert cpre HL FL. induction pre as [|x pre IH]; intros [|y cpre] HL FL; try discriminate HL; inversion FL; subst; auto. eapply IH; eauto. }
    destruct D as (_ & _ & [? ? ? X|? ? ? X|? ? ? ? X]); rewrite X.
    + split; [congruence|]. intros K. congruence.
    + split; [congruence|]. intros _. rewrite HV. cbn. auto.
    + split; [congruence|]. intros _. rewrite HV. destruct (Qeq_bool q 1); [cbn; auto|]. destruct (Qeq_bool q 0); cbn; auto.
Qed.
Print Assumptions C22_case_verdict.

(* ---- C47: end to end ---- *)
(* A submission to a problem with the token validator is accepted exactly when
   in every case all processes ended well and the output has the same tokens as
   the expected output. *)
Definition same_tokens (a b : list N) : Prop :=
  exists ta tb, tokenized IsNonWhitespace (chars a) ta /\ tokenized IsNonWhitespace (chars b) tb /\ map text ta = map text tb.
Theorem C47_token_accepted_iff :
  forall fold_eq num_eq parse maxTok st max_score wall_limit gs r tr (expected output : case_data -> list N),
  Grade fold_eq num_eq parse maxTok st "token" max_score wall_limit gs = (r, false, tr) ->
  rr_compile_error r = false -> processes_ok gs -> (4 <= maxTok)%N ->
  (forall c, In c (all_cases gs) -> exists ex co,
     va_expected (cvalid c) = Some ex /\ readable IsNonWhitespace maxTok ex /\ contents ex = expected c /\
     va_contestant (cvalid c) = Some co /\ readable IsNonWhitespace maxTok co /\ contents co = output c) ->
  (rr_verdict r = AC <->
   forall c cr, In (c, cr) (combine (all_cases gs) (case_results r)) ->
     mverdict (cr_meta cr) = OK /\ same_tokens (expected c) (output c)) /\
  (forall c cr, In (c, cr) (combine (all_cases gs) (case_results r)) ->
     cr_verdict cr = match mverdict (cr_meta cr) with
                     | OK => if Qeq_bool (cr_score cr) 1 then AC else WA
                     | v => v
                     end /\
     (cr_score cr == 0 \/ cr_score cr == 1) /\
     (cr_score cr == 1 <-> mverdict (cr_meta cr) = OK /\ same_tokens (expected c) (output c))).
Proof.
  intros f n p m st M wl gs r tr expd outp HG HC HP HM HF.
  assert (HO : files_open (String.eqb "token" "custom") gs).
  { cbn. intros g c Hg Hc. destruct (HF c) as (ex & co & A & _ & _ & B & _); [unfold all_cases; apply in_flat_map; eauto|].
    rewrite A, B. split; discriminate. }
  destruct (C19_accepted_iff _ _ _ _ _ _ _ _ _ _ _ HG HC HP HO) as [AI _].
  pose proof HG as HG0. apply Grade_ran in HG; auto.
  pose proof (run_and_validate_spec f n p m "token" M wl (weight_factor gs) gs HP) as S. cbn zeta in S. rewrite <- HG in S. destruct S as (S0 & _).
  assert (FL : Forall2 (done f n p m "token" M (weight_factor gs)) (all_cases gs) (case_results r)).
  { unfold all_cases, case_results. clear - S0. revert S0. generalize (weight_factor gs) (rr_groups r). intros k grs S0. induction S0 as [|g gr gs grs (_ & D & _) _ IH]; cbn; auto. apply Forall2_app; auto. }
  assert (CH : forall c cr, In (c, cr) (combine (all_cases gs) (case_results r)) -> done f n p m "token" M (weight_factor gs) c cr).
  { clear - FL. induction FL as [|c cr cs crs H _ IH]; cbn; [tauto|]. intros c' cr' [E|E]; [injection E as <- <-; auto|auto]. }
  assert (CASES : forall c cr, In (c, cr) (combine (all_cases gs) (case_results r)) ->
     cr_verdict cr = match mverdict (cr_meta cr) with OK => if Qeq_bool (cr_score cr) 1 then AC else WA | v => v end /\
     (cr_score cr == 0 \/ cr_score cr == 1) /\
     (cr_score cr == 1 <-> mverdict (cr_meta cr) = OK /\ same_tokens (expd c) (outp c))).
  { intros c cr Hc. destruct (CH c cr Hc) as (_ & _ & O). apply in_combine_l in Hc.
    destruct (HF c Hc) as (ex & co & E1 & E2 & <- & E3 & E4 & <-).
    assert (CS : case_score f n p m "token" c = Some (score (CalculateScore f n p m "token" ex co))).
    { unfold case_score. cbn [String.eqb Ascii.eqb Bool.eqb]. rewrite E1, E3. reflexivity. }
    destruct (ValProps.C14_runs_exist IsNonWhitespace (contents ex)) as (te & TE & _).
    destruct (ValProps.C14_runs_exist IsNonWhitespace (contents co)) as (tc & TC & _).
    destruct (ValProps.C15_token_score f n p m ex co te tc HM E2 E4 TE TC) as (_ & Y & N).
    assert (TT : same_tokens (contents ex) (contents co) <-> map text te = map text tc).
    { split; [|intros E; exists te, tc; auto]. intros (ta & tb & T1 & T2 & T3).
      rewrite <- (ValProps.tokenized_toks _ _ _ TE), <- (ValProps.tokenized_toks _ _ _ TC).
      rewrite (ValProps.tokenized_toks _ _ _ T1), (ValProps.tokenized_toks _ _ _ T2). auto. }
    destruct O as [exc HV HN HMt HS HCt|exc HV HOk HMt HFs HS HCt|exc q HQ HOk HMt HS HCt HV].
    - rewrite HMt, <- HV, HS. split; [destruct (cr_verdict cr); congruence|]. split; [auto using Qeq_refl|].
      split; [discriminate|]. intros [X _]. congruence.
    - congruence.
    - rewrite CS in HQ. injection HQ as HQ. rewrite HMt, HOk.
      destruct (list_eq_dec (list_eq_dec N.eq_dec) (map text te) (map text tc)) as [E|E].
      + destruct (Y E) as [Y1 _]. rewrite Y1 in HQ. subst q. cbn in HV. rewrite HV.
        assert (Q1 : Qeq_bool (cr_score cr) 1 = true) by (apply Qeq_bool_iff; auto). rewrite Q1.
        split; auto. split; auto. split; [|auto]. intros _. split; auto. apply TT. auto.
      + destruct (N E) as [Y1 _]. rewrite Y1 in HQ. subst q. cbn in HV. rewrite HV.
        assert (Q1 : Qeq_bool (cr_score cr) 1 = false).
        { destruct (Qeq_bool (cr_score cr) 1) eqn:X; auto. apply Qeq_bool_eq in X. rewrite X in HS. discriminate HS. }
        rewrite Q1. split; auto. split; auto. split; [intros X; rewrite X in HS; discriminate HS|]. intros [_ X]. apply TT in X. contradiction. }
  split; [|exact CASES]. rewrite AI. split.
  - intros H c cr Hc. apply (CASES c cr Hc). apply H. eapply in_combine_r; eauto.
  - intros H cr Hcr. destruct (Forall2_in_r _ _ _ _ FL Hcr) as (c0 & _ & _).
    assert (X : exists c, In (c, cr) (combine (all_cases gs) (case_results r))).
    { clear - FL Hcr. induction FL as [|c x cs crs _ _ IH]; [destruct Hcr|]. destruct Hcr as [->|Hcr]; cbn; [eauto|].
      destruct (IH Hcr) as (c' & ?). eauto. }
    destruct X as (c & Hc). apply (CASES c cr Hc). auto.
Qed.
Print Assumptions C47_token_accepted_iff.

(* ---- examples ---- *)
Local Ltac each_case Hg Hc tac :=
  clear - Hg Hc; cbn [In] in Hg;
  repeat (destruct Hg as [<-|Hg]; [cbn [gcases In] in Hc; repeat (destruct Hc as [<-|Hc]; [tac|]); destruct Hc|]); destruct Hg.
Local Ltac fine_verdict := cbn; let a := fresh in let H := fresh in
  intros a H; repeat (destruct H as [<-|H]; [cbn; let K := fresh in intros K; cbn in K; repeat (destruct K as [K|K]; [discriminate K|]); destruct K|]); destruct H.
Definition file (bs : list N) : option reader := Some (mkRd [bs] EEOF false).
Definition fok : list arrival := [proc "Main" (mkM OK 0 fzero fzero 7 None)].
Definition ex_case (name : string) (w : Q) (run : run_answer) (expd outp : list N) : case_data :=
  mkC name w run (mkVA (file outp) (file expd) (JE, None)).
(* two groups; the second has a case that runs out of time *)
Definition ex_gs : list group_data :=
  [mkG "a" [ex_case "a.1" 1 (Procs fok) [49; 10]%N [49]%N; ex_case "a.2" (1#2) (Procs fok) [50]%N [32; 50; 10]%N];
   mkG "b" [ex_case "b.1" 1 (Procs fok) [49]%N [49]%N; ex_case "b.2" (1#2) (Procs [proc "Main" (vmeta TLE)]) [50]%N []%N]].
Definition ex_grade (gs : list group_data) :=
  Grade (fun _ _ => false) (fun _ _ => false) (fun _ => None) MaxTokenLength (SReady [mkB "Main" Contestant (Some OK) false]) "token" 100
    (B754_infinity false) gs.
Example C18_C24_example :
  let '(r, err, tr) := ex_grade ex_gs in
  err = false /\ rr_compile_error r = false /\ processes_ok ex_gs /\ files_open false ex_gs /\ pos_weights ex_gs /\ 0 < total_weight ex_gs /\ rr_verdict r = TLE /\ case_verdicts r = [AC; AC; AC; TLE] /\ rr_score r == 1#2 /\ map (fun g => Qred (gr_score g)) (rr_groups r) = [1#2; 0] /\ rr_contest r == 50 /\ tr = [Compiled "Main"; Executed "a.1"; Executed "a.2"; Executed "b.1"; Executed "b.2"].
Proof.
  destruct (ex_grade ex_gs) as [[r err] tr] eqn:E.
  assert (X : (let '(r, err, tr) := ex_grade ex_gs in
     (err, rr_compile_error r, rr_verdict r, case_verdicts r, Qred (rr_score r), map (fun g => Qred (gr_score g)) (rr_groups r), Qred (rr_contest r), tr)) =
     (false, false, TLE, [AC; AC; AC; TLE], 1#2, [1#2; 0], 50, [Compiled "Main"; Executed "a.1"; Executed "a.2"; Executed "b.1"; Executed "b.2"]))
    by (vm_compute; reflexivity).
  rewrite E in X. injection X as -> -> -> -> X1 -> X2 ->.
  split; [reflexivity|]. split; [reflexivity|]. split.
  { intros g c Hg Hc. unfold ex_gs in Hg. each_case Hg Hc fine_verdict. }
  split. { intros g c Hg Hc. unfold ex_gs in Hg. each_case Hg Hc ltac:(split; discriminate). }
  split. { intros g c Hg Hc. unfold ex_gs in Hg. each_case Hg Hc ltac:(reflexivity). }
  split; [reflexivity|]. split; [reflexivity|]. split; [reflexivity|].
  split; [rewrite <- (Qred_correct (rr_score r)), X1; reflexivity|]. split; [reflexivity|].
  split; [rewrite <- (Qred_correct (rr_contest r)), X2; reflexivity|]. reflexivity.
Qed.

(* False of the code without the guard: when an output file cannot be opened the
   case is skipped (runner/runner.go:1152, :1165) and the run is accepted with
   full score. *)
Theorem C19_missing_output_accepted_refuted :
  exists gs r tr, ex_grade gs = (r, false, tr) /\ processes_ok gs /\ pos_weights gs /\ rr_verdict r = AC /\ rr_score r = 1 /\ rr_contest r == 100 /\ length (case_results r) = 1%nat /\ forall cr, In cr (case_results r) -> cr_score cr == 0 /\ cr_verdict cr = OK.
Proof.
  exists [mkG "a" [mkC "a" 1 (Procs fok) (mkVA None (file [49]%N) (JE, None))]].
  destruct (ex_grade [mkG "a" [mkC "a" 1 (Procs fok) (mkVA None (file [49]%N) (JE, None))]]) as [[r err] tr] eqn:E.
  assert (X : (let '(r, err, tr) := ex_grade [mkG "a" [mkC "a" 1 (Procs fok) (mkVA None (file [49]%N) (JE, None))]] in
    (err, rr_verdict r, rr_score r, Qred (rr_contest r), map (fun c => (cr_score c, cr_verdict c)) (case_results r))) =
    (false, AC, 1, 100, [(0, OK)])) by (vm_compute; reflexivity).
  rewrite E in X. injection X as -> X1 X2 X3 X4. exists r, tr. split; [reflexivity|].
  split. { intros g c Hg Hc. each_case Hg Hc fine_verdict. }
  split. { intros g c Hg Hc. each_case Hg Hc ltac:(reflexivity). }
  split; auto. split; auto. split; [rewrite <- (Qred_correct (rr_contest r)), X3; reflexivity|].
  destruct (case_results r) as [|c0 [|c1 l]]; try discriminate X4. cbn in X4. injection X4 as X4 X5. split; [reflexivity|].
  intros cr [<-|[]]. rewrite X4, X5. split; reflexivity.
Qed.
Print Assumptions C19_missing_output_accepted_refuted.

(* Without the hypothesis on the weights the score leaves [0,1]. *)
Theorem C19_negative_weight_refuted :
  exists gs r tr, ex_grade gs = (r, false, tr) /\ 0 < total_weight gs /\ 1 < rr_score r.
Proof.
  pose (gs := [mkG "a" [ex_case "a" 3 (Procs fok) [49]%N [49]%N]; mkG "b" [ex_case "b" (-1#1) (Procs fok) [49]%N [50]%N]]).
  exists gs. destruct (ex_grade gs) as [[r err] tr] eqn:E.
  assert (X : (let '(r, err, tr) := ex_grade gs in (err, Qred (rr_score r))) = (false, 3#2)) by (vm_compute; reflexivity).
  rewrite E in X. injection X as -> X. exists r, tr. split; auto. split; [reflexivity|].
  rewrite <- (Qred_correct (rr_score r)), X. reflexivity.
Qed.
Print Assumptions C19_negative_weight_refuted.

(* Compile error of the second of three binaries. *)
Example C23_example : exists r,
  Grade (fun _ _ => false) (fun _ _ => false) (fun _ => None) MaxTokenLength
    (SReady ([mkB "Main" Problemsetter (Some OK) false] ++ mkB "player" Contestant (Some RTE) false :: [mkB "validator" Validator (Some OK) false]))
    "custom" 100 (B754_infinity false) ex_gs = (r, false, [Compiled "Main"; Compiled "player"]) /\ rr_verdict r = CE.
Proof.
  destruct (C23_compile_error (fun _ _ => false) (fun _ _ => false) (fun _ => None) MaxTokenLength [mkB "Main" Problemsetter (Some OK) false]
    (mkB "player" Contestant (Some RTE) false) [mkB "validator" Validator (Some OK) false] "custom" 100 (B754_infinity false) ex_gs) as (r & H & V & _).
  - constructor; auto. split; reflexivity.
  - intros [H _]. discriminate H.
  - exists r. split; auto.
Qed.

(* A limit of 0 seconds: the first case exceeds it, the others are not run. *)
Example C24_example :
  let one := f_of 4503599627370496 (-52) eq_refl in
  let slow := Procs [proc "Main" (mkM OK 0 one one 7 None)] in
  let gs := [mkG "a" [ex_case "a" 1 slow [49]%N [49]%N]; mkG "b" [ex_case "b" 1 slow [49]%N [49]%N; ex_case "c" 1 slow [49]%N [49]%N]] in
  let '(r, err, tr) := Grade (fun _ _ => false) (fun _ _ => false) (fun _ => None) MaxTokenLength (SReady []) "token" 100 fzero gs in
  (err, case_verdicts r, rr_verdict r, tr) = (false, [AC; TLE; TLE], TLE, [Executed "a"]).
Proof. vm_compute. reflexivity. Qed.

Example C22_example :
  let parent := mkA "Main" (mkM RTE 242 fzero fzero 5 None) Problemsetter in
  mverdict (aggregate [parent; proc "a" (vmeta OK); proc "b" (vmeta OK)]) = RTE /\ mverdict (aggregate [proc "b" (vmeta OK); parent; proc "a" (vmeta TLE)]) = TLE.
Proof. split; reflexivity. Qed.

Example C22_resources_example :
  let w := f_of 4503599627370496 (-52) eq_refl in
  let l := [proc "a" (mkM OK 0 w w 3 None); mkA "Main" (mkM OK 0 fzero fzero 9 None) Problemsetter; proc "b" (mkM OK 0 w fzero 4 None)] in
  Forall (fun a => is_finite (mwall (ameta a)) = true /\ (0 <= mmem (ameta a))%Z) l /\
  Bcompare (mtime (aggregate l)) (f_of 4503599627370496 (-51) eq_refl) = Some Eq /\ mwall (aggregate l) = w /\ mmem (aggregate l) = 7%Z.
Proof.
  split; [repeat constructor; discriminate|]. repeat split; vm_compute; reflexivity.
Qed.
Example C22_case_verdict_example :
  let broken := mkA "Main" (mkM RTE 1 fzero fzero 5 (Some "SIGPIPE"%string)) Problemsetter in
  let gs := [mkG "a" [ex_case "a.1" 1 (Procs [proc "p" (vmeta OK); broken]) [49]%N [49]%N; ex_case "a.2" 1 (Cat None) [49]%N [49]%N; ex_case "a.3" 1 (Cat (Some false)) [49]%N [49]%N]] in
  let '(r, err, tr) := ex_grade gs in (err, case_verdicts r) = (false, [RTE; RTE; AC]).
Proof. vm_compute. reflexivity. Qed.

Example C47_example :
  let gs := [mkG "a" [ex_case "a.1" 1 (Procs fok) [49; 10]%N [49]%N; ex_case "a.2" (1#2) (Procs fok) [50]%N [32; 50; 10]%N]] in
  let '(r, err, tr) := ex_grade gs in
  rr_verdict r = AC /\ forall c, In c (all_cases gs) -> exists ex co,
     va_expected (cvalid c) = Some ex /\ readable IsNonWhitespace MaxTokenLength ex /\ va_contestant (cvalid c) = Some co /\ readable IsNonWhitespace MaxTokenLength co.
Proof.
  intros gs. destruct (ex_grade gs) as [[r err] tr] eqn:E. split.
  - assert (X : (let '(r, err, tr) := ex_grade gs in rr_verdict r) = AC) by (vm_compute; reflexivity). rewrite E in X. exact X.
  - assert (R : forall bs, (lenN bs <= 100)%N -> readable IsNonWhitespace MaxTokenLength (mkRd [bs] EEOF false)).
    { intros bs H. apply ValProps.readable_small; auto. unfold MaxTokenLength. lia. }
    intros c Hc. unfold all_cases, gs in Hc. cbn [flat_map app gcases] in Hc. destruct Hc as [<-|[<-|[]]]; cbn [cvalid va_expected va_contestant ex_case file].
    + exists (mkRd [[49; 10]%N] EEOF false), (mkRd [[49]%N] EEOF false).
      split; [reflexivity|]. split; [apply R; vm_compute; discriminate|]. split; [reflexivity|apply R; vm_compute; discriminate].
    + exists (mkRd [[50]%N] EEOF false), (mkRd [[32; 50; 10]%N] EEOF false).
      split; [reflexivity|]. split; [apply R; vm_compute; discriminate|]. split; [reflexivity|apply R; vm_compute; discriminate].
Qed.

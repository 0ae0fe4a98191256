From Coq Require Import String List Arith NArith ZArith Bool QArith Permutation Lia Lqa Setoid.
From Flocq Require Import IEEE754.BinarySingleNaN.
From Verif Require Import TokModel ValModel ValProofs NumModel GradeModel GradeSpec GradeProofs.
Import ListNotations.
Local Open Scope Q_scope.

Lemma factor_pos gs : 0 < weight_factor gs.
Proof.
  unfold weight_factor. cbv zeta. destruct (Qle_bool _ 0) eqn:E; [reflexivity|].
  assert (0 < sumQ (all_weights gs)) by (apply Qnot_le_lt; intros H; apply Qle_bool_iff in H; congruence).
  unfold Qdiv. rewrite Qmult_1_l. apply Qinv_lt_0_compat. auto.
Qed.
Lemma factor_total gs : 0 < total_weight gs -> total_weight gs * weight_factor gs == 1.
Proof.
  intros H. unfold weight_factor. cbv zeta. destruct (Qle_bool _ 0) eqn:E.
  - apply Qle_bool_iff in E. rewrite total_weight_spec in E. lra.
  - rewrite total_weight_spec. field. lra.
Qed.
Lemma Forall2_in_l {A B} (R : A -> B -> Prop) l l' a : Forall2 R l l' -> In a l -> exists b, In b l' /\ R a b.
Proof. induction 1; cbn; [tauto|]. intros [<-|H1]; [eauto|]. destruct IHForall2 as (b & ? & ?); eauto. Qed.
Lemma Forall2_in_r {A B} (R : A -> B -> Prop) l l' b : Forall2 R l l' -> In b l' -> exists a, In a l /\ R a b.
Proof. induction 1; cbn; [tauto|]. intros [<-|H1]; [eauto|]. destruct IHForall2 as (a & ? & ?); eauto. Qed.
Lemma Forall2_nth_or {A B} (R : A -> B -> Prop) l l' : Forall2 R l l' -> forall P : A -> B -> Prop, (forall a b, In a l -> R a b -> P a b) -> Forall2 P l l'.
Proof. induction 1; intros P HP; constructor; [apply HP; cbn; auto|]. apply IHForall2. intros; apply HP; cbn; auto. Qed.

Section P.
Variable fold_eq num_eq : list N -> list N -> bool.
Variable parse : list N -> option Q.
Variable maxTok : N.
Variable validator : string.
Variable max_score : Q.
Variable wall_limit : float64.
Notation cscore := (case_score fold_eq num_eq parse maxTok validator).

Section F.
Variable factor : Q.
Hypothesis FP : 0 < factor.
Notation done := (done fold_eq num_eq parse maxTok validator max_score factor).
Notation group_done := (group_done fold_eq num_eq parse maxTok validator max_score factor).

Lemma done_range c r : done c r -> 0 <= cr_score r <= 1.
Proof.
  intros (_ & _ & D). destruct D; try (rewrite HS; lra).
  apply cscore_range in HQ. rewrite HS. lra.
Qed.
Lemma done_AC c r : done c r -> process_verdict (mverdict (cr_meta r)) ->
  (cr_verdict r = AC <-> cr_score r == 1).
Proof.
  intros (_ & _ & D) HP. destruct D.
  - rewrite HS. split; [|lra]. intros E. rewrite HM, <- HV, E in HP. exfalso. apply HP. cbn; auto.
  - rewrite HS, HV. split; [discriminate|lra].
  - rewrite HS, HV. destruct (Qeq_bool q 1) eqn:E1; [apply Qeq_bool_eq in E1; tauto|]. apply Qeq_bool_neq in E1.
    destruct (Qeq_bool q 0); split; try discriminate; tauto.
Qed.
Lemma done_PA c r : done c r -> process_verdict (mverdict (cr_meta r)) ->
  (cr_verdict r = PA <-> 0 < cr_score r /\ cr_score r < 1).
Proof.
  intros (_ & _ & D) HP. destruct D.
  - rewrite HS. split; [|lra]. intros E. rewrite HM, <- HV, E in HP. exfalso. apply HP. cbn; auto.
  - rewrite HS, HV. split; [discriminate|lra].
  - apply cscore_range in HQ. rewrite HS, HV. destruct (Qeq_bool q 1) eqn:E1; [apply Qeq_bool_eq in E1; split; [discriminate|lra]|].
    apply Qeq_bool_neq in E1. destruct (Qeq_bool q 0) eqn:E0; [apply Qeq_bool_eq in E0; split; [discriminate|lra]|].
    apply Qeq_bool_neq in E0. split; [|auto]. intros _. split; apply Qnot_le_lt; intros X; [apply E0|apply E1]; lra.
Qed.
Lemma done_fine c r : done c r -> process_verdict (mverdict (cr_meta r)) -> cscore c <> None ->
  (case_fine r = true <-> 0 < cr_score r).
Proof.
  intros (_ & _ & D) HP HN. unfold case_fine. destruct D.
  - rewrite HS. split; [|lra]. rewrite HM, <- HV in HP. unfold process_verdict in HP. cbn in HP.
    destruct (cr_verdict r); try discriminate; try congruence; tauto.
  - contradiction.
  - apply cscore_range in HQ. rewrite HS, HV. destruct (Qeq_bool q 1) eqn:E1; [apply Qeq_bool_eq in E1; split; [lra|auto]|].
    apply Qeq_bool_neq in E1. destruct (Qeq_bool q 0) eqn:E0; [apply Qeq_bool_eq in E0; split; [discriminate|lra]|].
    apply Qeq_bool_neq in E0. split; [|auto]. intros _. apply Qnot_le_lt; intros X. apply E0. lra.
Qed.
Lemma done_meta c r : done c r -> exists ex, cr_meta r = fst (run_case ex c).
Proof. intros (_ & _ & D). destruct D; eauto. Qed.

Definition gsum cs rs := total (map (fun cr : case_data * case_result => cr_score (snd cr) * (cweight (fst cr) * factor)) (combine cs rs)).
Lemma gsum_range cs rs : Forall2 done cs rs -> (forall c, In c cs -> 0 <= cweight c) ->
  0 <= gsum cs rs /\ gsum cs rs <= total (map cweight cs) * factor.
Proof.
  unfold gsum. induction 1 as [|c r cs rs H1 H2 IH]; intros HW; cbn; [lra|].
  destruct IH as [I1 I2]; [intros; apply HW; cbn; auto|]. apply done_range in H1.
  assert (W : 0 <= cweight c) by (apply HW; cbn; auto).
  assert (W' : 0 <= cweight c * factor) by (apply Qmult_le_0_compat; lra).
  assert (A : 0 <= cr_score r * (cweight c * factor)) by (apply Qmult_le_0_compat; lra).
  assert (B : cr_score r * (cweight c * factor) <= 1 * (cweight c * factor)) by (apply Qmult_le_compat_r; lra).
  split; lra.
Qed.
Lemma gsum_full cs rs : Forall2 done cs rs -> Forall (fun r => cr_score r == 1) rs -> gsum cs rs == total (map cweight cs) * factor.
Proof.
  unfold gsum. induction 1 as [|c r cs rs H1 H2 IH]; intros HF; cbn; [ring|].
  inversion HF as [|? ? F1 F2]; subst. rewrite (IH F2), F1. ring.
Qed.
Lemma gsum_strict cs rs : Forall2 done cs rs -> (forall c, In c cs -> 0 < cweight c) ->
  Exists (fun r => ~ cr_score r == 1) rs -> gsum cs rs < total (map cweight cs) * factor.
Proof.
  unfold gsum. induction 1 as [|c r cs rs H1 H2 IH]; intros HW HE; [inversion HE|]. cbn.
  assert (W : 0 < cweight c) by (apply HW; cbn; auto).
  assert (W' : 0 < cweight c * factor) by (apply Qmult_lt_0_compat; lra).
  pose proof (done_range _ _ H1) as R. inversion HE as [? ? E|? ? E]; subst.
  - assert (cr_score r < 1) by (apply Qnot_le_lt; intros X; apply E; lra).
    assert (B : cr_score r * (cweight c * factor) < 1 * (cweight c * factor)) by (apply Qmult_lt_compat_r; lra).
    destruct (gsum_range cs rs H2) as [_ G]; [intros c' Hc'; apply Qlt_le_weak, HW; cbn; auto|]. unfold gsum in G. lra.
  - assert (B : cr_score r * (cweight c * factor) <= 1 * (cweight c * factor)) by (apply Qmult_le_compat_r; lra).
    assert (G := IH ltac:(intros; apply HW; cbn; auto) E). lra.
Qed.
Lemma group_range g gr : group_done g gr -> (forall c, In c (gcases g) -> 0 <= cweight c) ->
  0 <= gr_score gr /\ gr_score gr <= total (map cweight (gcases g)) * factor.
Proof.
  intros (_ & D & _ & S & _) HW. destruct (gsum_range _ _ D HW) as [A B]. unfold gsum in *.
  destruct (forallb case_fine (gr_cases gr)); rewrite S; [auto|]. lra.
Qed.
Lemma groups_range gs grs : Forall2 group_done gs grs -> nonneg_weights gs ->
  0 <= total (map gr_score grs) /\ total (map gr_score grs) <= total_weight gs * factor.
Proof.
  unfold total_weight. induction 1 as [|g gr gs grs H1 H2 IH]; intros HW; cbn; [lra|].
  destruct IH as [I1 I2]; [intros g' c' A B; apply (HW g' c'); cbn; auto|].
  destruct (group_range _ _ H1) as [A B]; [intros c Hc; apply (HW g c); cbn; auto|]. lra.
Qed.
Lemma group_full g gr : group_done g gr -> Forall (fun r => cr_score r == 1) (gr_cases gr) ->
  gr_score gr == total (map cweight (gcases g)) * factor.
Proof.
  intros (_ & D & _ & S & _) HF. pose proof (gsum_full _ _ D HF) as G. unfold gsum in G.
  assert (X : forallb case_fine (gr_cases gr) = true).
  { apply forallb_forall. intros r Hr. destruct (Forall2_in_r _ _ _ _ D Hr) as (c & _ & _ & _ & O).
    rewrite Forall_forall in HF. specialize (HF r Hr). unfold case_fine. destruct O.
    - rewrite HS in HF; discriminate HF.
    - rewrite HV; auto.
    - rewrite HV. destruct (Qeq_bool q 1) eqn:E1; auto. apply Qeq_bool_neq in E1. rewrite HS in HF. contradiction. }
  rewrite X in S. rewrite S. exact G.
Qed.
Lemma groups_full gs grs : Forall2 group_done gs grs -> Forall (fun r => cr_score r == 1) (flat_map gr_cases grs) ->
  total (map gr_score grs) == total_weight gs * factor.
Proof.
  unfold total_weight. induction 1 as [|g gr gs grs H1 H2 IH]; intros HF; cbn; [ring|].
  cbn in HF. apply Forall_app in HF. destruct HF as [F1 F2]. rewrite (group_full _ _ H1 F1), (IH F2). ring.
Qed.
Lemma group_strict g gr : group_done g gr -> (forall c, In c (gcases g) -> 0 < cweight c) ->
  Exists (fun r => ~ cr_score r == 1) (gr_cases gr) -> gr_score gr < total (map cweight (gcases g)) * factor.
Proof.
  intros (_ & D & _ & S & _) HW HE. pose proof (gsum_strict _ _ D HW HE) as G.
  destruct (gsum_range _ _ D) as [A B]; [intros; apply Qlt_le_weak; auto|]. unfold gsum in *.
  destruct (forallb case_fine (gr_cases gr)); rewrite S; [auto|]. lra.
Qed.
Lemma groups_strict gs grs : Forall2 group_done gs grs -> pos_weights gs ->
  Exists (fun r => ~ cr_score r == 1) (flat_map gr_cases grs) ->
  total (map gr_score grs) < total_weight gs * factor.
Proof.
  unfold total_weight. induction 1 as [|g gr gs grs H1 H2 IH]; intros HW HE; [inversion HE|]. cbn in *.
  assert (HW' : pos_weights gs) by (intros g' c' A B; apply (HW g' c'); cbn; auto).
  assert (HG : forall c, In c (gcases g) -> 0 < cweight c) by (intros c Hc; apply (HW g c); cbn; auto).
  destruct (group_range _ _ H1) as [A B]; [intros c Hc; apply Qlt_le_weak, HG; auto|].
  destruct (groups_range gs grs H2) as [C D]; [intros g' c' X Y; apply Qlt_le_weak, (HW' g' c'); auto|]. unfold total_weight in *.
  apply Exists_app in HE. destruct HE as [HE|HE].
  - pose proof (group_strict _ _ H1 HG HE). lra.
  - pose proof (IH HW' HE). lra.
Qed.
Lemma group_monotone g gr g' gr' : group_done g gr -> group_done g' gr' ->
  map cweight (gcases g) = map cweight (gcases g') -> (forall c, In c (gcases g) -> 0 <= cweight c) ->
  Forall2 (fun r r' => cr_score r <= cr_score r' /\ (case_fine r = true -> case_fine r' = true)) (gr_cases gr) (gr_cases gr') ->
  gr_score gr <= gr_score gr'.
Proof.
  intros G1 G2 EW HW HF.
  assert (HW' : forall c, In c (gcases g') -> 0 <= cweight c).
  { intros c Hc. apply (in_map cweight) in Hc. rewrite <- EW in Hc. apply in_map_iff in Hc. destruct Hc as (c0 & <- & H0). auto. }
  destruct (group_range _ _ G2 HW') as [A _].
  destruct G1 as (_ & D1 & _ & S1 & _), G2 as (_ & D2 & _ & S2 & _).
  destruct (forallb case_fine (gr_cases gr)) eqn:E; [|rewrite S1; auto].
  assert (E' : forallb case_fine (gr_cases gr') = true).
  { rewrite forallb_forall in E |- *. intros r' Hr'. destruct (Forall2_in_r _ _ _ _ HF Hr') as (r & Hr & _ & X). apply X, E; auto. }
  rewrite E' in S2. rewrite S1, S2. clear - D1 D2 HF EW HW FP.
  revert D1 D2 EW HW. generalize (gcases g) (gcases g'). induction HF as [|r r' rs rs' [H1 _] H2 IH]; intros cs cs' D1 D2 EW HW;
    inversion D1 as [|c ? cs0 ? X1 X2]; inversion D2 as [|c' ? cs0' ? Y1 Y2]; subst; cbn; [lra|].
  cbn in EW. injection EW as E1 E2. rewrite <- E1.
  assert (W : 0 <= cweight c * factor) by (apply Qmult_le_0_compat; [apply HW; cbn; auto|lra]).
  assert (cr_score r * (cweight c * factor) <= cr_score r' * (cweight c * factor)) by (apply Qmult_le_compat_r; auto).
  assert (IH' := IH _ _ X2 Y2 E2 ltac:(intros; apply HW; cbn; auto)). lra.
Qed.
End F.

Notation G := (Grade fold_eq num_eq parse maxTok).
Lemma Grade_ran st gs r tr : G st validator max_score wall_limit gs = (r, false, tr) -> rr_compile_error r = false ->
  r = fst (run_and_validate fold_eq num_eq parse maxTok validator max_score wall_limit (weight_factor gs) gs).
Proof.
  unfold Grade. destruct st as [| | | |bins]; intros H HC; try (injection H as <- _; discriminate HC); try discriminate H.
  destruct (compile_all bins) as [ev [err|]]; [injection H as <- _ _; discriminate HC|].
  destruct (run_and_validate _ _ _ _ _ _ _ _ gs) as [r' ev']. injection H as <- _. reflexivity.
Qed.
Lemma files_open_cscore gs : files_open (String.eqb validator "custom") gs -> forall g c, In g gs -> In c (gcases g) -> cscore c <> None.
Proof.
  intros H g c Hg Hc. specialize (H g c Hg Hc). unfold case_score. destruct (String.eqb validator "custom").
  - destruct (va_custom (cvalid c)) as [v o]. cbn in H. destruct v; try discriminate. destruct o; [discriminate|]. exfalso. apply H; auto.
  - destruct H as [H1 H2]. destruct (va_contestant _); [|congruence]. destruct (va_expected _); [|congruence]. discriminate.
Qed.
Lemma result_meta_fine factor gs grs : processes_ok gs -> Forall2 (group_done fold_eq num_eq parse maxTok validator max_score factor) gs grs ->
  forall r, In r (flat_map gr_cases grs) -> exists g c, In g gs /\ In c (gcases g) /\
    done fold_eq num_eq parse maxTok validator max_score factor c r /\ process_verdict (mverdict (cr_meta r)).
Proof.
  intros HP H r Hr. apply in_flat_map in Hr. destruct Hr as (gr & Hgr & Hr).
  destruct (Forall2_in_r _ _ _ _ H Hgr) as (g & Hg & _ & D & _). destruct (Forall2_in_r _ _ _ _ D Hr) as (c & Hc & Dc).
  exists g, c. split; auto. split; auto. split; auto. destruct (done_meta _ _ _ Dc) as (ex & ->). apply process_run_case. apply (HP g); auto.
Qed.
End P.

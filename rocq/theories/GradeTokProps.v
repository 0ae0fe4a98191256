(* C47 for the other two token validators: a graded run is accepted exactly if the
   corresponding tokens of each output and expected output match. *)
From Coq Require Import String List Arith NArith ZArith Bool QArith Reals Permutation Lia Setoid.
From Flocq Require Import Core.Core IEEE754.BinarySingleNaN.
From Verif Require Import TokModel TokSpec ValModel ValSpec ValProofs FoldModel FoldSpec FoldProofs NumModel NumSpec GradeModel GradeSpec GradeProofs GradeScoreProofs ValProps GradeProps.
Import ListNotations.
Local Open Scope nat_scope.
Local Open Scope Q_scope.

(* ---- specification ---- *)
(* As many tokens in both, and each one matching its counterpart. *)
Definition tokens_match (is_token_char : N -> bool) (matches : list N -> list N -> Prop) (a b : list N) : Prop :=
  exists ta tb, tokenized is_token_char (chars a) ta /\ tokenized is_token_char (chars b) tb /\ Forall2 matches (map text ta) (map text tb).
(* The files of the cases: the problem's and the program's. *)
Definition files_are (is_token_char : N -> bool) maxTok gs (expected output : case_data -> list N) : Prop :=
  forall c, In c (all_cases gs) -> exists ex co,
     va_expected (cvalid c) = Some ex /\ readable is_token_char maxTok ex /\ contents ex = expected c /\
     va_contestant (cvalid c) = Some co /\ readable is_token_char maxTok co /\ contents co = output c.
(* What is reported if [good] says which cases are right. *)
Definition graded_by gs r (good : case_data -> Prop) : Prop :=
  (rr_verdict r = AC <->
   forall c cr, In (c, cr) (combine (all_cases gs) (case_results r)) -> mverdict (cr_meta cr) = OK /\ good c) /\
  (forall c cr, In (c, cr) (combine (all_cases gs) (case_results r)) ->
     cr_verdict cr = match mverdict (cr_meta cr) with OK => if Qeq_bool (cr_score cr) 1 then AC else WA | v => v end /\
     (cr_score cr == 0 \/ cr_score cr == 1) /\
     (cr_score cr == 1 <-> mverdict (cr_meta cr) = OK /\ good c)).

Lemma forall2_iff {A} (P Q : A -> A -> Prop) l m : (forall a b, P a b <-> Q a b) -> Forall2 P l m <-> Forall2 Q l m.
Proof. intros H. split; (induction 1; constructor; [apply H; auto|auto]). Qed.
Lemma forall2_impl {A} (P Q : A -> A -> Prop) l m : (forall a b, P a b -> Q a b) -> Forall2 P l m -> Forall2 Q l m.
Proof. intros H. induction 1; constructor; auto. Qed.
Lemma match_iff P R a b ta tb : tokenized P (chars a) ta -> tokenized P (chars b) tb -> tokens_match P R a b <-> Forall2 R (map text ta) (map text tb).
Proof.
  intros TA TB. split; [|intros F; exists ta, tb; auto]. intros (xa & xb & A & B & F).
  rewrite <- (tokenized_toks _ _ _ TA), <- (tokenized_toks _ _ _ TB), (tokenized_toks _ _ _ A), (tokenized_toks _ _ _ B). auto.
Qed.
Lemma graded_by_tokens fold_eq num_eq parse maxTok st name eq max_score wall_limit gs r tr expected output :
  In name ["token"; "token-caseless"; "token-numeric"]%string -> compare fold_eq num_eq name = Some eq ->
  Grade fold_eq num_eq parse maxTok st name max_score wall_limit gs = (r, false, tr) ->
  rr_compile_error r = false -> processes_ok gs -> (4 <= maxTok)%N -> files_are (pred_of name) maxTok gs expected output ->
  graded_by gs r (fun c => tokens_match (pred_of name) (fun e o => eq e o = true) (expected c) (output c)).
Proof.
  rename fold_eq into f, num_eq into n, parse into p, maxTok into m, max_score into M, wall_limit into wl, expected into expd, output into outp.
  intros NM CM HG HC HP HM HF.
  assert (NC : String.eqb name "custom" = false) by (destruct NM as [<-|[<-|[<-|[]]]]; reflexivity).
  assert (HO : files_open (String.eqb name "custom") gs).
  { rewrite NC. intros g c Hg Hc. destruct (HF c) as (ex & co & A & _ & _ & B & _); [unfold all_cases; apply in_flat_map; eauto|].
    rewrite A, B. split; discriminate. }
  destruct (C19_accepted_iff _ _ _ _ _ _ _ _ _ _ _ HG HC HP HO) as [AI _].
  pose proof HG as HG0. apply Grade_ran in HG; auto.
  pose proof (run_and_validate_spec f n p m name M wl (weight_factor gs) gs HP) as S. cbn zeta in S. rewrite <- HG in S. destruct S as (S0 & _).
  assert (FL : Forall2 (done f n p m name M (weight_factor gs)) (all_cases gs) (case_results r)).
  { unfold all_cases, case_results. clear - S0. revert S0. generalize (weight_factor gs) (rr_groups r). intros k grs S0. induction S0 as [|g gr gs grs (_ & D & _) _ IH]; cbn; auto. apply Forall2_app; auto. }
  assert (CH : forall c cr, In (c, cr) (combine (all_cases gs) (case_results r)) -> done f n p m name M (weight_factor gs) c cr).
  { clear - FL. induction FL as [|c cr cs crs H _ IH]; cbn; [tauto|]. intros c' cr' [E|E]; [injection E as <- <-; auto|auto]. }
  assert (CASES : forall c cr, In (c, cr) (combine (all_cases gs) (case_results r)) ->
     cr_verdict cr = match mverdict (cr_meta cr) with OK => if Qeq_bool (cr_score cr) 1 then AC else WA | v => v end /\
     (cr_score cr == 0 \/ cr_score cr == 1) /\
     (cr_score cr == 1 <-> mverdict (cr_meta cr) = OK /\ tokens_match (pred_of name) (fun e o => eq e o = true) (expd c) (outp c))).
  { intros c cr Hc. destruct (CH c cr Hc) as (_ & _ & O). apply in_combine_l in Hc.
    destruct (HF c Hc) as (ex & co & E1 & E2 & <- & E3 & E4 & <-).
    assert (CS : case_score f n p m name c = Some (score (CalculateScore f n p m name ex co))).
    { unfold case_score. rewrite NC, E1, E3. reflexivity. }
    destruct (ValProps.C14_runs_exist (pred_of name) (contents ex)) as (te & TE & _).
    destruct (ValProps.C14_runs_exist (pred_of name) (contents co)) as (tc & TC & _).
    pose proof (score_l f n p m name ex co eq HM NM CM E2 E4) as G. cbn zeta in G.
    rewrite (tokenized_toks _ _ _ TE), (tokenized_toks _ _ _ TC) in G. destruct G as (_ & _ & G).
    pose proof (first_difference_forall2 eq (map text te) (map text tc)) as FD. rewrite (match_iff _ _ _ _ _ _ TE TC), <- FD.
    destruct O as [exc HV HN HMt HS HCt|exc HV HOk HMt HFs HS HCt|exc q HQ HOk HMt HS HCt HV].
    - rewrite HMt, <- HV, HS. split; [destruct (cr_verdict cr); congruence|]. split; [auto using Qeq_refl|].
      split; [discriminate|]. intros [X _]. congruence.
    - congruence.
    - rewrite CS in HQ. injection HQ as HQ. rewrite HMt, HOk. rewrite G in HQ.
      destruct (first_difference eq (map text te) (map text tc)).
      + subst q. cbn in HV. rewrite HV.
        assert (Q1 : Qeq_bool (cr_score cr) 1 = false).
        { destruct (Qeq_bool (cr_score cr) 1) eqn:X; auto. apply Qeq_bool_eq in X. rewrite X in HS. discriminate HS. }
        rewrite Q1. split; auto. split; auto. split; [intros X; rewrite X in HS; discriminate HS|]. intros [_ X]. discriminate X.
      + subst q. cbn in HV. rewrite HV.
        assert (Q1 : Qeq_bool (cr_score cr) 1 = true) by (apply Qeq_bool_iff; auto). rewrite Q1.
        split; auto. split; auto. split; auto. }
  split; [|exact CASES]. rewrite AI. split.
  - intros H c cr Hc. apply (CASES c cr Hc). apply H. eapply in_combine_r; eauto.
  - intros H cr Hcr.
    assert (X : exists c, In (c, cr) (combine (all_cases gs) (case_results r))).
    { clear - FL Hcr. induction FL as [|c x cs crs _ _ IH]; [destruct Hcr|]. destruct Hcr as [->|Hcr]; cbn; [eauto|].
      destruct (IH Hcr) as (c' & ?). eauto. }
    destruct X as (c & Hc). apply (CASES c cr Hc). auto.
Qed.
Lemma graded_by_iff gs r (P Q : case_data -> Prop) : (forall c, In c (all_cases gs) -> (P c <-> Q c)) -> graded_by gs r P -> graded_by gs r Q.
Proof.
  intros H [A B]. split.
  - rewrite A. split; intros X c cr I; (split; [apply (X c cr I)|apply (H c (in_combine_l _ _ _ _ I)); apply (X c cr I)]).
  - intros c cr I. destruct (B c cr I) as (B1 & B2 & B3). split; [exact B1|]. split; [exact B2|]. rewrite B3, (H c (in_combine_l _ _ _ _ I)). reflexivity.
Qed.

(* ---- C47, token-caseless ---- *)
Theorem C47_caseless_accepted_iff :
  forall canon SimpleFold num_eq parse maxTok st max_score wall_limit gs r tr (expected output : case_data -> list N),
  simple_fold_for canon SimpleFold -> ascii_case canon ->
  Grade (EqualFold SimpleFold) num_eq parse maxTok st "token-caseless" max_score wall_limit gs = (r, false, tr) ->
  rr_compile_error r = false -> processes_ok gs -> (4 <= maxTok)%N -> files_are IsNonWhitespace maxTok gs expected output ->
  graded_by gs r (fun c => tokens_match IsNonWhitespace (same_caseless canon) (expected c) (output c)).
Proof.
  intros canon SF n p m st M wl gs r tr expd outp HS HA HG HC HP HM HF.
  eapply graded_by_iff; [|eapply (graded_by_tokens (EqualFold SF) n p m st "token-caseless" (EqualFold SF)); eauto; cbn; auto].
  intros c _. cbv beta. change (pred_of "token-caseless") with IsNonWhitespace.
  destruct (ValProps.C14_runs_exist IsNonWhitespace (expd c)) as (te & TE & _).
  destruct (ValProps.C14_runs_exist IsNonWhitespace (outp c)) as (tc & TC & _).
  rewrite !(match_iff _ _ _ _ _ _ TE TC). apply forall2_iff. intros a b. apply EqualFold_spec; auto.
Qed.

(* ---- C47, token-numeric ---- *)
Theorem C47_numeric_accepted_iff :
  forall fold_eq tolerance parse maxTok st max_score wall_limit gs r tr (expected output : case_data -> list N),
  Grade fold_eq (tokenNumericEquals tolerance) parse maxTok st "token-numeric" max_score wall_limit gs = (r, false, tr) ->
  rr_compile_error r = false -> processes_ok gs -> (4 <= maxTok)%N -> files_are IsNumeric maxTok gs expected output ->
  graded_by gs r (fun c => tokens_match IsNumeric (fun e o => tokenNumericEquals tolerance e o = true) (expected c) (output c)).
Proof.
  intros f t p m st M wl gs r tr expd outp HG HC HP HM HF.
  eapply (graded_by_tokens f (tokenNumericEquals t) p m st "token-numeric" (tokenNumericEquals t)); eauto; cbn; auto.
Qed.
(* in terms of the values: what is within the tolerance is accepted *)
Definition within (tolerance : float64) (e o : list N) : Prop :=
  exists fe fo, ParseFloat e = Some fe /\ ParseFloat o = Some fo /\
  (Rabs (B2R fo - B2R fe) <= 3 / 2 * B2R tolerance \/
   bpow radix2 (-1022) <= B2R tolerance <= 1 / 2 /\ Rabs (B2R fo - B2R fe) <= B2R tolerance * Rmax (Rabs (B2R fe)) (Rabs (B2R fo)))%R.
(* and what is accepted is within it, but for the rounding; or it is no number *)
Definition nearly_within (tolerance : float64) (e o : list N) : Prop :=
  (ParseFloat e = None /\ ParseFloat o = None) \/
  exists fe fo, ParseFloat e = Some fe /\ ParseFloat o = Some fo /\
  (Rabs (B2R fo - B2R fe) <= (1 + bpow radix2 (-50)) * Rmax (3 / 2 * B2R tolerance) (B2R tolerance * Rmax (Rabs (B2R fe)) (Rabs (B2R fo))))%R.
Theorem C47_numeric_accepts :
  forall fold_eq tolerance parse maxTok st max_score wall_limit gs r tr (expected output : case_data -> list N),
  Grade fold_eq (tokenNumericEquals tolerance) parse maxTok st "token-numeric" max_score wall_limit gs = (r, false, tr) ->
  rr_compile_error r = false -> processes_ok gs -> (4 <= maxTok)%N -> files_are IsNumeric maxTok gs expected output -> is_finite tolerance = true ->
  (forall c cr, In (c, cr) (combine (all_cases gs) (case_results r)) ->
     mverdict (cr_meta cr) = OK /\ tokens_match IsNumeric (within tolerance) (expected c) (output c)) ->
  rr_verdict r = AC.
Proof.
  intros f t p m st M wl gs r tr expd outp HG HC HP HM HF FT H.
  destruct (C47_numeric_accepted_iff f t p m st M wl gs r tr expd outp HG HC HP HM HF) as [A _]. apply A. intros c cr I.
  destruct (H c cr I) as [O (ta & tb & TA & TB & F)]. split; [auto|]. exists ta, tb. repeat split; auto.
  eapply forall2_impl; [|exact F]. intros e o (fe & fo & E & O' & X). eapply C16_accepts; eauto.
Qed.
Theorem C47_numeric_rejects :
  forall fold_eq tolerance parse maxTok st max_score wall_limit gs r tr (expected output : case_data -> list N),
  Grade fold_eq (tokenNumericEquals tolerance) parse maxTok st "token-numeric" max_score wall_limit gs = (r, false, tr) ->
  rr_compile_error r = false -> processes_ok gs -> (4 <= maxTok)%N -> files_are IsNumeric maxTok gs expected output -> is_finite tolerance = true ->
  (bpow radix2 (-1022) <= B2R tolerance <= bpow radix2 1000)%R -> rr_verdict r = AC ->
  forall c cr, In (c, cr) (combine (all_cases gs) (case_results r)) ->
     mverdict (cr_meta cr) = OK /\ tokens_match IsNumeric (nearly_within tolerance) (expected c) (output c).
Proof.
  intros f t p m st M wl gs r tr expd outp HG HC HP HM HF FT B H c cr I.
  destruct (C47_numeric_accepted_iff f t p m st M wl gs r tr expd outp HG HC HP HM HF) as [A _]. destruct (proj1 A H c cr I) as [O (ta & tb & TA & TB & F)]. split; [auto|]. exists ta, tb. repeat split; auto.
  eapply forall2_impl; [|exact F]. intros e o E. unfold nearly_within. destruct (ParseFloat e) as [fe|] eqn:PE, (ParseFloat o) as [fo|] eqn:PO.
  - right. exists fe, fo. repeat split; auto. eapply C16_rejects; eauto.
  - exfalso. revert E. unfold tokenNumericEquals. rewrite PE, PO. discriminate.
  - exfalso. revert E. unfold tokenNumericEquals. rewrite PE, PO. discriminate.
  - auto.
Qed.

(* ---- the hypotheses are met ---- *)
Local Ltac each_case Hg Hc tac :=
  clear - Hg Hc; cbn [In] in Hg;
  repeat (destruct Hg as [<-|Hg]; [cbn [gcases In] in Hc; repeat (destruct Hc as [<-|Hc]; [tac|]); destruct Hc|]); destruct Hg.
Local Ltac fine_verdict := cbn; let a := fresh in let H := fresh in
  intros a H; repeat (destruct H as [<-|H]; [cbn; let K := fresh in intros K; cbn in K; repeat (destruct K as [K|K]; [discriminate K|]); destruct K|]); destruct H.
(* "YES 10.01" expected, "yes  10" given *)
Definition yes_gs : list group_data := [mkG "a" [ex_case "a" 1 (Procs fok) [89; 69; 83; 32; 49; 48; 46; 48; 49]%N [121; 101; 115; 32; 32; 49; 48; 46; 48; 49; 10]%N]].
Definition num_gs : list group_data := [mkG "a" [ex_case "a" 1 (Procs fok) [49; 48; 46; 48; 49; 10]%N [49; 48]%N]; mkG "b" [ex_case "b" 1 (Procs fok) [49; 48; 46; 49]%N [49; 48]%N]].
Definition case_out (c : case_data) : list N := match va_contestant (cvalid c) with Some r => contents r | None => [] end.
Definition case_exp (c : case_data) : list N := match va_expected (cvalid c) with Some r => contents r | None => [] end.
Definition sready := SReady [mkB "Main" Contestant (Some OK) false].
Lemma readable_one P bs ts : toks P bs = ts -> Forall (fun t => (lenN t + 4 <= MaxTokenLength)%N) ts -> no_stall 0 [bs] -> readable P MaxTokenLength (mkRd [bs] EEOF false).
Proof. intros E F S. split; [exact S|]. split; [reflexivity|]. cbn [chunks concat]. rewrite app_nil_r, E. exact F. Qed.
Local Ltac readable := eapply readable_one; [vm_compute; reflexivity|repeat (constructor; [vm_compute; discriminate|]); constructor|cbn; auto].
Lemma files_yes : files_are IsNonWhitespace MaxTokenLength yes_gs case_exp case_out.
Proof.
  intros c [<-|[]]. eexists. eexists. split; [reflexivity|]. split; [readable|]. split; [reflexivity|]. split; [reflexivity|]. split; [readable|reflexivity].
Qed.
Lemma files_num : files_are IsNumeric MaxTokenLength num_gs case_exp case_out.
Proof.
  intros c [<-|[<-|[]]]; eexists; eexists; (split; [reflexivity|]; split; [readable|]; split; [reflexivity|]; split; [reflexivity|]; split; [readable|reflexivity]).
Qed.
Example C47_caseless_example : exists r tr,
  Grade (EqualFold SimpleFold0) (fun _ _ => false) (fun _ => None) MaxTokenLength sready "token-caseless" 100 (B754_infinity false) yes_gs = (r, false, tr) /\
  rr_compile_error r = false /\ processes_ok yes_gs /\ files_are IsNonWhitespace MaxTokenLength yes_gs case_exp case_out /\ rr_verdict r = AC.
Proof.
  destruct (Grade (EqualFold SimpleFold0) (fun _ _ => false) (fun _ => None) MaxTokenLength sready "token-caseless" 100 (B754_infinity false) yes_gs) as [[r err] tr] eqn:E.
  assert (X : (let '(r, err, tr) := Grade (EqualFold SimpleFold0) (fun _ _ => false) (fun _ => None) MaxTokenLength sready "token-caseless" 100 (B754_infinity false) yes_gs in (err, rr_compile_error r, rr_verdict r)) = (false, false, AC)) by (vm_compute; reflexivity).
  rewrite E in X. injection X as -> X1 X2. exists r, tr. split; [reflexivity|]. split; [exact X1|]. split; [|split; [apply files_yes|exact X2]].
  intros g c Hg Hc. unfold yes_gs in Hg. each_case Hg Hc fine_verdict.
Qed.
(* "0.001" as tolerance: 10.01 is taken for 10, 10.1 is not *)
Example C47_numeric_example : exists tolerance r tr,
  ParseFloat [48; 46; 48; 48; 49]%N = Some tolerance /\ is_finite tolerance = true /\ (bpow radix2 (-1022) <= B2R tolerance <= bpow radix2 1000)%R /\
  Grade (fun _ _ => false) (tokenNumericEquals tolerance) (fun _ => None) MaxTokenLength sready "token-numeric" 100 (B754_infinity false) num_gs = (r, false, tr) /\
  rr_compile_error r = false /\ processes_ok num_gs /\ files_are IsNumeric MaxTokenLength num_gs case_exp case_out /\ case_verdicts r = [AC; WA].
Proof.
  assert (Q0 : match ParseFloat [48; 46; 48; 48; 49]%N with Some _ => true | None => false end = true) by (vm_compute; reflexivity).
  destruct (ParseFloat [48; 46; 48; 48; 49]%N) as [t|] eqn:E; [|discriminate Q0]. exists t.
  destruct (Grade (fun _ _ => false) (tokenNumericEquals t) (fun _ => None) MaxTokenLength sready "token-numeric" 100 (B754_infinity false) num_gs) as [[r err] tr] eqn:EG.
  exists r, tr.
  assert (B : exists m e B0, t = B754_finite false m e B0 /\ (-1000 <= e <= 900)%Z /\ (Z.pos m < 2 ^ 60)%Z).
  { apply (f_equal (option_map (fun t : float64 => match t with B754_finite false m e _ => ((-1000 <=? e) && (e <=? 900) && (Z.pos m <? 2 ^ 60))%Z | _ => false end))) in E.
    match type of E with ?l = _ => assert (Q : l = Some true) by (vm_compute; reflexivity) end. rewrite Q in E. cbn [option_map] in E. injection E as E.
    destruct t as [|[] | |[] m e B0]; try discriminate E. exists m, e, B0. split; [reflexivity|]. symmetry in E. apply andb_prop in E as [E X]. apply andb_prop in E as [E1 E2]. apply Z.leb_le in E1. apply Z.leb_le in E2. apply Z.ltb_lt in X. auto. }
  assert (X : (err, rr_compile_error r, case_verdicts r) = (false, false, [AC; WA])).
  { apply (f_equal (option_map (fun t => let '(r, err, tr) := Grade (fun _ _ => false) (tokenNumericEquals t) (fun _ => None) MaxTokenLength sready "token-numeric" 100 (B754_infinity false) num_gs in (err, rr_compile_error r, case_verdicts r)))) in E.
    match type of E with ?l = _ => assert (Q : l = Some (false, false, [AC; WA])) by (vm_compute; reflexivity) end. rewrite Q in E. cbn [option_map] in E. rewrite EG in E. injection E as <- <- <-. reflexivity. }
  injection X as -> X1 X2.
  split; [reflexivity|]. destruct B as (m & e & B0 & -> & EB & MB). split; [reflexivity|]. split.
  { unfold B2R. cbn [cond_Zopp]. unfold F2R. cbn [Fnum Fexp]. split.
    - apply Rle_trans with (bpow radix2 e); [apply bpow_le; lia|]. rewrite <- (Rmult_1_l (bpow radix2 e)) at 1. apply Rmult_le_compat_r; [apply bpow_ge_0|]. apply (IZR_le 1). lia.
    - apply Rle_trans with (bpow radix2 60 * bpow radix2 e)%R; [|rewrite <- bpow_plus; apply bpow_le; lia]. apply Rmult_le_compat_r; [apply bpow_ge_0|]. rewrite <- (IZR_Zpower radix2 60) by lia. apply IZR_le. change (radix_val radix2 ^ 60)%Z with (2 ^ 60)%Z. lia. }
  split; [reflexivity|]. split; [exact X1|]. split; [|split; [apply files_num|exact X2]].
  intros g c Hg Hc. unfold num_gs in Hg. each_case Hg Hc fine_verdict.
Qed.
Print Assumptions C47_caseless_accepted_iff.
Print Assumptions C47_numeric_accepted_iff.
Print Assumptions C47_numeric_accepts.
Print Assumptions C47_numeric_rejects.

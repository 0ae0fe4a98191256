(* Proofs about CalculateScore. *)
From Coq Require Import String List Arith NArith ZArith Bool QArith Lia.
From Verif Require Import TokModel TokSpec TokProofs TokScanProofs ValModel ValSpec.
Import ListNotations.

Lemma good_nonws : goodP IsNonWhitespace.
Proof. left. reflexivity. Qed.
Lemma good_numeric : goodP IsNumeric.
Proof.
  right. intros r H. unfold IsNumeric, inr.
  destruct (N.eqb_spec r 46); [lia|]. destruct (N.eqb_spec r 45); [lia|].
  destruct (N.leb_spec 48 r); cbn; auto. destruct (N.leb_spec r 57); auto. lia.
Qed.

Lemma bytes_eqb_eq a : forall b, bytes_eqb a b = true <-> a = b.
Proof.
  induction a as [|x a IH]; intros [|y b]; cbn; split; intros H; try discriminate; auto.
  - apply andb_prop in H. destruct H as [H1 H2]. apply N.eqb_eq in H1. apply IH in H2. congruence.
  - injection H as -> H. rewrite N.eqb_refl. cbn. apply IH; auto.
Qed.

Section V.
Variable maxTok : N.
Hypothesis HM : (4 <= maxTok)%N.

Notation Rep P s ts := (Rep P maxTok s ts EEOF).
Notation shorts := (Forall (short maxTok)).

Lemma compare_loop_spec P eq (HP : goodP P) n : forall ex co te tc,
  (length te < n)%nat -> Rep P ex te -> Rep P co tc -> shorts te -> shorts tc ->
  let r := compare_loop maxTok P (Some eq) n ex co in
  option_map texts (mismatch r) = first_difference eq te tc /\ verr r = None /\
  score r = match first_difference eq te tc with None => 1 | Some _ => 0 end.
Proof.
  induction n as [|n IH]; intros ex co te tc HL HE HC SE SC; [lia|]. cbn [compare_loop].
  assert (HdE : hd_short maxTok te) by (destruct te; cbn; auto; inversion SE; auto).
  assert (HdC : hd_short maxTok tc) by (destruct tc; cbn; auto; inversion SC; auto).
  pose proof (Scan_spec P maxTok HP HM ex te EEOF HE HdE) as GE.
  pose proof (Scan_spec P maxTok HP HM co tc EEOF HC HdC) as GC.
  destruct (Scan P maxTok ex) as [ex' [e|]]; destruct (Scan P maxTok co) as [co' [c|]].
  - destruct GE as (te' & -> & RE). destruct GC as (tc' & -> & RC). cbn [first_difference].
    destruct (eq e c).
    + inversion SE; inversion SC; subst. apply IH; auto. cbn in HL. lia.
    + cbn. auto.
  - destruct GE as (te' & -> & RE). destruct GC as (-> & EC & _). rewrite EC. cbn. destruct (Err ex'); auto.
  - destruct GC as (tc' & -> & RC). destruct GE as (-> & EE & _). rewrite EE. cbn. destruct (Err co'); auto.
  - destruct GE as (-> & EE & _). destruct GC as (-> & EC & _). rewrite EE, EC. cbn. auto.
Qed.

(* Full marks are only given when both streams end cleanly with equal tokens,
   whatever the readers do. *)
Lemma compare_loop_sound P eq (HP : goodP P) n : forall ex co te tc fe fc,
  TokScanProofs.Rep P maxTok ex te fe -> TokScanProofs.Rep P maxTok co tc fc ->
  let r := compare_loop maxTok P (Some eq) n ex co in
  ~ (score r == 0) ->
  score r = 1 /\ verr r = None /\ mismatch r = None /\ fe = EEOF /\ fc = EEOF /\ first_difference eq te tc = None.
Proof.
  induction n as [|n IH]; intros ex co te tc fe fc HE HC; cbn [compare_loop]; [cbn; intros H; exfalso; apply H; reflexivity|].
  pose proof (Scan_any P maxTok HP HM ex te fe HE) as GE.
  pose proof (Scan_any P maxTok HP HM co tc fc HC) as GC.
  assert (EO : forall f, errof f = None -> f = EEOF) by (intros []; cbn; congruence).
  destruct (Scan P maxTok ex) as [ex' [e|]]; destruct (Scan P maxTok co) as [co' [c|]].
  - destruct GE as (te' & -> & RE & _). destruct GC as (tc' & -> & RC & _). cbn [first_difference].
    destruct (eq e c).
    + intros H. apply (IH ex' co' te' tc' fe fc RE RC H).
    + cbn. intros H; exfalso; apply H; reflexivity.
  - cbn. destruct (Err ex'), (Err co'); cbn; intros H; exfalso; apply H; reflexivity.
  - cbn. destruct (Err ex'), (Err co'); cbn; intros H; exfalso; apply H; reflexivity.
  - cbn. destruct (Err ex') eqn:EE; cbn; [intros H; exfalso; apply H; reflexivity|].
    destruct (Err co') eqn:EC; cbn; intros H; [exfalso; apply H; reflexivity|].
    destruct GE as [[-> G1]|G1]; [|congruence]. destruct GC as [[-> G2]|G2]; [|congruence].
    repeat split; auto.
Qed.

Lemma first_difference_token te : forall tc, first_difference bytes_eqb te tc = None <-> te = tc.
Proof.
  induction te as [|e te IH]; intros [|c tc]; cbn; split; intros H; try discriminate; auto.
  - destruct (bytes_eqb e c) eqn:E; [|discriminate]. apply bytes_eqb_eq in E. apply IH in H. congruence.
  - injection H as -> H. rewrite (proj2 (bytes_eqb_eq c c)) by auto. apply IH; auto.
Qed.

Lemma first_difference_forall2 eq te : forall tc, first_difference eq te tc = None <-> Forall2 (fun e c => eq e c = true) te tc.
Proof.
  induction te as [|e te IH]; intros [|c tc]; cbn; split; intros H; try discriminate; auto.
  - inversion H.
  - inversion H.
  - destruct (eq e c) eqn:E; [|discriminate]. constructor; auto. apply IH; auto.
  - inversion H; subst. rewrite H3. apply IH; auto.
Qed.
End V.

Definition pred_of (name : string) : N -> bool :=
  if String.eqb name "token-numeric" then IsNumeric else IsNonWhitespace.
Lemma pred_good name : goodP (pred_of name).
Proof. unfold pred_of. destruct (String.eqb _ _); auto using good_nonws, good_numeric. Qed.

Definition token_validator (name : string) : Prop :=
  In name ["token"; "token-caseless"; "token-numeric"]%string.

Lemma calc_token fold_eq num_eq parse maxTok name ex co :
  token_validator name ->
  CalculateScore fold_eq num_eq parse maxTok name ex co =
  compare_loop maxTok (pred_of name) (compare fold_eq num_eq name) (S (length (concat (chunks ex)))) (new_scanner ex) (new_scanner co).
Proof. intros [<-|[<-|[<-|[]]]]; reflexivity. Qed.

Lemma cmp_some fold_eq num_eq name : token_validator name -> exists eq, compare fold_eq num_eq name = Some eq.
Proof. intros [<-|[<-|[<-|[]]]]; cbn; eauto. Qed.

Lemma score_l fold_eq num_eq parse maxTok name ex co eq :
  (4 <= maxTok)%N -> token_validator name -> compare fold_eq num_eq name = Some eq ->
  readable (pred_of name) maxTok ex -> readable (pred_of name) maxTok co ->
  let r := CalculateScore fold_eq num_eq parse maxTok name ex co in
  let d := first_difference eq (toks (pred_of name) (contents ex)) (toks (pred_of name) (contents co)) in
  option_map texts (mismatch r) = d /\ verr r = None /\ score r = match d with None => 1 | Some _ => 0 end.
Proof.
  intros HM HN HC (E1 & E2 & E3) (C1 & C2 & C3). cbn zeta. rewrite calc_token, HC by auto.
  apply compare_loop_spec; auto using pred_good.
  - pose proof (toks_length (pred_of name) maxTok HM (contents ex)). unfold contents in *. lia.
  - rewrite <- E2. apply new_Rep; auto.
  - rewrite <- C2. apply new_Rep; auto.
Qed.

Lemma score_sound_l fold_eq num_eq parse maxTok name ex co eq :
  (4 <= maxTok)%N -> token_validator name -> compare fold_eq num_eq name = Some eq ->
  no_stall 0 (chunks ex) -> no_stall 0 (chunks co) ->
  let r := CalculateScore fold_eq num_eq parse maxTok name ex co in
  ~ (score r == 0) ->
  score r = 1 /\ verr r = None /\ mismatch r = None /\ final ex = EEOF /\ final co = EEOF /\
  Forall2 (fun e c => eq e c = true) (toks (pred_of name) (contents ex)) (toks (pred_of name) (contents co)).
Proof.
  intros HM HN HC E1 C1. cbn zeta. rewrite calc_token, HC by auto. intros H.
  pose proof (compare_loop_sound maxTok HM (pred_of name) eq (pred_good name) _ (new_scanner ex) (new_scanner co) _ _ (final ex) (final co)
    (new_Rep _ _ HM ex E1) (new_Rep _ _ HM co C1) H) as G.
  rewrite first_difference_forall2 in G. exact G.
Qed.

Lemma clamp_range v : 0 <= rat_clamp v 0 1 <= 1.
Proof.
  unfold rat_clamp. destruct (Qle_bool v 0) eqn:A; [split; [apply Qle_refl|discriminate]|].
  destruct (Qle_bool 1 v) eqn:B; [split; [discriminate|apply Qle_refl]|].
  assert (~ v <= 0) as A' by (rewrite <- Qle_bool_iff; congruence).
  assert (~ 1 <= v) as B' by (rewrite <- Qle_bool_iff; congruence).
  split; apply Qlt_le_weak; apply Qnot_le_lt; auto.
Qed.
Lemma clamp_id v : 0 <= v <= 1 -> rat_clamp v 0 1 == v.
Proof.
  intros [H1 H2]. unfold rat_clamp.
  destruct (Qle_bool v 0) eqn:A; [apply Qle_bool_iff in A; apply Qle_antisym; auto|].
  destruct (Qle_bool 1 v) eqn:B; [apply Qle_bool_iff in B; apply Qle_antisym; auto|]. reflexivity.
Qed.
Lemma clamp_low v : v <= 0 -> rat_clamp v 0 1 == 0.
Proof. intros H. unfold rat_clamp. apply Qle_bool_iff in H. rewrite H. reflexivity. Qed.
Lemma clamp_high v : 1 <= v -> rat_clamp v 0 1 == 1.
Proof.
  intros H. unfold rat_clamp. destruct (Qle_bool v 0) eqn:A.
  - apply Qle_bool_iff in A. exfalso. apply (Qle_not_lt _ _ (Qle_trans _ _ _ H A)). reflexivity.
  - apply Qle_bool_iff in H. rewrite H. reflexivity.
Qed.

(* literal / custom *)
Lemma literal_l fold_eq num_eq parse maxTok name ex co :
  (4 <= maxTok)%N -> name = "literal"%string \/ name = "custom"%string ->
  no_stall 0 (chunks co) ->
  Forall (fun t => (lenN t + 4 <= maxTok)%N) (toks IsNonWhitespace (contents co)) ->
  CalculateScore fold_eq num_eq parse maxTok name ex co =
  match toks IsNonWhitespace (contents co) with
  | [] => mkV 0 None (Some VEUnexpectedEOF)
  | t :: _ => match parse t with None => mkV 0 None (Some VEParse) | Some v => mkV (rat_clamp v 0 1) None None end
  end.
Proof.
  intros HM HN HS HF.
  assert (E : CalculateScore fold_eq num_eq parse maxTok name ex co =
    match Scan IsNonWhitespace maxTok (new_scanner co) with
    | (_, None) => mkV 0 None (Some VEUnexpectedEOF)
    | (_, Some t) => match parse t with None => mkV 0 None (Some VEParse) | Some v => mkV (rat_clamp v 0 1) None None end end)
   by (destruct HN as [-> | ->]; reflexivity).
  rewrite E.
  pose proof (Scan_spec _ _ good_nonws HM _ _ _ (new_Rep IsNonWhitespace _ HM co HS)) as G.
  unfold contents in *.
  destruct (toks IsNonWhitespace (concat (chunks co))) as [|t ts].
  - specialize (G I). destruct (Scan _ _ _) as [s' [t|]]; [|reflexivity]. destruct G as (? & ? & _). discriminate.
  - inversion HF; subst. specialize (G ltac:(assumption)). destruct (Scan _ _ _) as [s' [u|]]; [|destruct G; discriminate].
    destruct G as (ts' & Q & _). injection Q as <- _. reflexivity.
Qed.

Lemma literal_range_l fold_eq num_eq parse maxTok name ex co :
  name = "literal"%string \/ name = "custom"%string ->
  let r := CalculateScore fold_eq num_eq parse maxTok name ex co in
  0 <= score r <= 1 /\ mismatch r = None /\ (verr r <> None -> score r = 0).
Proof.
  intros HN. cbn zeta.
  assert (E : CalculateScore fold_eq num_eq parse maxTok name ex co =
    match Scan IsNonWhitespace maxTok (new_scanner co) with
    | (_, None) => mkV 0 None (Some VEUnexpectedEOF)
    | (_, Some t) => match parse t with None => mkV 0 None (Some VEParse) | Some v => mkV (rat_clamp v 0 1) None None end end)
   by (destruct HN as [-> | ->]; reflexivity).
  rewrite E. destruct (Scan _ _ _) as [s' [t|]].
  - destruct (parse t); cbn; repeat split; auto; try congruence; try apply clamp_range; try discriminate; apply Qle_refl.
  - cbn. repeat split; auto; try discriminate; apply Qle_refl.
Qed.

(* the tokens that come out only depend on the contents *)
Lemma chunk_independent_l fold_eq num_eq parse maxTok name ex co ex' co' :
  (4 <= maxTok)%N -> token_validator name ->
  readable (pred_of name) maxTok ex -> readable (pred_of name) maxTok co ->
  readable (pred_of name) maxTok ex' -> readable (pred_of name) maxTok co' ->
  contents ex = contents ex' -> contents co = contents co' ->
  let r := CalculateScore fold_eq num_eq parse maxTok name ex co in
  let r' := CalculateScore fold_eq num_eq parse maxTok name ex' co' in
  score r = score r' /\ verr r = verr r' /\ option_map texts (mismatch r) = option_map texts (mismatch r').
Proof.
  intros HM HN E C E' C' HE HC. cbn zeta. destruct (cmp_some fold_eq num_eq name HN) as (eq & HQ).
  pose proof (score_l fold_eq num_eq parse maxTok name ex co eq HM HN HQ E C) as (A1 & A2 & A3).
  pose proof (score_l fold_eq num_eq parse maxTok name ex' co' eq HM HN HQ E' C') as (B1 & B2 & B3).
  rewrite A1, A2, A3, B1, B2, B3, HE, HC. auto.
Qed.

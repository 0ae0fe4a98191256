(* C13-C17, C46: the output validators. *)
From Coq Require Import String List Arith NArith ZArith Bool QArith Reals Lia Lra.
From Flocq Require Import Core IEEE754.BinarySingleNaN.
From Verif Require Import TokModel TokSpec TokProofs TokScanProofs TokPosProofs ValModel ValSpec ValProofs
  FoldModel FoldSpec FoldProofs NumModel NumSpec NumProofs NumCmpProofs NumFEProofs.
Import ListNotations.
Local Open Scope nat_scope.

(* ---- glue between the executable token list and the specification ---- *)
Lemma words_run P w cs : Forall (fun c => P (fst c) = true) w -> forall cur, words P cur (w ++ cs) = words P (cur ++ text w) cs.
Proof.
  induction 1 as [|[r b] w HP HW IH]; intros cur; cbn [app words].
  - unfold text; cbn. rewrite app_nil_r. reflexivity.
  - cbn in HP. rewrite HP, IH. unfold text. cbn. rewrite app_assoc. reflexivity.
Qed.
Lemma tokenized_words P cs ts : tokenized P cs ts -> (forall c, In c cs -> snd c <> []) -> words P [] cs = map text ts.
Proof.
  induction 1 as [|[r b] cs ts HP HT IH|w cs ts HW HP HC HT IH]; intros HN.
  - reflexivity.
  - cbn in *. rewrite HP. cbn. apply IH. auto.
  - rewrite words_run by auto. cbn [app map].
    assert (HX : text w <> []).
    { destruct w as [|c w]; [congruence|]. unfold text; cbn. intros E. apply app_eq_nil in E. apply (HN c); cbn; tauto. }
    rewrite <- IH by (intros c Hc; apply HN, in_or_app; auto).
    destruct HC as [->|([r b] & cs' & -> & Hc)]; cbn [words].
    + destruct (text w); [congruence|reflexivity].
    + cbn in Hc. rewrite Hc. destruct (text w); [congruence|reflexivity].
Qed.
Lemma tokenized_toks P bs ts : tokenized P (chars bs) ts -> toks P bs = map text ts.
Proof. intros H. apply tokenized_words; auto. intros c. apply chars_nonempty. Qed.

(* The predicate the validator uses, as in the documentation of CalculateScore. *)
Definition token_chars (name : string) : N -> bool := pred_of name.

(* ---- C14 ---- *)
(* Scanning a stream to the end yields exactly the maximal runs of token
   characters, in order, for every way the reader cuts the stream into chunks. *)
Theorem C14_tokens_are_maximal_runs :
  forall (P : N -> bool) (maxTok : N) (rd : reader) (ts : list (list (N * list N))),
  P = IsNonWhitespace \/ P = IsNumeric -> (4 <= maxTok)%N ->
  no_stall 0 (chunks rd) ->
  tokenized P (chars (contents rd)) ts ->
  Forall (fun t => (lenN (text t) + 4 <= maxTok)%N) ts ->
  map (fun x => fst (fst x)) (fst (tokenize P maxTok rd)) = map text ts /\
  snd (tokenize P maxTok rd) = match final rd with EEOF => None | e => Some e end.
Proof.
  intros P maxTok rd ts HP HM HS HT HF.
  assert (G : goodP P) by (destruct HP as [-> | ->]; [apply good_nonws|apply good_numeric]).
  apply tokenized_toks in HT. rewrite <- HT.
  destruct (tokenize_spec P maxTok G HM rd HS) as [X Y].
  { fold (contents rd). rewrite HT. apply Forall_map. exact HF. }
  split; [exact X|]. rewrite Y. destruct (final rd); reflexivity.
Qed.
Print Assumptions C14_tokens_are_maximal_runs.

(* The runs exist for every stream and no byte of the stream is outside its
   characters; a token above the limit ends the scan with ErrTooLong. *)
Theorem C14_runs_exist : forall P bs, exists ts, tokenized P (chars bs) ts /\ text (chars bs) = bs.
Proof.
  intros P bs. destruct (toks_tokenized P bs) as (ts & H & _). exists ts. split; auto. apply chars_text. auto.
Qed.
Print Assumptions C14_runs_exist.

Theorem C14_too_long :
  forall (P : N -> bool) (maxTok : N) (rd : reader) pre t post,
  P = IsNonWhitespace \/ P = IsNumeric -> (4 <= maxTok)%N -> no_stall 0 (chunks rd) ->
  tokenized P (chars (contents rd)) (pre ++ t :: post) ->
  Forall (fun t => (lenN (text t) + 4 <= maxTok)%N) pre -> (maxTok < lenN (text t))%N ->
  map (fun x => fst (fst x)) (fst (tokenize P maxTok rd)) = map text pre /\
  snd (tokenize P maxTok rd) = Some ETooLong.
Proof.
  intros P maxTok rd pre t post HP HM HS HT HF HL.
  assert (G : goodP P) by (destruct HP as [-> | ->]; [apply good_nonws|apply good_numeric]).
  apply tokenized_toks in HT. rewrite map_app in HT. cbn in HT.
  eapply tokenize_long; eauto. apply Forall_map. exact HF.
Qed.
Print Assumptions C14_too_long.

(* "ab  cd" + e-acute split in the middle of its encoding *)
Example C14_example :
  let rd := mkRd [[97; 98; 32]; [32; 99; 100; 0xC3]; []; [0xA9; 10]]%N EEOF false in
  tokenized IsNonWhitespace (chars (contents rd)) [[(97, [97]); (98, [98])]; [(99, [99]); (100, [100]); (0xE9, [0xC3; 0xA9])]]%N /\
  no_stall 0 (chunks rd) /\
  fst (tokenize IsNonWhitespace MaxTokenLength rd) = [([97; 98]%N, 1, 1); ([99; 100; 0xC3; 0xA9]%N, 1, 5)]%Z.
Proof.
  cbv zeta. split; [|split; [cbn; lia|vm_compute; reflexivity]].
  replace (chars _) with ([(97, [97]); (98, [98])] ++ (32, [32]) :: (32, [32]) :: [(99, [99]); (100, [100]); (0xE9, [0xC3; 0xA9])] ++ [(10, [10])])%N by (vm_compute; reflexivity).
  apply tk_tok; [congruence|repeat constructor| |].
  { right. eexists _, _. split; reflexivity. }
  apply tk_sep; [reflexivity|]. apply tk_sep; [reflexivity|].
  apply tk_tok; [congruence|repeat constructor| |].
  { right. eexists _, _. split; reflexivity. }
  apply tk_sep; [reflexivity|]. constructor.
Qed.

(* ---- C13 ---- *)
Theorem C13_tokens_chunk_independent :
  forall (P : N -> bool) (maxTok : N) (rd rd' : reader),
  P = IsNonWhitespace \/ P = IsNumeric -> (4 <= maxTok)%N ->
  readable P maxTok rd -> readable P maxTok rd' -> contents rd = contents rd' ->
  map (fun x => fst (fst x)) (fst (tokenize P maxTok rd)) = map (fun x => fst (fst x)) (fst (tokenize P maxTok rd')) /\
  snd (tokenize P maxTok rd) = None /\ snd (tokenize P maxTok rd') = None.
Proof.
  intros P maxTok rd rd' HP HM (A1 & A2 & A3) (B1 & B2 & B3) HC.
  assert (G : goodP P) by (destruct HP as [-> | ->]; [apply good_nonws|apply good_numeric]).
  destruct (tokenize_spec P maxTok G HM rd A1 A3) as [E1 E2]. destruct (tokenize_spec P maxTok G HM rd' B1 B3) as [E3 E4].
  rewrite E1, E2, E3, E4, A2, B2. unfold contents in HC. rewrite HC. auto.
Qed.
Print Assumptions C13_tokens_chunk_independent.

Theorem C13_score_chunk_independent :
  forall fold_eq num_eq parse maxTok name ex co ex' co',
  (4 <= maxTok)%N -> In name ["token"; "token-caseless"; "token-numeric"]%string ->
  readable (token_chars name) maxTok ex -> readable (token_chars name) maxTok co ->
  readable (token_chars name) maxTok ex' -> readable (token_chars name) maxTok co' ->
  contents ex = contents ex' -> contents co = contents co' ->
  let r := CalculateScore fold_eq num_eq parse maxTok name ex co in
  let r' := CalculateScore fold_eq num_eq parse maxTok name ex' co' in
  score r = score r' /\ verr r = verr r' /\ option_map texts (mismatch r) = option_map texts (mismatch r').
Proof. exact chunk_independent_l. Qed.
Print Assumptions C13_score_chunk_independent.

(* The literal and custom validators: the first token only. *)
Theorem C13_literal_chunk_independent :
  forall fold_eq num_eq parse maxTok name ex co ex' co',
  (4 <= maxTok)%N -> name = "literal"%string \/ name = "custom"%string ->
  readable IsNonWhitespace maxTok co -> readable IsNonWhitespace maxTok co' -> contents co = contents co' ->
  CalculateScore fold_eq num_eq parse maxTok name ex co = CalculateScore fold_eq num_eq parse maxTok name ex' co'.
Proof.
  intros f n p m name ex co ex' co' HM HN (A1 & A2 & A3) (B1 & B2 & B3) HC.
  rewrite !literal_l by auto. rewrite HC. reflexivity.
Qed.
Print Assumptions C13_literal_chunk_independent.

(* False of the code: the reported line and column of a token do depend on the
   chunking (the position saved when a chunk ends between tokens is kept for
   the next token, runner/tokenizer.go:116-119, :139-143). *)
Theorem C13_positions_refuted :
  exists rd rd' : reader, contents rd = contents rd' /\
  readable IsNonWhitespace MaxTokenLength rd /\ readable IsNonWhitespace MaxTokenLength rd' /\
  fst (tokenize IsNonWhitespace MaxTokenLength rd) = [([97]%N, 1, 1); ([98]%N, 3, 2)]%Z /\
  fst (tokenize IsNonWhitespace MaxTokenLength rd') = [([97]%N, 1, 1); ([98]%N, 2, 1)]%Z.
Proof.
  exists (mkRd [[97; 32; 10; 10; 32; 98; 10]]%N EEOF false), (mkRd [[97; 32; 10]; [10; 32; 98; 10]]%N EEOF false).
  assert (T : toks IsNonWhitespace [97; 32; 10; 10; 32; 98; 10]%N = [[97]; [98]]%N) by (vm_compute; reflexivity).
  unfold readable, contents. cbn [chunks concat app final]. rewrite T.
  split; [reflexivity|].
  assert (F : Forall (fun t => (lenN t + 4 <= MaxTokenLength)%N) [[97]; [98]]%N) by (repeat constructor; vm_compute; congruence).
  split; [cbn; auto|]. split; [cbn; auto|]. split; vm_compute; reflexivity.
Qed.
Print Assumptions C13_positions_refuted.

(* ---- C46 ---- *)
(* When the whole stream arrives with the first read (at most 4096 bytes, the
   initial buffer of bufio.Scanner), every token is reported with the line and
   column of its first character. *)
Theorem C46_positions_single_read :
  forall (P : N -> bool) (maxTok : N) (bs : list N) (fin : rerr) (eager : bool),
  (4096 < maxTok)%N -> (lenN bs <= 4096)%N ->
  located P [] (chars bs) (fst (tokenize P maxTok (mkRd [bs] fin eager))) /\
  snd (tokenize P maxTok (mkRd [bs] fin eager)) = match fin with EEOF => None | e => Some e end.
Proof.
  intros P m bs fin eag H1 H2. destruct (tokenize_one P m H1 bs fin eag H2) as [X Y]. split; [exact X|]. rewrite Y. destruct fin; reflexivity.
Qed.
Print Assumptions C46_positions_single_read.

Example C46_example :
  fst (tokenize IsNonWhitespace MaxTokenLength (mkRd [[10; 32; 97; 98; 32; 99; 10; 100]%N] EEOF true)) =
  [([97; 98]%N, 2, 2); ([99]%N, 2, 5); ([100]%N, 3, 1)]%Z.
Proof. vm_compute. reflexivity. Qed.

(* ---- C15 ---- *)
Lemma forall2_imp {A} (R R' : A -> A -> Prop) : (forall a b, R a b -> R' a b) -> forall l l', Forall2 R l l' -> Forall2 R' l l'.
Proof. intros H l l'. induction 1; constructor; auto. Qed.
Section C15.
Local Open Scope Q_scope.
(* For readable files the score is 1 with no mismatch when the token sequences
   are equal, and otherwise 0 with the first differing pair. *)
Theorem C15_token_score :
  forall fold_eq num_eq parse maxTok ex co te tc,
  (4 <= maxTok)%N ->
  readable IsNonWhitespace maxTok ex -> readable IsNonWhitespace maxTok co ->
  tokenized IsNonWhitespace (chars (contents ex)) te -> tokenized IsNonWhitespace (chars (contents co)) tc ->
  let r := CalculateScore fold_eq num_eq parse maxTok "token" ex co in
  verr r = None /\
  (map text te = map text tc -> score r = 1 /\ mismatch r = None) /\
  (map text te <> map text tc -> score r = 0 /\
     option_map texts (mismatch r) = first_difference bytes_eqb (map text te) (map text tc) /\ mismatch r <> None).
Proof.
  intros f n p m ex co te tc HM HE HC TE TC. cbn zeta.
  pose proof (score_l f n p m "token" ex co bytes_eqb HM (or_introl eq_refl) eq_refl HE HC) as G. cbn zeta in G.
  unfold pred_of in G. cbn [String.eqb Ascii.eqb Bool.eqb] in G.
  rewrite (tokenized_toks _ _ _ TE), (tokenized_toks _ _ _ TC) in G. destruct G as (G1 & G2 & G3).
  split; auto. split; intros H.
  - apply first_difference_token in H. rewrite H in *. split; auto.
    destruct (mismatch _) as [q|]; [discriminate G1|reflexivity].
  - rewrite <- first_difference_token in H. destruct (first_difference _ _ _) as [q|] eqn:E; [|congruence]. split; auto.
    split; auto. destruct (mismatch _); [discriminate|discriminate G1].
Qed.
Print Assumptions C15_token_score.

Theorem C15_caseless_score :
  forall canon SimpleFold num_eq parse maxTok ex co te tc,
  simple_fold_for canon SimpleFold -> ascii_case canon ->
  (4 <= maxTok)%N ->
  readable IsNonWhitespace maxTok ex -> readable IsNonWhitespace maxTok co ->
  tokenized IsNonWhitespace (chars (contents ex)) te -> tokenized IsNonWhitespace (chars (contents co)) tc ->
  let r := CalculateScore (EqualFold SimpleFold) num_eq parse maxTok "token-caseless" ex co in
  verr r = None /\ (score r = 1 \/ score r = 0) /\
  (score r = 1 <-> Forall2 (same_caseless canon) (map text te) (map text tc)) /\
  (score r = 1 <-> mismatch r = None) /\
  option_map texts (mismatch r) = first_difference (EqualFold SimpleFold) (map text te) (map text tc).
Proof.
  intros canon SF n p m ex co te tc HS HA HM HE HC TE TC. cbn zeta.
  pose proof (score_l (EqualFold SF) n p m "token-caseless" ex co (EqualFold SF) HM (or_intror (or_introl eq_refl)) eq_refl HE HC) as G. cbn zeta in G.
  unfold pred_of in G. change (String.eqb "token-caseless" "token-numeric") with false in G. cbv iota in G.
  rewrite (tokenized_toks _ _ _ TE), (tokenized_toks _ _ _ TC) in G. destruct G as (G1 & G2 & G3).
  assert (EQ : first_difference (EqualFold SF) (map text te) (map text tc) = None <-> Forall2 (same_caseless canon) (map text te) (map text tc)).
  { rewrite first_difference_forall2. split; apply forall2_imp; intros a b; apply EqualFold_spec; auto. }
  rewrite <- EQ. rewrite G3.
  destruct (first_difference _ _ _) as [q|] eqn:E.
  - repeat split; auto; try discriminate. intros H; rewrite H in G1; discriminate.
  - repeat split; auto. intros _. destruct (mismatch _); [discriminate G1|reflexivity].
Qed.
Print Assumptions C15_caseless_score.

(* Whatever the readers do (errors, oversized tokens), a non-zero score is only
   ever 1, given without error and only when both files were read to the end and
   their tokens match. *)
Theorem C15_no_undeserved_score :
  forall fold_eq num_eq parse maxTok name eq ex co te tc,
  (4 <= maxTok)%N -> In name ["token"; "token-caseless"; "token-numeric"]%string ->
  compare fold_eq num_eq name = Some eq ->
  no_stall 0 (chunks ex) -> no_stall 0 (chunks co) ->
  tokenized (token_chars name) (chars (contents ex)) te -> tokenized (token_chars name) (chars (contents co)) tc ->
  let r := CalculateScore fold_eq num_eq parse maxTok name ex co in
  ~ (score r == 0) ->
  score r = 1 /\ verr r = None /\ mismatch r = None /\ final ex = EEOF /\ final co = EEOF /\
  Forall2 (fun e c => eq e c = true) (map text te) (map text tc).
Proof.
  intros f n p m name eq ex co te tc HM HN HC E1 C1 TE TC. cbn zeta.
  rewrite <- (tokenized_toks _ _ _ TE), <- (tokenized_toks _ _ _ TC). apply score_sound_l; auto.
Qed.
Print Assumptions C15_no_undeserved_score.

(* Layout: token contents are all that matters. *)
Corollary C15_layout_irrelevant :
  forall fold_eq num_eq parse maxTok ex co te,
  (4 <= maxTok)%N -> readable IsNonWhitespace maxTok ex -> readable IsNonWhitespace maxTok co ->
  tokenized IsNonWhitespace (chars (contents ex)) te ->
  (exists tc, tokenized IsNonWhitespace (chars (contents co)) tc /\ map text tc = map text te) ->
  score (CalculateScore fold_eq num_eq parse maxTok "token" ex co) = 1.
Proof.
  intros f n p m ex co te HM HE HC TE (tc & TC & E).
  destruct (C15_token_score f n p m ex co te tc HM HE HC TE TC) as (_ & H & _). apply H. auto.
Qed.
Print Assumptions C15_layout_irrelevant.

Lemma readable_small bs maxTok fin : (lenN bs + 4 <= maxTok)%N -> fin = EEOF -> readable IsNonWhitespace maxTok (mkRd [bs] fin false).
Proof.
  intros H ->. unfold readable. cbn [chunks concat final]. rewrite app_nil_r. split; [destruct bs; cbn; auto; lia|]. split; auto.
  apply Forall_forall. intros t Ht.
  pose proof (toks_sub IsNonWhitespace maxTok ltac:(unfold lenN in H; lia) bs t Ht). unfold lenN in *. lia.
Qed.

(* "Yes 12" against "yes\n12 \n" *)
Example C15_example :
  let ex := mkRd [[89; 101; 115; 32; 49; 50]%N] EEOF false in
  let co := mkRd [[121; 101; 115; 10; 49; 50; 32; 10]%N] EEOF false in
  readable IsNonWhitespace MaxTokenLength ex /\ readable IsNonWhitespace MaxTokenLength co /\
  score (CalculateScore (EqualFold SimpleFold0) (fun _ _ => false) (fun _ => None) MaxTokenLength "token-caseless" ex co) = 1 /\
  score (CalculateScore (EqualFold SimpleFold0) (fun _ _ => false) (fun _ => None) MaxTokenLength "token" ex co) = 0 /\
  simple_fold_for canon0 SimpleFold0 /\ ascii_case canon0.
Proof.
  cbv zeta. split; [apply readable_small; auto; vm_compute; congruence|]. split; [apply readable_small; auto; vm_compute; congruence|].
  split; [vm_compute; reflexivity|]. split; [vm_compute; reflexivity|]. exact fold0_ok.
Qed.

(* False of the code: under token-caseless two different non-letters can be
   "equal up to case": distinct invalid UTF-8 bytes compare equal. *)
Theorem C15_caseless_bytes_refuted :
  exists ex co : reader,
  readable IsNonWhitespace MaxTokenLength ex /\ readable IsNonWhitespace MaxTokenLength co /\
  contents ex = [0x80]%N /\ contents co = [0xFF]%N /\
  forall SimpleFold num_eq parse,
  score (CalculateScore (EqualFold SimpleFold) num_eq parse MaxTokenLength "token-caseless" ex co) = 1.
Proof.
  exists (mkRd [[0x80]%N] EEOF false), (mkRd [[0xFF]%N] EEOF false).
  split; [apply readable_small; auto; vm_compute; congruence|]. split; [apply readable_small; auto; vm_compute; congruence|].
  split; [reflexivity|]. split; [reflexivity|]. intros. vm_compute. reflexivity.
Qed.
Print Assumptions C15_caseless_bytes_refuted.

(* An unknown validator gives no score, unless neither file has a token. *)
Theorem C15_unknown :
  forall fold_eq num_eq parse maxTok name ex co te tc,
  (4 <= maxTok)%N -> ~ In name ["token"; "token-caseless"; "token-numeric"; "literal"; "custom"]%string ->
  no_stall 0 (chunks ex) -> no_stall 0 (chunks co) ->
  tokenized IsNonWhitespace (chars (contents ex)) te -> tokenized IsNonWhitespace (chars (contents co)) tc ->
  let r := CalculateScore fold_eq num_eq parse maxTok name ex co in
  score r == 0 \/ score r = 1 /\ te = [] /\ tc = [].
Proof.
  intros f n p m name ex co te tc HM HN E1 C1 TE TC. cbn zeta.
  assert (NE : forall x, In x ["token"; "token-caseless"; "token-numeric"; "literal"; "custom"]%string -> String.eqb name x = false).
  { intros x Hx. apply String.eqb_neq. intros ->. contradiction. }
  pose proof (C15_no_undeserved_score (fun _ _ => false) n p m "token-caseless" (fun _ _ => false) ex co te tc HM (or_intror (or_introl eq_refl)) eq_refl E1 C1 TE TC) as G.
  cbv zeta in G. revert G. unfold CalculateScore, compare. rewrite !(NE _) by (cbn; tauto).
  cbn [String.eqb Ascii.eqb Bool.eqb orb compare_loop].
  destruct (Scan _ _ _) as [ex' [e|]]; destruct (Scan _ _ _) as [co' [c|]]; intros G; [left; reflexivity| | |].
  all: match goal with |- score ?x == 0 \/ _ => destruct (Qeq_dec (score x) 0) as [Z|Z]; [left; exact Z|right; destruct (G Z) as (S1 & _ & _ & _ & _ & F); split; [exact S1|]] end.
  all: destruct te, tc; cbn [map] in F; inversion F; try discriminate; auto.
Qed.
Print Assumptions C15_unknown.

(* False of the code: an unknown validator name is only rejected once a pair of
   tokens is compared; on two empty outputs it gives full marks. *)
Theorem C15_unknown_validator_refuted :
  exists (name : string) (ex co : reader), name = "typo"%string /\ forall fold_eq num_eq parse,
  let r := CalculateScore fold_eq num_eq parse MaxTokenLength name ex co in score r = 1 /\ verr r = None.
Proof.
  exists "typo"%string, (mkRd [] EEOF false), (mkRd [] EEOF false). split; [reflexivity|]. intros. vm_compute. auto.
Qed.
Print Assumptions C15_unknown_validator_refuted.
End C15.

(* ---- C16 ---- *)
Section C16.
Local Open Scope R_scope.
Notation "'finite' x" := (BinarySingleNaN.is_finite x = true) (at level 9, x at level 8).

Theorem C16_reflexive : forall tolerance a, tokenNumericEquals tolerance a a = true.
Proof.
  intros t a. unfold tokenNumericEquals. pose proof (parse_spec a) as G. destruct (ParseFloat a) as [f|]; [|reflexivity].
  unfold float_equals. rewrite Beqb_correct by tauto. rewrite Req_bool_true by auto. reflexivity.
Qed.
Print Assumptions C16_reflexive.

Theorem C16_symmetric : forall tolerance a b, finite tolerance ->
  tokenNumericEquals tolerance a b = tokenNumericEquals tolerance b a.
Proof.
  intros t a b HT. unfold tokenNumericEquals. pose proof (parse_spec a) as A. pose proof (parse_spec b) as B.
  destruct (ParseFloat a) as [f|], (ParseFloat b) as [g|]; auto.
  rewrite !float_equals_FE by tauto. apply FE_sym.
Qed.
Print Assumptions C16_symmetric.

Theorem C16_monotone : forall tolerance tolerance' a b, finite tolerance -> finite tolerance' ->
  B2R tolerance <= B2R tolerance' ->
  tokenNumericEquals tolerance a b = true -> tokenNumericEquals tolerance' a b = true.
Proof.
  intros t t' a b HT HT' HL. unfold tokenNumericEquals. pose proof (parse_spec a) as A. pose proof (parse_spec b) as B.
  destruct (ParseFloat a) as [f|], (ParseFloat b) as [g|]; auto.
  rewrite !float_equals_FE by tauto. apply FE_mono; auto.
Qed.
Print Assumptions C16_monotone.

(* Parsing is correctly rounded decimal reading. *)
Theorem C16_parse : forall t,
  match ParseFloat t with
  | Some f => finite f /\ exists v, decimal t v /\ Rabs (nearest v) < max_finite_bound /\ B2R f = nearest v
  | None => forall v, decimal t v -> max_finite_bound <= Rabs (nearest v)
  end.
Proof. exact parse_spec. Qed.
Print Assumptions C16_parse.

(* Completeness: two numbers within 1.5 * tolerance of each other, or within
   the relative tolerance, are accepted. *)
Theorem C16_accepts : forall tolerance a b fa fb,
  finite tolerance -> ParseFloat a = Some fa -> ParseFloat b = Some fb ->
  Rabs (B2R fb - B2R fa) <= 3 / 2 * B2R tolerance \/
  (bpow radix2 (-1022) <= B2R tolerance <= 1 / 2 /\
   Rabs (B2R fb - B2R fa) <= B2R tolerance * Rmax (Rabs (B2R fa)) (Rabs (B2R fb))) ->
  tokenNumericEquals tolerance a b = true.
Proof.
  intros t a b fa fb HT HA HB H. unfold tokenNumericEquals. pose proof (parse_spec a) as A. pose proof (parse_spec b) as B.
  rewrite HA, HB in *. rewrite float_equals_FE by tauto.
  destruct H as [H|[H1 H2]]; [apply FE_abs; auto|].
  apply FE_rel; auto; try apply B2R_lt; apply (generic_format_B2R prec emax).
Qed.
Print Assumptions C16_accepts.

(* Soundness: an accepted pair is within these bounds up to a relative 2^-50 of
   floating-point rounding. *)
Theorem C16_rejects : forall tolerance a b fa fb,
  finite tolerance -> bpow radix2 (-1022) <= B2R tolerance <= bpow radix2 1000 ->
  ParseFloat a = Some fa -> ParseFloat b = Some fb ->
  tokenNumericEquals tolerance a b = true ->
  Rabs (B2R fb - B2R fa) <= (1 + bpow radix2 (-50)) * Rmax (3 / 2 * B2R tolerance) (B2R tolerance * Rmax (Rabs (B2R fa)) (Rabs (B2R fb))).
Proof.
  intros t a b fa fb HT [H1 H2] HA HB. unfold tokenNumericEquals. pose proof (parse_spec a) as A. pose proof (parse_spec b) as B.
  rewrite HA, HB in *. rewrite float_equals_FE by tauto. intros H.
  replace (bpow radix2 (-50)) with (8 * u). { apply FE_sound; auto. }
  unfold u. change (bpow radix2 (-50)) with (/ IZR (2 ^ 50)). change (2 ^ 50)%Z with 1125899906842624%Z. lra.
Qed.
Print Assumptions C16_rejects.

(* With tolerance zero exactly the equal float64 numbers are accepted. *)
Theorem C16_zero_tolerance : forall tolerance a b fa fb,
  finite tolerance -> B2R tolerance = 0 ->
  ParseFloat a = Some fa -> ParseFloat b = Some fb ->
  (tokenNumericEquals tolerance a b = true <-> B2R fa = B2R fb).
Proof.
  intros t a b fa fb HT HZ HA HB. unfold tokenNumericEquals. pose proof (parse_spec a) as A. pose proof (parse_spec b) as B.
  rewrite HA, HB in *. rewrite float_equals_FE by tauto. rewrite HZ. split.
  - apply FE_zero; try apply B2R_lt; apply (generic_format_B2R prec emax).
  - intros ->. apply FE_refl.
Qed.
Print Assumptions C16_zero_tolerance.

(* A number and a non-number never match. *)
Theorem C16_mixed : forall tolerance a b,
  (ParseFloat a = None /\ ParseFloat b <> None) \/ (ParseFloat a <> None /\ ParseFloat b = None) ->
  tokenNumericEquals tolerance a b = false.
Proof.
  intros t a b H. unfold tokenNumericEquals. destruct (ParseFloat a), (ParseFloat b), H as [[H1 H2]|[H1 H2]]; congruence.
Qed.

(* "0.001" as tolerance: 1.001 ~ 1, 10.01 ~ 10, 10.1 !~ 10 *)
Example C16_example :
  exists t, ParseFloat [48; 46; 48; 48; 49]%N = Some t /\
  tokenNumericEquals t [49; 46; 48; 48; 49]%N [49]%N = true /\
  tokenNumericEquals t [49; 48]%N [49; 48; 46; 48; 49]%N = true /\
  tokenNumericEquals t [49; 48]%N [49; 48; 46; 49]%N = false.
Proof.
  assert (Q0 : match ParseFloat [48; 46; 48; 48; 49]%N with Some _ => true | None => false end = true) by (vm_compute; reflexivity).
  destruct (ParseFloat [48; 46; 48; 48; 49]%N) as [t|] eqn:E; [|discriminate Q0].
  exists t. split; [reflexivity|]. apply (f_equal (option_map (fun t => (tokenNumericEquals t [49; 46; 48; 48; 49]%N [49]%N, tokenNumericEquals t [49; 48]%N [49; 48; 46; 48; 49]%N, tokenNumericEquals t [49; 48]%N [49; 48; 46; 49]%N)))) in E.
  match type of E with ?l = _ => assert (Q : l = Some (true, true, false)) by (vm_compute; reflexivity) end.
  rewrite Q in E. cbn [option_map] in E. injection E as <- <- <-. auto.
Qed.

(* False of the code: two malformed tokens always match, and so do two
   different numbers that both overflow float64. *)
(* What is not a number is never taken for one that is. *)
Definition number (t : list N) : Prop := exists v, decimal t v /\ Rabs (nearest v) < max_finite_bound.
Theorem C16_number_or_not : forall tolerance a b, tokenNumericEquals tolerance a b = true -> (number a <-> number b).
Proof.
  intros t a b. unfold tokenNumericEquals. pose proof (parse_spec a) as A. pose proof (parse_spec b) as B.
  assert (N : forall x, match ParseFloat x with Some f => finite f /\ exists v, decimal x v /\ Rabs (nearest v) < max_finite_bound /\ B2R f = nearest v | None => forall v, decimal x v -> max_finite_bound <= Rabs (nearest v) end ->
    (number x <-> ParseFloat x <> None)).
  { intros x. destruct (ParseFloat x) as [f|].
    - intros (_ & v & D & L & _). split; [discriminate|]. intros _. exists v. auto.
    - intros H. split; [|congruence]. intros (v & D & L). specialize (H v D). lra. }
  apply N in A. apply N in B. destruct (ParseFloat a), (ParseFloat b); intros H; try discriminate; rewrite A, B; split; intros; congruence.
Qed.
Print Assumptions C16_number_or_not.
Theorem C16_malformed_refuted : forall tolerance,
  tokenNumericEquals tolerance [49; 46; 46; 50]%N [45; 45]%N = true /\
  tokenNumericEquals tolerance (repeat 57%N 400) (49%N :: repeat 48%N 400) = true.
Proof.
  intros t. unfold tokenNumericEquals.
  assert (ParseFloat [49; 46; 46; 50]%N = None) as -> by (vm_compute; reflexivity).
  assert (ParseFloat [45; 45]%N = None) as -> by (vm_compute; reflexivity).
  assert (ParseFloat (repeat 57%N 400) = None) as -> by (vm_compute; reflexivity).
  assert (ParseFloat (49%N :: repeat 48%N 400) = None) as -> by (vm_compute; reflexivity). auto.
Qed.
Print Assumptions C16_malformed_refuted.
End C16.

(* ---- C17 ---- *)
Section C17.
Local Open Scope Q_scope.
Theorem C17_range :
  forall fold_eq num_eq parse maxTok name ex co,
  name = "literal"%string \/ name = "custom"%string ->
  let r := CalculateScore fold_eq num_eq parse maxTok name ex co in
  0 <= score r <= 1 /\ mismatch r = None /\ (verr r <> None -> score r = 0).
Proof. exact literal_range_l. Qed.
Print Assumptions C17_range.

Theorem C17_value :
  forall fold_eq num_eq parse maxTok name ex co ts,
  (4 <= maxTok)%N -> name = "literal"%string \/ name = "custom"%string ->
  readable IsNonWhitespace maxTok co -> tokenized IsNonWhitespace (chars (contents co)) ts ->
  let r := CalculateScore fold_eq num_eq parse maxTok name ex co in
  match ts with
  | [] => score r = 0 /\ verr r = Some VEUnexpectedEOF
  | t :: _ =>
    match parse (text t) with
    | None => score r = 0 /\ verr r = Some VEParse
    | Some v => verr r = None /\ (0 <= v <= 1 -> score r == v) /\ (v <= 0 -> score r == 0) /\ (1 <= v -> score r == 1)
    end
  end.
Proof.
  intros f n p m name ex co ts HM HN (A1 & A2 & A3) HT. cbn zeta.
  rewrite literal_l by auto. rewrite (tokenized_toks _ _ _ HT). destruct ts as [|t ts]; cbn [map]; [auto|].
  destruct (p (text t)); cbn; auto using clamp_id, clamp_low, clamp_high.
Qed.
Print Assumptions C17_value.

Example C17_example :
  let co := mkRd [[32; 120; 10]%N] EEOF false in
  readable IsNonWhitespace MaxTokenLength co /\
  score (CalculateScore (fun _ _ => true) (fun _ _ => true) (fun t => if bytes_eqb t [120%N] then Some (3 # 2) else None) MaxTokenLength "custom" co co) = 1.
Proof. cbv zeta. split; [apply readable_small; auto; vm_compute; congruence|vm_compute; reflexivity]. Qed.
End C17.

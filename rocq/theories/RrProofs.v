From Coq Require Import String Ascii List Arith NArith ZArith QArith Bool Lia.
From Verif Require Import TrcModel TrcProofs TokModel Utf8Spec Utf8Props RrModel RrSpec.
Import ListNotations.

(* ---- text ---- *)
Lemma clean_bytes_cleaned : forall n b, (length b <= n)%nat -> cleaned b (clean_bytes n b).
Proof.
  induction n as [|n IH]; intros b L. { destruct b; [constructor|cbn in L; lia]. }
  destruct b as [|x b]; [constructor|]. cbn [clean_bytes].
  destruct (decode_sound x b) as [D|(r & rest & S & E)].
  - assert (NR : (forall r b1, scalar r -> x :: b <> (utf8 r ++ b1)%list) \/ exists r b1, scalar r /\ x :: b = (utf8 r ++ b1)%list).
    { destruct (decode (x :: b)) as [r w] eqn:Dd. injection D as -> ->. left. intros r b1 S E. rewrite E, (decode_utf8 r b1 S) in Dd. injection Dd as E1 E2.
      subst r. discriminate E2. }
    destruct NR as [NR|(r & b1 & S & E)].
    + rewrite D. cbn [N.eqb Nat.eqb andb]. change ((RuneError =? RuneError)%N && (1 =? 1)%nat) with true. cbv iota. cbn [skipn].
      apply (cleaned_byte x b); [exact NR|]. apply IH. cbn in L. lia.
    + rewrite E, (decode_utf8 r b1 S) in D. injection D as -> E2. discriminate E2.
  - rewrite E, (decode_utf8 r rest S).
    assert (NE : (r =? RuneError)%N && (length (utf8 r) =? 1)%nat = false).
    { destruct (N.eqb_spec r RuneError) as [->|]; reflexivity. }
    rewrite NE. rewrite firstn_app, Nat.sub_diag, firstn_all, skipn_app, Nat.sub_diag, skipn_all. cbn [firstn skipn app]. rewrite app_nil_r.
    apply cleaned_char; [auto|]. apply IH. assert (LL : length (x :: b) = length (utf8 r ++ rest)) by (rewrite E; auto). rewrite app_length in LL.
    assert (0 < length (utf8 r))%nat by (unfold utf8; repeat destruct (_ <? _)%N; cbn; lia). lia.
Qed.
Lemma utf8_small r : scalar r -> Forall (fun x => (x < 256)%N) (utf8 r).
Proof.
  intros S. unfold scalar in S. unfold utf8.
  destruct (N.ltb_spec r 0x80); [|destruct (N.ltb_spec r 0x800); [|destruct (N.ltb_spec r 0x10000)]];
  repeat constructor; zify; Z.to_euclidean_division_equations; lia.
Qed.
Lemma scalar_fffd : scalar 0xFFFD. Proof. unfold scalar. lia. Qed.
Lemma cleaned_small b b' : cleaned b b' -> Forall (fun x => (x < 256)%N) b'.
Proof. induction 1; [constructor| |]; apply Forall_app; split; auto using utf8_small, scalar_fffd. Qed.
Lemma bytes_string b : Forall (fun x => (x < 256)%N) b -> bytes_of (string_of b) = b.
Proof.
  intros F. unfold bytes_of, string_of. rewrite list_ascii_of_string_of_list_ascii, map_map. rewrite <- (map_id b) at 2. apply map_ext_in.
  intros x I. apply N_ascii_embedding. rewrite Forall_forall in F. apply F, I.
Qed.
Lemma string_bytes s : string_of (bytes_of s) = s.
Proof.
  unfold bytes_of, string_of. rewrite map_map. rewrite <- (string_of_list_ascii_of_string s) at 2. f_equal.
  rewrite <- (map_id (list_ascii_of_string s)) at 2. apply map_ext. intros a. apply ascii_N_embedding.
Qed.
Lemma bytes_length s : length (bytes_of s) = String.length s.
Proof. unfold bytes_of. rewrite map_length. induction s; cbn; auto. Qed.
Lemma clean_text s : text s (clean s).
Proof.
  unfold text, clean. pose proof (clean_bytes_cleaned (String.length s) (bytes_of s)) as C. rewrite bytes_length in C. specialize (C (le_n _)).
  rewrite bytes_string; eauto using cleaned_small.
Qed.
Lemma cleaned_unique b b1 : cleaned b b1 -> forall b2, cleaned b b2 -> b1 = b2.
Proof.
  assert (U : forall r r' b b', scalar r -> scalar r' -> (utf8 r ++ b = utf8 r' ++ b')%list -> r = r' /\ b = b').
  { intros r r' c c' S S' E. pose proof (decode_utf8 r c S) as D. rewrite E, (decode_utf8 r' c' S') in D. injection D as -> _.
    split; [auto|]. apply app_inv_head in E. auto. }
  assert (NN : forall r c, (utf8 r ++ c)%list <> []) by (intros r c; unfold utf8; repeat destruct (_ <? _)%N; discriminate).
  induction 1 as [|r b b' S C IH|x b b' NB C IH]; intros b2 C2.
  - inversion C2 as [E|r c c' S C' E|]; [auto|]. exfalso. eapply NN; eauto.
  - inversion C2 as [E|r' c c' S' C' E|x c c' NB C' E]; subst.
    + exfalso. eapply NN; eauto.
    + apply U in E; auto. destruct E as [-> ->]. f_equal. auto.
    + elim (NB r b); auto.
  - inversion C2 as [|r' c c' S' C' E|x' c c' NB' C' E]; subst.
    + elim (NB r' c); auto.
    + f_equal. auto.
Qed.
Lemma text_clean s s' : text s s' -> s' = clean s.
Proof. intros T. rewrite <- (string_bytes s'), <- (string_bytes (clean s)). f_equal. eapply cleaned_unique; [exact T|apply clean_text]. Qed.
Lemma cleaned_chars rs : Forall scalar rs -> cleaned (concat (map utf8 rs)) (concat (map utf8 rs)).
Proof. induction 1; cbn; [constructor|apply cleaned_char; auto]. Qed.
Lemma cleaned_valid b b' : cleaned b b' -> exists rs, Forall scalar rs /\ b' = concat (map utf8 rs).
Proof.
  induction 1 as [|r b b' S C (rs & F & E)|x b b' NB C (rs & F & E)].
  - exists []. auto.
  - exists (r :: rs). cbn. rewrite E. auto.
  - exists (0xFFFD%N :: rs). cbn [map concat]. rewrite E. auto using scalar_fffd.
Qed.
Lemma text_same s : text s s <-> valid s.
Proof.
  split; [apply cleaned_valid|]. intros (rs & F & E). unfold text. rewrite E. apply cleaned_chars, F.
Qed.
Lemma clean_valid s : valid s -> clean s = s.
Proof. intros V. symmetry. apply text_clean, text_same, V. Qed.

(* ---- monads ---- *)
Lemma bind_ok {A B} (x : outcome A) (f : A -> outcome B) b : bind x f = Ok b -> exists a, x = Ok a /\ f a = Ok b.
Proof. destruct x; cbn; intros E; try discriminate. eauto. Qed.
Lemma bind_crash {A B} (x : outcome A) (f : A -> outcome B) : bind x f = Crash -> x = Crash \/ exists a, x = Ok a /\ f a = Crash.
Proof. destruct x; cbn; intros E; try discriminate; eauto. Qed.
Lemma obind_some {A B} (x : option A) (f : A -> option B) b : obind x f = Some b -> exists a, x = Some a /\ f a = Some b.
Proof. destruct x; cbn; intros E; try discriminate. eauto. Qed.
Ltac oks := repeat match goal with H : bind _ _ = Ok _ |- _ => let a := fresh "a" in let E := fresh "E" in apply bind_ok in H; destruct H as (a & E & H) end;
  repeat match goal with H : Ok _ = Ok _ |- _ => injection H as <- end.
Ltac somes := repeat match goal with H : obind _ _ = Some _ |- _ => let a := fresh "a" in let E := fresh "E" in apply obind_some in H; destruct H as (a & E & H) end;
  repeat match goal with H : Some _ = Some _ |- _ => injection H as <- end.

Definition good {A} (x : outcome A) : Prop := exists a, x = Ok a.
Lemma good_bind {A B} (x : outcome A) (f : A -> outcome B) : good (bind x f) <-> exists a, x = Ok a /\ good (f a).
Proof.
  split.
  - intros (b & E). apply bind_ok in E. destruct E as (a & E & F). exists a. split; [auto|exists b; auto].
  - intros (a & -> & b & E). exists b. auto.
Qed.
Lemma good_ok {A} (a : A) : good (Ok a) <-> True. Proof. unfold good. split; eauto. Qed.
Lemma good_then {A B} (x : outcome A) (f : A -> outcome B) P : (forall a, good (f a) <-> P) -> (good (bind x f) <-> good x /\ P).
Proof. intros H. rewrite good_bind. unfold good at 2. split; [intros (a & E & G)|intros ((a & E) & HP)]; firstorder. Qed.
Lemma Forall_flat_map {A B} (P : B -> Prop) (f : A -> list B) l : Forall P (flat_map f l) <-> Forall (fun a => Forall P (f a)) l.
Proof. induction l; cbn; [split; auto|]. rewrite Forall_app, IHl, Forall_cons_iff. tauto. Qed.
Lemma Forall_both {A} (P R : A -> Prop) l : Forall (fun a => P a /\ R a) l <-> Forall P l /\ Forall R l.
Proof. rewrite !Forall_forall. firstorder. Qed.
Lemma Forall3 {A} (P : A -> Prop) a b c l : Forall P ([a; b; c] ++ l) <-> P a /\ P b /\ P c /\ Forall P l.
Proof.
  cbn. split; [intros F; inversion F as [|? ? ? F1]; inversion F1 as [|? ? ? F2]; inversion F2; auto|intros (? & ? & ? & ?); auto].
Qed.
Ltac foralls := repeat match goal with
  | H : Forall _ (_ :: _) |- _ => apply Forall_cons_iff in H; destruct H
  | H : Forall _ (_ ++ _) |- _ => apply Forall_app in H; destruct H
  end.
Local Arguments as_int64 : simpl never.
Local Arguments as_uint64 : simpl never.
Local Arguments as_byte : simpl never.
Local Arguments as_float : simpl never.
Local Arguments clean : simpl never.
Section Wire.
Context {flt : Type} (zero : flt) (show : flt -> option json) (read : json -> option flt) (show_byte : Z -> json) (read_byte : Z -> json -> option Z)
  (to_float : Q -> flt) (to_rational : flt -> Q) (equal_fold : string -> string -> bool).
Notation enc_float := (RrModel.enc_float flt show).
Notation enc_meta := (RrModel.enc_meta flt show show_byte).
Notation enc_metas := (RrModel.enc_metas flt show show_byte).
Notation enc_map := (RrModel.enc_map flt show show_byte).
Notation enc_case := (RrModel.enc_case flt show show_byte to_float).
Notation enc_group := (RrModel.enc_group flt show show_byte to_float).
Notation enc_result := (RrModel.enc_result flt show show_byte to_float).
Notation enc_run := (RrModel.enc_run flt show to_float).
Notation dec_meta := (RrModel.dec_meta flt read read_byte equal_fold).
Notation dec_metas := (RrModel.dec_metas flt zero read read_byte equal_fold).
Notation as_metas := (RrModel.as_metas flt zero read read_byte equal_fold).
Notation dec_case := (RrModel.dec_case flt zero read read_byte to_rational equal_fold).
Notation dec_group := (RrModel.dec_group flt zero read read_byte to_rational equal_fold).
Notation dec_result := (RrModel.dec_result flt zero read read_byte to_rational equal_fold).
Notation dec_run := (RrModel.dec_run flt zero read to_rational equal_fold).
Notation RationalToFloat := (RrModel.RationalToFloat flt to_float).
Notation meta0 := (RrModel.meta0 flt zero).
Notation case0 := (RrModel.case0 flt zero).
Notation group0 := (RrModel.group0 flt).
Notation result0 := (RrModel.result0 flt zero).

(* ---- round trips ---- *)
Section RoundTrip.
Hypothesis FR : floats_round_trip show read.
Hypothesis BR : bytes_round_trip show_byte read_byte.
Lemma as_float_show f j old : enc_float f = Ok j -> as_float flt read old j = Some f.
Proof.
  unfold RrModel.enc_float. destruct (show f) eqn:E; [|discriminate]. intros [= ->]. destruct (FR _ _ E) as [N R]. unfold as_float. destruct j; auto. congruence.
Qed.
Lemma as_int64_ok z old : int64 z -> as_int64 old (JInt z) = Some z.
Proof. intros I. unfold as_int64, int64 in *. replace ((- 2 ^ 63 <=? z)%Z && (z <? 2 ^ 63)%Z) with true; auto. symmetry. lia. Qed.
Lemma meta_round_trip m j old : meta_ok m -> enc_meta m = Ok j -> old = meta0 -> exists m', dec_meta old j = Some m' /\ meta_arrives m m'.
Proof.
  intros [IE IM] E ->. unfold RrModel.enc_meta in E. oks.
  assert (M : as_byte read_byte 0 (show_byte (m_Memory m)) = Some (m_Memory m)) by (apply BR; auto).
  cbn [RrModel.dec_meta m_Verdict m_ExitStatus m_Time m_SystemTime m_WallTime m_Memory m_Signal m_Syscall RrModel.meta0].
  destruct (Z.eqb_spec (m_ExitStatus m) 0) as [Z|NZ]; destruct (m_Signal m) as [si|] eqn:Si; destruct (m_Syscall m) as [sy|] eqn:Sy;
    cbn; erewrite !as_float_show by eassumption; cbn; rewrite ?M; cbn; rewrite ?as_int64_ok by auto; cbn; eexists; (split; [reflexivity|]);
    unfold meta_arrives; cbn; rewrite ?Si, ?Sy; cbn; auto 20 using clean_text.
Qed.
Lemma metas_round_trip l : NoDup (map fst l) -> (forall k x, In (k, x) l -> valid k /\ meta_ok x) -> forall j, enc_metas l = Ok j ->
  forall m0, exists l', dec_metas m0 j = Some l' /\
  (forall k, get l k = None -> get l' k = get m0 k) /\ (forall k x, get l k = Some x -> exists x', get l' k = Some x' /\ meta_arrives x x').
Proof.
  induction l as [|[k x] l IH]; intros ND OK j E m0.
  - cbn in E. injection E as <-. exists m0. cbn. split; [auto|]. split; [auto|]. discriminate.
  - cbn [RrModel.enc_metas] in E. oks. cbn in ND. inversion ND as [|? ? NI ND']; subst.
    destruct (OK k x (or_introl eq_refl)) as [V MO]. destruct (meta_round_trip x a meta0 MO E0 eq_refl) as (x' & D & A).
    destruct (IH ND' (fun k x I => OK k x (or_intror I)) _ E1 (set m0 (clean k) x')) as (l' & D' & A1 & A2).
    exists l'. cbn [RrModel.dec_metas]. rewrite D. split; [exact D'|]. rewrite (clean_valid k V) in *. cbn [get]. split.
    + intros k'. destruct (String.eqb_spec k k') as [->|N]; [discriminate|]. intros G. rewrite A1 by auto. rewrite get_set.
      destruct (String.eqb_spec k k'); congruence.
    + intros k' y. destruct (String.eqb_spec k k') as [->|N]; [|apply A2]. intros [= <-]. exists x'. split; [|auto].
      rewrite A1; [rewrite get_set, String.eqb_refl; auto|]. destruct (get l k') eqn:G; [|auto]. exfalso. apply NI.
      clear - G. induction l as [|[k y] l IH]; cbn in *; [discriminate|]. destruct (String.eqb_spec k k'); auto.
Qed.
Lemma map_round_trip m j : map_ok m -> enc_map m = Ok j -> exists m', as_metas None j = Some m' /\ map_arrives m m'.
Proof.
  intros OK E. destruct m as [l|]; cbn in E; oks.
  - destruct (OK l eq_refl) as [ND O]. destruct (metas_round_trip l ND O _ E0 []) as (l' & D & A1 & A2). exists (Some l'). cbn. rewrite D. split; [auto|].
    intros k. destruct (get l k) as [x|] eqn:G.
    + destruct (A2 k x G) as (x' & -> & A). exact A.
    + rewrite A1 by auto. exact Logic.I.
  - exists None. cbn. auto.
Qed.
Lemma slice_round_trip {A} (enc : A -> outcome json) dec (a0 : A) (ok : A -> Prop) (R : A -> A -> Prop) :
  (forall a j, ok a -> enc a = Ok j -> exists a', dec a0 j = Some a' /\ R a a') ->
  forall l j, Forall ok (elements l) -> enc_slice enc l = Ok j -> exists l', as_slice dec a0 None j = Some l' /\ both (Forall2 R) l l'.
Proof.
  intros H l j O E. destruct l as [l|]; cbn in E; oks; [|exists None; cbn; auto]. cbn in O.
  enough (exists l', dec_list dec a0 [] a = Some l' /\ Forall2 R l l') as (l' & D & F) by (exists (Some l'); cbn; rewrite D; auto).
  revert a E0. induction O as [|x l Ox O IH]; intros js E; cbn in E; oks.
  - exists []. auto.
  - destruct (H _ _ Ox E0) as (x' & D & Rx). destruct (IH _ E1) as (l' & D' & F). exists (x' :: l'). cbn. rewrite D, D'. auto.
Qed.
Lemma score_round_trip q f : RationalToFloat q = Ok f -> score_arrives to_float to_rational q (Some (to_rational f)).
Proof. destruct q as [x|]; cbn; [intros [= <-]; exists x; auto|discriminate]. Qed.
Lemma case_round_trip c j : case_ok c -> enc_case c = Ok j -> exists c', dec_case case0 j = Some c' /\ case_arrives to_float to_rational c c'.
Proof.
  intros [MO IO] E. unfold RrModel.enc_case in E. oks. destruct (meta_round_trip _ _ meta0 MO E6 eq_refl) as (m' & DM & AM).
  assert (H : (exists m j, c_IndividualMeta c = Some m /\ m <> [] /\ enc_map (Some m) = Ok j /\ a6 = [("individual_meta"%string, j)]) \/
              (c_IndividualMeta c = None \/ c_IndividualMeta c = Some []) /\ a6 = []).
  { destruct (c_IndividualMeta c) as [[|x l]|]; [injection E7 as <-; auto| |injection E7 as <-; auto]. oks. left. do 2 eexists.
    repeat split; eauto. discriminate. }
  destruct H as [(m & jm & IE & NM & EM & ->)|(IE & ->)].
  - rewrite IE in IO. destruct (map_round_trip _ _ IO EM) as (im & DI & AI).
    cbn. erewrite !as_float_show by eassumption. cbn. rewrite DM. cbn. rewrite DI. cbn. eexists. split; [reflexivity|].
    unfold case_arrives. cbn. rewrite IE. repeat (split; [solve [auto using clean_text, score_round_trip]|]). right. split; [congruence|auto].
  - cbn. erewrite !as_float_show by eassumption. cbn. rewrite DM. cbn. eexists. split; [reflexivity|].
    unfold case_arrives. cbn. repeat (split; [solve [auto using clean_text, score_round_trip]|]). destruct IE as [-> | ->]; [right|left; auto].
    split; [congruence|]. exact Logic.I.
Qed.
Lemma group_round_trip g j : group_ok g -> enc_group g = Ok j -> exists g', dec_group group0 j = Some g' /\ group_arrives to_float to_rational g g'.
Proof.
  intros O E. unfold RrModel.enc_group in E. oks.
  destruct (slice_round_trip _ _ case0 case_ok _ case_round_trip _ _ O E6) as (l' & D & A).
  cbn. erewrite !as_float_show by eassumption. cbn. rewrite D. cbn. eexists. split; [reflexivity|].
  unfold group_arrives. cbn. auto 10 using clean_text, score_round_trip.
Qed.
Lemma result_round_trip r j : result_ok r -> enc_result r = Ok j -> exists r', dec_result result0 j = Some r' /\ result_arrives to_float to_rational r r'.
Proof.
  intros (IM & MO & O) E. unfold RrModel.enc_result in E. oks.
  destruct (slice_round_trip _ _ group0 group_ok _ group_round_trip _ _ O E9) as (l' & D & A).
  destruct (map_round_trip _ _ MO E3) as (cm & DC & AC).
  assert (M : as_byte read_byte 0 (show_byte (r_Memory r)) = Some (r_Memory r)) by (apply BR; auto).
  assert (J : r_JudgedBy r = ""%string -> text (r_JudgedBy r) ""%string) by (intros ->; constructor).
  destruct (r_CompileError r) as [ce|] eqn:CE; destruct (String.eqb_spec (r_JudgedBy r) "") as [JB|JB];
    cbn; erewrite !as_float_show by eassumption; cbn; rewrite DC; cbn; rewrite M; cbn; rewrite D; cbn; eexists; (split; [reflexivity|]);
    unfold result_arrives; cbn; rewrite CE; cbn; auto 20 using clean_text, score_round_trip.
Qed.
Lemma run_round_trip (r : Run (option Q)) j : (0 <= n_AttemptID r < 2 ^ 64)%Z -> enc_run r = Ok j ->
  exists r', dec_run run0 j = Some r' /\ run_arrives to_float to_rational r r'.
Proof.
  intros I E. unfold RrModel.enc_run in E. oks. cbn.
  assert (U : as_uint64 0 (JInt (n_AttemptID r)) = Some (n_AttemptID r)).
  { unfold as_uint64. replace ((0 <=? n_AttemptID r)%Z && (n_AttemptID r <? 2 ^ 64)%Z) with true; auto. symmetry. lia. }
  rewrite U. cbn. erewrite !as_float_show by eassumption. cbn. eexists. split; [reflexivity|].
  unfold run_arrives. cbn. auto 20 using clean_text, score_round_trip.
Qed.
End RoundTrip.

End Wire.

Section Write.
Context {flt : Type} (show : flt -> option json) (show_byte : Z -> json) (to_float : Q -> flt).
Notation enc_float := (RrModel.enc_float flt show).
Notation enc_meta := (RrModel.enc_meta flt show show_byte).
Notation enc_metas := (RrModel.enc_metas flt show show_byte).
Notation enc_map := (RrModel.enc_map flt show show_byte).
Notation enc_case := (RrModel.enc_case flt show show_byte to_float).
Notation enc_group := (RrModel.enc_group flt show show_byte to_float).
Notation enc_result := (RrModel.enc_result flt show show_byte to_float).
Notation enc_run := (RrModel.enc_run flt show to_float).
Notation RationalToFloat := (RrModel.RationalToFloat flt to_float).
(* ---- what can be written ---- *)
Definition can (q : option Q) : Prop := exists x, q = Some x /\ show (to_float x) <> None.
Definition fin (f : flt) : Prop := show f <> None.
Lemma good_float f : good (enc_float f) <-> fin f.
Proof. unfold good, fin, RrModel.enc_float. destruct (show f); split; intros H; try congruence; eauto. destruct H. discriminate. Qed.
Lemma good_score (q : option Q) {B} (f : flt -> outcome B) P : (forall x, q = Some x -> (good (f (to_float x)) <-> P x)) ->
  (good (bind (RationalToFloat q) f) <-> exists x, q = Some x /\ P x).
Proof.
  intros H. rewrite good_bind. destruct q as [x|]; cbn; [|split; intros (a & E & _); discriminate].
  split; [intros (a & [= <-] & G)|intros (y & [= <-] & G)]; eexists; split; eauto; apply (H x eq_refl); auto.
Qed.
Lemma good_meta m : good (enc_meta m) <-> Forall fin (meta_times m).
Proof.
  unfold RrModel.enc_meta, meta_times. erewrite good_then; [|intros; erewrite good_then; [|intros; erewrite good_then; [|intros; apply good_ok]; reflexivity]; reflexivity].
  rewrite !good_float. split; [intros (A & B & C & _)|intros F; inversion F as [|? ? ? F1]; inversion F1 as [|? ? ? F2]; inversion F2]; auto.
Qed.
Lemma good_metas l : good (enc_metas l) <-> Forall fin (flat_map (fun km => meta_times (snd km)) l).
Proof.
  induction l as [|[k m] l IH]; [cbn; rewrite good_ok; split; auto|]. cbn [RrModel.enc_metas flat_map snd]. rewrite Forall_app.
  erewrite good_then; [|intros; erewrite good_then; [|intros; apply good_ok]; reflexivity]. rewrite good_meta, IH. tauto.
Qed.
Lemma good_map m : good (enc_map m) <-> Forall fin (map_times m).
Proof.
  destruct m as [l|]; cbn; [|rewrite good_ok; split; auto]. erewrite good_then; [|intros; apply good_ok]. rewrite good_metas. unfold map_times. cbn. tauto.
Qed.
Lemma good_slice {A} (enc : A -> outcome json) (P : A -> Prop) l : (forall a, good (enc a) <-> P a) -> (good (enc_slice enc l) <-> Forall P (elements l)).
Proof.
  intros H. destruct l as [l|]; cbn; [|rewrite good_ok; split; auto]. erewrite good_then; [|intros; apply good_ok].
  enough (good (enc_list enc l) <-> Forall P l) by tauto.
  induction l as [|a l IH]; cbn; [rewrite good_ok; split; auto|].
  erewrite good_then; [|intros; erewrite good_then; [|intros; apply good_ok]; reflexivity]. rewrite H, IH.
  split; [intros (X & Y & _); auto|intros F; inversion F; auto].
Qed.

Lemma can_iff (q : option Q) : can q <-> exists x, q = Some x /\ good (enc_float (to_float x)).
Proof. unfold can. split; intros (x & E & G); exists x; split; auto; apply good_float; auto. Qed.
(* Three scores, first as numbers and then as text, around other things. *)
Lemma good_scores3 (q1 q2 q3 : option Q) {A} (x : outcome A) {B} (f : A -> json -> json -> json -> outcome B) P :
  (forall a j1 j2 j3, good (f a j1 j2 j3) <-> P) ->
  good (bind (RationalToFloat q1) (fun s => bind (RationalToFloat q2) (fun cs => bind (RationalToFloat q3) (fun ms =>
        bind x (fun a => bind (enc_float s) (fun s => bind (enc_float cs) (fun cs => bind (enc_float ms) (fun ms => f a s cs ms)))))))) <->
  can q1 /\ can q2 /\ can q3 /\ good x /\ P.
Proof.
  intros H. rewrite !can_iff. destruct q1 as [q1|]; cbn [RrModel.RationalToFloat bind].
  2: { split; [intros (b & E); discriminate|intros ((? & E & _) & _); discriminate]. }
  destruct q2 as [q2|]; cbn [RrModel.RationalToFloat bind].
  2: { split; [intros (b & E); discriminate|intros (_ & (? & E & _) & _); discriminate]. }
  destruct q3 as [q3|]; cbn [RrModel.RationalToFloat bind].
  2: { split; [intros (b & E); discriminate|intros (_ & _ & (? & E & _) & _); discriminate]. }
  assert (K : forall q, (exists y, Some q = Some y /\ good (enc_float (to_float y))) <-> good (enc_float (to_float q))).
  { intros q. split; [intros (y & [= <-] & G); auto|eauto]. }
  rewrite !K.
  rewrite (good_then _ _ (good (enc_float (to_float q1)) /\ good (enc_float (to_float q2)) /\ good (enc_float (to_float q3)) /\ P)); [tauto|].
  intros a. apply good_then. intros j1. apply good_then. intros j2. apply good_then. intros j3. apply H.
Qed.
Lemma good_case c : good (enc_case c) <-> Forall can (case_scores c) /\ Forall fin (case_times c).
Proof.
  unfold case_times. rewrite Forall_app. rewrite <- good_meta, <- good_map. unfold case_scores. rewrite <- (app_nil_r [_; _; _]), Forall3.
  pose proof (good_scores3 (c_Score c) (c_ContestScore c) (c_MaxScore c) (Ok tt) (fun _ s cs ms =>
     bind (enc_meta (c_Meta c)) (fun m => bind (match c_IndividualMeta c with None | Some [] => Ok [] | x => bind (enc_map x) (fun m => Ok [("individual_meta"%string, m)]) end)
     (fun i => Ok (JObj ([("verdict", enc_str (c_Verdict c)); ("name", enc_str (c_Name c)); ("score", s); ("contest_score", cs); ("max_score", ms); ("meta", m)] ++ i)%list%string))))
     (good (enc_meta (c_Meta c)) /\ good (enc_map (c_IndividualMeta c)))) as G.
  cbn [bind] in G. unfold RrModel.enc_case. rewrite G; clear G.
  - rewrite good_ok. intuition auto.
  - intros _ j1 j2 j3. apply good_then. intros m. erewrite good_then; [|intros; apply good_ok].
    destruct (c_IndividualMeta c) as [[|x l]|]; cbn [RrModel.enc_map RrModel.enc_metas bind]; rewrite ?good_ok; try tauto.
    assert (forall y, good (bind y (fun m => Ok [("individual_meta"%string, m)])) <-> good y /\ True) as -> by (intros; apply good_then; intros; apply good_ok). tauto.
Qed.
Definition group_times (g : GroupResult flt (option Q)) : list flt := flat_map case_times (elements (g_Cases g)).
Lemma good_group g : good (enc_group g) <-> Forall can (group_scores g) /\ Forall fin (group_times g).
Proof.
  unfold group_scores, group_times. rewrite Forall3, !Forall_flat_map.
  pose proof (good_scores3 (g_Score g) (g_ContestScore g) (g_MaxScore g) (Ok tt) (fun _ s cs ms =>
     bind (enc_slice enc_case (g_Cases g)) (fun l =>
     Ok (JObj [("group", enc_str (g_Group g)); ("score", s); ("contest_score", cs); ("max_score", ms); ("cases", l)]%string)))
     (good (enc_slice enc_case (g_Cases g)))) as G.
  cbn [bind] in G. unfold RrModel.enc_group. rewrite G; clear G.
  - rewrite good_ok, (good_slice _ _ _ good_case), Forall_both. tauto.
  - intros _ j1 j2 j3. erewrite good_then; [|intros; apply good_ok]. tauto.
Qed.
Lemma good_result r : good (enc_result r) <-> Forall can (scores r) /\ Forall fin (times r).
Proof.
  unfold scores, times. rewrite Forall3, !Forall_app, <- good_map. 
  pose proof (good_scores3 (r_Score r) (r_ContestScore r) (r_MaxScore r) (enc_map (r_CompileMeta r)) (fun m s cs ms =>
  bind (enc_float (r_Time r)) (fun t => bind (enc_float (r_WallTime r)) (fun wt => bind (enc_slice enc_group (r_Groups r)) (fun l =>
  Ok (JObj ([("verdict", enc_str (r_Verdict r))] ++ omit_nil "compile_error" (r_CompileError r)
            ++ [("compile_meta", m); ("score", s); ("contest_score", cs); ("max_score", ms); ("time", t); ("wall_time", wt); ("memory", show_byte (r_Memory r))]
            ++ (if String.eqb (r_JudgedBy r) "" then [] else [("judged_by", enc_str (r_JudgedBy r))])
            ++ [("groups", l)])%list%string)))))
    (fin (r_Time r) /\ fin (r_WallTime r) /\ good (enc_slice enc_group (r_Groups r)))) as G.
  unfold RrModel.enc_result. rewrite G; clear G.
  - rewrite (good_slice _ _ _ good_group), Forall_both, !Forall_flat_map.
    assert (Forall fin [r_Time r; r_WallTime r] <-> fin (r_Time r) /\ fin (r_WallTime r)) as -> by (rewrite !Forall_cons_iff; intuition).
    assert (Forall (fun a => Forall fin (group_times a)) (elements (r_Groups r)) <-> Forall (fun g => Forall fin (flat_map case_times (elements (g_Cases g)))) (elements (r_Groups r))) as -> by reflexivity.
    tauto.
  - intros m j1 j2 j3. rewrite <- !good_float. apply good_then. intros t. apply good_then. intros wt. erewrite good_then; [|intros; apply good_ok]. tauto.
Qed.

(* ---- panics ---- *)
Definition score_fin (q : option Q) : Prop := forall x, q = Some x -> show (to_float x) <> None.
Lemma no_err_bind {A B} (x : outcome A) (f : A -> outcome B) : x <> Err -> (forall a, f a <> Err) -> bind x f <> Err.
Proof. destruct x; cbn; auto; discriminate. Qed.
Lemma no_err_float f : fin f -> enc_float f <> Err.
Proof. unfold fin, RrModel.enc_float. destruct (show f); congruence. Qed.
Lemma no_err_score q {B} (f : flt -> outcome B) : score_fin q -> (forall x, fin x -> f x <> Err) -> bind (RationalToFloat q) f <> Err.
Proof. intros F H. destruct q as [x|]; cbn; [|discriminate]. apply H. apply F. auto. Qed.
Ltac no_err := repeat match goal with
  | |- bind (RationalToFloat _) _ <> Err => apply no_err_score; [assumption|intros ? ?]
  | |- bind _ _ <> Err => apply no_err_bind; [|intros ?]
  | |- Ok _ <> Err => discriminate
  | |- enc_float _ <> Err => apply no_err_float; assumption
  end.
Lemma no_err_meta m : Forall fin (meta_times m) -> enc_meta m <> Err.
Proof. unfold meta_times, RrModel.enc_meta. intros F. foralls. no_err. Qed.
Lemma no_err_map m : Forall fin (map_times m) -> enc_map m <> Err.
Proof.
  unfold map_times, RrModel.enc_map. destruct m as [l|]; cbn [elements]; [|discriminate]. intros F. no_err.
  induction l as [|[k m] l IH]; [discriminate|]. cbn [flat_map snd RrModel.enc_metas] in *. apply Forall_app in F. destruct F. no_err; auto using no_err_meta.
Qed.
Lemma no_err_slice {A} (enc : A -> outcome json) l : (forall a, In a (elements l) -> enc a <> Err) -> enc_slice enc l <> Err.
Proof.
  destruct l as [l|]; cbn; [|discriminate]. intros H. no_err. induction l as [|a l IH]; cbn in *; [discriminate|]. no_err; auto.
Qed.
Lemma no_err_case c : Forall score_fin (case_scores c) -> Forall fin (case_times c) -> enc_case c <> Err.
Proof.
  unfold case_scores, case_times, RrModel.enc_case. intros S F. foralls. no_err; auto using no_err_meta.
  destruct (c_IndividualMeta c) as [[|km lm]|] eqn:E; try discriminate. no_err. apply no_err_map. congruence.
Qed.
Lemma no_err_group g : Forall score_fin (group_scores g) -> Forall fin (group_times g) -> enc_group g <> Err.
Proof.
  unfold group_scores, group_times, RrModel.enc_group. intros S F. foralls. no_err. apply no_err_slice. intros c I.
  repeat match goal with H : Forall _ (flat_map _ _) |- _ => rewrite Forall_flat_map, Forall_forall in H; specialize (H c I) end. apply no_err_case; auto.
Qed.
Lemma no_err_result r : Forall score_fin (scores r) -> Forall fin (times r) -> enc_result r <> Err.
Proof.
  unfold scores, times, RrModel.enc_result. intros S F. foralls. no_err; auto using no_err_map. apply no_err_slice. intros g I.
  repeat match goal with H : Forall _ (flat_map _ _) |- _ => rewrite Forall_flat_map, Forall_forall in H; specialize (H g I) end. apply no_err_group; auto.
Qed.
Lemma crash_iff r : Forall score_fin (scores r) -> Forall fin (times r) -> (enc_result r = Crash <-> In None (scores r)).
Proof.
  intros S F. pose proof (no_err_result r S F) as NE. pose proof (good_result r) as G. split.
  - intros C. assert (D : In None (scores r) \/ Forall can (scores r)).
    { clear C G. induction S as [|q l Sq S IH]; [right; constructor|]. destruct q as [x|]; [|left; left; auto]. destruct IH as [I|A]; [left; right; auto|].
      right. constructor; [|auto]. exists x. split; auto. }
    destruct D as [I|A]; [auto|]. destruct (proj2 G (conj A F)) as (j & E). congruence.
  - intros I. destruct (enc_result r) as [j| |] eqn:E; [|congruence|auto]. destruct (proj1 G (ex_intro _ j eq_refl)) as [A _].
    rewrite Forall_forall in A. destruct (A _ I) as (x & X & _). discriminate.
Qed.
(* A panic is always about a nil. *)
Lemma crash_meta m : enc_meta m <> Crash.
Proof. unfold RrModel.enc_meta, RrModel.enc_float. destruct (show _); [|discriminate]. cbn. destruct (show _); [|discriminate]. cbn. destruct (show _); discriminate. Qed.
Lemma crash_float f : enc_float f <> Crash. Proof. unfold RrModel.enc_float. destruct (show f); discriminate. Qed.
Lemma crash_map m : enc_map m <> Crash.
Proof.
  destruct m as [l|]; cbn; [|discriminate]. intros C. apply bind_crash in C. destruct C as [C|(a & _ & C)]; [|discriminate]. revert C.
  induction l as [|[k m] l IH]; cbn; [discriminate|]. intros C. apply bind_crash in C. destruct C as [C|(a & _ & C)]; [elim (crash_meta _ C)|].
  apply bind_crash in C. destruct C as [C|(b & _ & C)]; [auto|discriminate].
Qed.
Ltac crash C := repeat (apply bind_crash in C; let a := fresh "a" in let E := fresh "E" in destruct C as [C|(a & E & C)];
  [try solve [elim (crash_float _ C)|elim (crash_meta _ C)|elim (crash_map _ C)]|]); try discriminate C.
Lemma crash_score q : RationalToFloat q = Crash -> q = None. Proof. destruct q; cbn; congruence. Qed.
Lemma crash_slice {A} (enc : A -> outcome json) l : enc_slice enc l = Crash -> exists a, In a (elements l) /\ enc a = Crash.
Proof.
  destruct l as [l|]; cbn; [|discriminate]. intros C. crash C. revert C. induction l as [|a l IH]; cbn; [discriminate|]. intros C. crash C.
  - eauto.
  - destruct (IH C) as (x & I & X). eauto.
Qed.
Lemma crash_case c : enc_case c = Crash -> In None (case_scores c).
Proof.
  unfold RrModel.enc_case, case_scores. intros C. apply bind_crash in C as [C|(? & _ & C)]; [apply crash_score in C; rewrite C; cbn; auto|].
  apply bind_crash in C as [C|(? & _ & C)]; [apply crash_score in C; rewrite C; cbn; auto|].
  apply bind_crash in C as [C|(? & _ & C)]; [apply crash_score in C; rewrite C; cbn; auto|]. exfalso. crash C.
  destruct (c_IndividualMeta c) as [[|km lm]|]; try discriminate. crash C.
Qed.
Lemma crash_group g : enc_group g = Crash -> In None (group_scores g).
Proof.
  unfold RrModel.enc_group, group_scores. intros C. apply bind_crash in C as [C|(? & _ & C)]; [apply crash_score in C; rewrite C; cbn; auto|].
  apply bind_crash in C as [C|(? & _ & C)]; [apply crash_score in C; rewrite C; cbn; auto|].
  apply bind_crash in C as [C|(? & _ & C)]; [apply crash_score in C; rewrite C; cbn; auto|]. crash C.
  apply crash_slice in C. destruct C as (c & I & C). do 3 right. apply in_flat_map. eauto using crash_case.
Qed.
Lemma crash_result r : enc_result r = Crash -> In None (scores r).
Proof.
  unfold RrModel.enc_result, scores. intros C. apply bind_crash in C as [C|(? & _ & C)]; [apply crash_score in C; rewrite C; cbn; auto|].
  apply bind_crash in C as [C|(? & _ & C)]; [apply crash_score in C; rewrite C; cbn; auto|].
  apply bind_crash in C as [C|(? & _ & C)]; [apply crash_score in C; rewrite C; cbn; auto|]. crash C.
  apply crash_slice in C. destruct C as (c & I & C). do 3 right. apply in_flat_map. eauto using crash_group.
Qed.

End Write.

Section Wire.
Context {flt : Type} (zero : flt) (show : flt -> option json) (read : json -> option flt) (show_byte : Z -> json) (read_byte : Z -> json -> option Z)
  (to_float : Q -> flt) (to_rational : flt -> Q) (equal_fold : string -> string -> bool).
Notation enc_float := (RrModel.enc_float flt show).
Notation enc_meta := (RrModel.enc_meta flt show show_byte).
Notation enc_metas := (RrModel.enc_metas flt show show_byte).
Notation enc_map := (RrModel.enc_map flt show show_byte).
Notation enc_case := (RrModel.enc_case flt show show_byte to_float).
Notation enc_group := (RrModel.enc_group flt show show_byte to_float).
Notation enc_result := (RrModel.enc_result flt show show_byte to_float).
Notation enc_run := (RrModel.enc_run flt show to_float).
Notation dec_meta := (RrModel.dec_meta flt read read_byte equal_fold).
Notation dec_metas := (RrModel.dec_metas flt zero read read_byte equal_fold).
Notation as_metas := (RrModel.as_metas flt zero read read_byte equal_fold).
Notation dec_case := (RrModel.dec_case flt zero read read_byte to_rational equal_fold).
Notation dec_group := (RrModel.dec_group flt zero read read_byte to_rational equal_fold).
Notation dec_result := (RrModel.dec_result flt zero read read_byte to_rational equal_fold).
Notation dec_run := (RrModel.dec_run flt zero read to_rational equal_fold).
Notation RationalToFloat := (RrModel.RationalToFloat flt to_float).
Notation meta0 := (RrModel.meta0 flt zero).
Notation case0 := (RrModel.case0 flt zero).
Notation group0 := (RrModel.group0 flt).
Notation result0 := (RrModel.result0 flt zero).

Notation fin := (fin show).
Notation can := (can show to_float).
(* ---- what is decoded can be written ---- *)
Lemma member_inv {A} fields l f (put : A -> json -> option A) (P : A -> Prop) :
  (forall k j a a', In (k, j) l -> P a -> put a j = Some a' -> P a') -> forall a a', P a -> member equal_fold fields l f put a = Some a' -> P a'.
Proof.
  induction l as [|[k j] l IH]; cbn; intros H a a' Pa M; [congruence|]. destruct (is_for equal_fold fields k f); [|eapply IH; eauto].
  destruct (put a j) as [b|] eqn:E; [|discriminate]. eapply IH; [| |exact M]; eauto.
Qed.
Section Stored.
Hypothesis RW : readable_is_writable zero show read to_float to_rational.
Lemma fin_zero : fin zero. Proof. apply RW. Qed.
Lemma as_float_fin old j f : fin old -> as_float flt read old j = Some f -> fin f.
Proof. destruct RW as (_ & R & _). unfold as_float, fin. intros O E. destruct j; try (eapply R; eauto; fail). congruence. Qed.
Lemma member_fin fields l k f : member equal_fold fields l k (as_float flt read) zero = Some f -> fin f.
Proof. apply (member_inv _ _ _ _ fin); [intros; eapply as_float_fin; eauto|apply fin_zero]. Qed.
Lemma member_fin' fields l k f old : fin old -> member equal_fold fields l k (as_float flt read) old = Some f -> fin f.
Proof. intros O. apply (member_inv _ _ _ _ fin); [intros; eapply as_float_fin; eauto|auto]. Qed.
Definition meta_fin (m : RunMetadata flt) := Forall fin (meta_times m).
Lemma meta0_fin : meta_fin meta0. Proof. unfold meta_fin, meta_times. repeat constructor; apply fin_zero. Qed.
Lemma dec_meta_fin old j m : meta_fin old -> dec_meta old j = Some m -> meta_fin m.
Proof.
  unfold meta_fin, meta_times. intros O E. destruct j; cbn [RrModel.dec_meta] in E; try discriminate; [congruence|]. somes. foralls. cbn.
  repeat constructor; [eapply member_fin'; [|exact E2]|eapply member_fin'; [|exact E3]|eapply member_fin'; [|exact E4]]; auto.
Qed.
Lemma in_set {A} (m : list (string * A)) k v x : In x (set m k v) -> x = (k, v) \/ In x m.
Proof. induction m as [|[k' v'] m IH]; cbn; [intros [E|[]]; auto|]. destruct (String.eqb_spec k' k); cbn; intros [E|I]; auto. destruct (IH I); auto. Qed.
Lemma dec_metas_fin l : forall m m', (forall k x, In (k, x) m -> meta_fin x) -> dec_metas m l = Some m' -> forall k x, In (k, x) m' -> meta_fin x.
Proof.
  induction l as [|[k j] l IH]; cbn; intros m m' O E; [injection E as <-; auto|]. destruct (dec_meta meta0 j) as [x|] eqn:D; [|discriminate].
  eapply IH; [|exact E]. intros k' y I. apply in_set in I. destruct I as [[= -> ->]|I]; [eapply dec_meta_fin; eauto using meta0_fin|eauto].
Qed.
Lemma as_metas_fin old j m : Forall fin (map_times old) -> as_metas old j = Some m -> Forall fin (map_times m).
Proof.
  assert (Q : forall m : list (string * RunMetadata flt), Forall fin (map_times (Some m)) <-> forall k x, In (k, x) m -> meta_fin x).
  { intros m0. unfold map_times. cbn. rewrite Forall_flat_map, Forall_forall. split; [intros H k x I; apply (H _ I)|intros H [k x] I; eapply H; eauto]. }
  intros O E. destruct j; cbn in E; try discriminate; [injection E as <-; constructor|]. 
  destruct (dec_metas _ l) as [m'|] eqn:D; [|discriminate]. injection E as <-. apply Q. eapply dec_metas_fin; [|exact D].
  destruct old as [o|]; [apply Q, O|]. intros ? ? [].
Qed.
(* No null in an array: everything is made anew. *)
Definition fresh_list (j : json) : Prop := forall l, j = JArr l -> ~ In JNull l.
Lemma as_slice_fresh {A} (put : A -> json -> option A) a0 (P : A -> Prop) old j l :
  (forall x, j = JArr x -> forall a y b, In y x -> put a y = Some b -> P b) -> 
  Forall P (elements old) -> as_slice put a0 old j = Some l -> Forall P (elements l).
Proof.
  intros H O E. destruct j as [| | | | |x|]; cbn in E; try discriminate; [injection E as <-; constructor|].
  destruct (dec_list _ _ _ x) as [r|] eqn:D; [|discriminate]. injection E as <-. cbn. specialize (H x eq_refl). clear O. revert r D H.
  generalize (match old with Some o => o | None => [] end). induction x as [|y x IH]; cbn; intros o r D H; [injection D as <-; constructor|].
  destruct (put (hd a0 o) y) as [b|] eqn:B; [|discriminate]. destruct (dec_list put a0 (tl o) x) as [r'|] eqn:D'; [|discriminate]. injection D as <-.
  constructor; eauto.
Qed.
Lemma can_back f : fin f -> can (Some (to_rational f)).
Proof. intros F. exists (to_rational f). split; auto. apply RW, F. Qed.
Definition case_good c := Forall can (case_scores c) /\ Forall fin (case_times c).
Definition group_good g := Forall can (group_scores g) /\ Forall fin (group_times g).
Lemma dec_case_good old j c : j <> JNull -> dec_case old j = Some c -> case_good c.
Proof.
  intros N E. destruct j; cbn [RrModel.dec_case] in E; try discriminate; [congruence|]. somes. unfold case_good, case_scores, case_times. cbn [c_Score c_ContestScore c_MaxScore c_Meta c_IndividualMeta]. split.
  - repeat constructor; apply can_back; eapply member_fin; eauto.
  - apply Forall_app. split.
    + revert E5. apply (member_inv _ _ _ _ meta_fin); [|apply meta0_fin]. intros; eapply dec_meta_fin; eauto.
    + revert E6. apply (member_inv _ _ _ _ (fun m => Forall fin (map_times m))); [|constructor]. intros; eapply as_metas_fin; eauto.
Qed.
Lemma null_elements_member l k x : ~ null_elements (JObj l) -> In (k, x) l -> ~ null_elements x.
Proof. intros N I (y & P & IN). apply N. exists y. split; [|auto]. eapply part_object; eauto. Qed.
Lemma null_elements_element l x : ~ null_elements (JArr l) -> In x l -> ~ null_elements x /\ x <> JNull.
Proof.
  intros N I. split; [intros (y & P & IN); apply N; exists y; split; [|auto]; eapply part_array; eauto|].
  intros ->. apply N. exists l. split; [constructor|auto].
Qed.
Lemma dec_group_good old j g : j <> JNull -> ~ null_elements j -> dec_group old j = Some g -> group_good g.
Proof.
  intros N NE E. destruct j; cbn [RrModel.dec_group] in E; try discriminate; [congruence|]. somes.
  assert (CG : Forall case_good (elements a3)).
  { revert E4. apply (member_inv _ _ _ _ (fun m => Forall case_good (elements m))); [|constructor]. intros k j o o' I O. apply as_slice_fresh; auto.
    intros x -> a4 y b IY. apply dec_case_good. apply (null_elements_element x y); auto. eapply null_elements_member; eauto. }
  unfold group_good, group_scores, group_times. cbn [g_Score g_ContestScore g_MaxScore g_Cases]. rewrite Forall3, !Forall_flat_map.
  apply Forall_both in CG. destruct CG. repeat split; auto; apply can_back; eapply member_fin; eauto.
Qed.
Lemma dec_result_good old j r name : j <> JNull -> ~ null_elements j -> dec_result old j = Some r -> good (enc_result (judged_by flt name r)).
Proof.
  intros N NE E. apply good_result. destruct j; cbn [RrModel.dec_result] in E; try discriminate; [congruence|]. somes.
  assert (GG : Forall group_good (elements a9)).
  { revert E10. apply (member_inv _ _ _ _ (fun m => Forall group_good (elements m))); [|constructor]. intros k j o o' I O. apply as_slice_fresh; auto.
    intros x -> a10 y b IY. pose proof (null_elements_member _ _ _ NE I) as NX. destruct (null_elements_element x y NX IY). apply dec_group_good; auto. }
  apply Forall_both in GG. destruct GG as [GS GT].
  unfold scores, times, judged_by. cbn [r_Score r_ContestScore r_MaxScore r_Groups r_Time r_WallTime r_CompileMeta]. rewrite Forall3, !Forall_app, !Forall_flat_map. split.
  - repeat split; auto; apply can_back; eapply member_fin; eauto.
  - split; [|split]; [| |exact GT].
    + repeat constructor; eapply member_fin; eauto.
    + revert E2. apply (member_inv _ _ _ _ (fun m => Forall fin (map_times m))); [|constructor]. intros; eapply as_metas_fin; eauto.
Qed.
End Stored.
End Wire.

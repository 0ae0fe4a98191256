(* Proofs about the tokenizer. *)
From Coq Require Import List Arith NArith ZArith Bool Lia.
From Verif Require Import TokModel TokSpec.
Import ListNotations.

(* ---- UTF-8 decoding ------------------------------------------------------ *)

Ltac bools := repeat match goal with
  | H : _ && _ = true |- _ => apply andb_prop in H; destruct H
  | H : (_ <=? _)%N = true |- _ => apply N.leb_le in H
  | H : (_ <=? _)%N = false |- _ => apply N.leb_gt in H
  end.

Lemma first_cases b :
  (first b = FAscii /\ (b < 128)%N) \/
  (first b = FInvalid /\ (128 <= b)%N) \/
  (first b = F2 0x80 0xBF /\ (0xC2 <= b <= 0xDF)%N) \/
  (exists lo hi, first b = F3 lo hi /\ (0xE0 <= b <= 0xEF)%N /\ (0x80 <= lo)%N /\ (hi <= 0xBF)%N /\ (b = 0xE0%N -> lo = 0xA0%N)) \/
  (exists lo hi, first b = F4 lo hi /\ (0xF0 <= b <= 0xF4)%N /\ (0x80 <= lo)%N /\ (hi <= 0xBF)%N /\ (b = 0xF0%N -> lo = 0x90%N)).
Proof.
  unfold first.
  repeat match goal with
    | |- context [if (?a <? ?c)%N then _ else _] => destruct (N.ltb_spec a c)
    | |- context [if (?a <=? ?c)%N then _ else _] => destruct (N.leb_spec a c)
    | |- context [if (?a =? ?c)%N then _ else _] => destruct (N.eqb_spec a c)
    end;
  try (left; split; [reflexivity|lia]; fail);
  try (right; left; split; [reflexivity|lia]; fail);
  try (right; right; left; split; [reflexivity|lia]; fail);
  try (right; right; right; left; do 2 eexists; split; [reflexivity|]; lia);
  try (right; right; right; right; do 2 eexists; split; [reflexivity|]; lia).
Qed.

(* d is a proper prefix of something that may still decode to a longer rune *)
Definition partial (d : bytes) : bool :=
  match d with
  | [] => false
  | p0 :: t =>
    match first p0 with
    | FAscii | FInvalid => false
    | F2 _ _ => match t with [] => true | _ => false end
    | F3 lo hi => match t with [] => true | [b1] => inr lo hi b1 | _ => false end
    | F4 lo hi => match t with [] => true | [b1] => inr lo hi b1 | [b1; b2] => inr lo hi b1 && inr 0x80 0xBF b2 | _ => false end
    end
  end.

Lemma decode_stable d m : d <> [] -> partial d = false -> decode (d ++ m) = decode d.
Proof.
  destruct d as [|p0 t]; [congruence|]. intros _ H. cbn [app decode partial] in *.
  destruct (first p0) as [| |lo hi|lo hi|lo hi]; auto.
  - destruct t; [discriminate|reflexivity].
  - destruct t as [|b1 [|b2 t]]; cbn [app]; try discriminate; auto.
    rewrite H. cbn. destruct m; reflexivity.
  - destruct t as [|b1 [|b2 [|b3 t]]]; cbn [app]; try discriminate; auto.
    + rewrite H. destruct m as [|? [|? ?]]; reflexivity.
    + apply andb_false_iff in H. destruct H as [H|H]; rewrite H; rewrite ?andb_false_r; destruct m; reflexivity.
Qed.

Lemma partial_spec d : partial d = true ->
  decode d = (RuneError, 1) /\ length d <= 3 /\ exists p0 t, d = p0 :: t /\ (128 <= p0)%N /\ Forall (fun b => (0x80 <= b <= 0xBF)%N) t.
Proof.
  destruct d as [|p0 t]; [discriminate|]. cbn [partial decode]. intros H.
  destruct (first_cases p0) as [[E ?]|[[E ?]|[[E ?]|[(lo & hi & E & B)|(lo & hi & E & B)]]]]; rewrite E in *; try discriminate.
  - destruct t; [|discriminate]. repeat split; cbn; try lia. exists p0, []. repeat split; auto; lia.
  - destruct t as [|b1 [|b2 t]]; try discriminate.
    + repeat split; cbn; try lia. exists p0, []. repeat split; auto; lia.
    + unfold inr in H. bools. repeat split; cbn; try lia. exists p0, [b1]. repeat split; auto; try lia. repeat constructor; lia.
  - destruct t as [|b1 [|b2 [|b3 t]]]; try discriminate.
    + repeat split; cbn; try lia. exists p0, []. repeat split; auto; lia.
    + unfold inr in H. bools. repeat split; cbn; try lia. exists p0, [b1]. repeat split; auto; try lia. repeat constructor; lia.
    + unfold inr in H. bools. repeat split; cbn; try lia. exists p0, [b1; b2]. repeat split; auto; try lia. repeat constructor; lia.
Qed.

Lemma decode_cont b t : (0x80 <= b <= 0xBF)%N -> decode (b :: t) = (RuneError, 1).
Proof.
  intros H. cbn [decode].
  destruct (first_cases b) as [[E ?]|[[E ?]|[[E ?]|[(lo & hi & E & B)|(lo & hi & E & B)]]]]; rewrite E; try lia; auto.
Qed.

(* width, and the bytes of a non-ASCII rune are non-ASCII *)
Lemma decode_width d : d <> [] -> 1 <= snd (decode d) <= length d /\ snd (decode d) <= 4.
Proof.
  destruct d as [|p0 t]; [congruence|]. intros _. cbn [decode].
  destruct (first p0); cbn [snd length]; try lia.
  - destruct t as [|b1 t]; cbn [snd length]; try lia. destruct (inr _ _ _); cbn [snd]; lia.
  - destruct t as [|b1 [|b2 t]]; cbn [snd length]; try lia. destruct (_ && _); cbn [snd]; lia.
  - destruct t as [|b1 [|b2 [|b3 t]]]; cbn [snd length]; try lia. destruct (_ && _); cbn [snd]; lia.
Qed.

Lemma decode_cases d : d <> [] ->
  (exists b t, d = b :: t /\ decode d = (b, 1) /\ (b < 128)%N) \/
  ((128 <= fst (decode d))%N /\ Forall (fun b => (128 <= b)%N) (firstn (snd (decode d)) d)).
Proof.
  destruct d as [|p0 t]; [congruence|]. intros _.
  destruct (first_cases p0) as [[E B]|[[E B]|[[E B]|[(lo & hi & E & B)|(lo & hi & E & B)]]]].
  - left. exists p0, t. repeat split; auto. cbn. rewrite E. reflexivity.
  - right. cbn [decode]; rewrite E; cbn. split; [unfold RuneError; lia|repeat constructor; auto].
  - right. cbn [decode]; rewrite E.
    assert (X : (128 <= fst (RuneError, 1))%N /\ Forall (fun b => (128 <= b)%N) (firstn (snd (RuneError, 1)) (p0 :: t))).
    { cbn. split; [unfold RuneError; lia|repeat constructor; lia]. }
    destruct t as [|b1 t]; auto. destruct (inr _ _ b1) eqn:I; auto.
    unfold inr in I. bools. cbn [fst snd firstn]. split; [lia|repeat constructor; lia].
  - right. cbn [decode]; rewrite E.
    assert (X : (128 <= fst (RuneError, 1))%N /\ Forall (fun b => (128 <= b)%N) (firstn (snd (RuneError, 1)) (p0 :: t))).
    { cbn. split; [unfold RuneError; lia|repeat constructor; lia]. }
    destruct t as [|b1 [|b2 t]]; auto. destruct (_ && _) eqn:I; auto.
    unfold inr in I. bools. cbn [fst snd firstn]. split; [|repeat constructor; lia].
    destruct (N.eq_dec p0 0xE0); lia.
  - right. cbn [decode]; rewrite E.
    assert (X : (128 <= fst (RuneError, 1))%N /\ Forall (fun b => (128 <= b)%N) (firstn (snd (RuneError, 1)) (p0 :: t))).
    { cbn. split; [unfold RuneError; lia|repeat constructor; lia]. }
    destruct t as [|b1 [|b2 [|b3 t]]]; auto. destruct (_ && _) eqn:I; auto.
    unfold inr in I. bools. cbn [fst snd firstn]. split; [|repeat constructor; lia].
    destruct (N.eq_dec p0 0xF0); lia.
Qed.

(* ---- chars --------------------------------------------------------------- *)

Lemma chars_n_enough n : forall m bs, length bs <= n -> n <= m -> chars_n m bs = chars_n n bs.
Proof.
  induction n as [|n IH]; intros m bs H1 H2.
  - destruct bs; [|cbn in H1; lia]. destruct m; reflexivity.
  - destruct m as [|m]; [lia|]. cbn [chars_n]. destruct bs as [|b bs]; auto.
    pose proof (decode_width (b :: bs) ltac:(congruence)) as W.
    destruct (decode (b :: bs)) as [r w]. cbn [snd] in W. f_equal.
    apply IH; [|lia]. rewrite skipn_length. lia.
Qed.

Lemma chars_eq bs : bs <> [] ->
  chars bs = (fst (decode bs), firstn (snd (decode bs)) bs) :: chars (skipn (snd (decode bs)) bs).
Proof.
  intros H. unfold chars at 1. destruct bs as [|b bs]; [congruence|]. cbn [length chars_n].
  pose proof (decode_width (b :: bs) H) as W.
  destruct (decode (b :: bs)) as [r w]. cbn [fst snd] in *. f_equal.
  unfold chars. apply chars_n_enough; rewrite ?skipn_length; cbn [length] in *; lia.
Qed.

Lemma words_eq P cur bs : bs <> [] ->
  words P cur (chars bs) =
  let (r, w) := decode bs in
  if P r then words P (cur ++ firstn w bs) (chars (skipn w bs)) else flush cur ++ words P [] (chars (skipn w bs)).
Proof. intros H. rewrite chars_eq by auto. destruct (decode bs) as [r w]. reflexivity. Qed.

Lemma words_nonempty P cs : forall cur, Forall (fun t => t <> []) (words P cur cs).
Proof.
  induction cs as [|[r b] cs IH]; intros cur; cbn.
  - destruct cur; cbn; repeat constructor; congruence.
  - destruct (P r); auto. apply Forall_app. split; auto. destruct cur; cbn; repeat constructor; congruence.
Qed.

(* words implements the maximal-runs specification *)
Lemma words_tokenized_gen P cs : forall cur,
  Forall (fun c => P (fst c) = true) cur -> (forall c, In c cur -> snd c <> []) -> (forall c, In c cs -> snd c <> []) ->
  exists ts, tokenized P (cur ++ cs) ts /\ map text ts = words P (text cur) cs.
Proof.
  induction cs as [|[r b] cs IH]; intros cur HC HN HS.
  - destruct cur as [|c cur].
    + exists []. split; [constructor|reflexivity].
    + exists [c :: cur]. split; [apply tk_tok; [congruence|auto|auto|constructor]|].
      cbn [map words]. destruct (text (c :: cur)) eqn:E; [|reflexivity].
      unfold text in E. cbn in E. apply app_eq_nil in E. destruct E as [E _]. exfalso. apply (HN c); cbn; auto.
  - cbn [words]. destruct (P r) eqn:EP.
    + destruct (IH (cur ++ [(r, b)])) as (ts & T1 & T2).
      { apply Forall_app. split; auto. }
      { intros c Hc. apply in_app_or in Hc. destruct Hc as [Hc|[<-|[]]]; auto. apply HS. cbn; auto. }
      { intros c Hc. apply HS. cbn; auto. }
      exists ts. rewrite <- app_assoc in T1. split; [exact T1|]. rewrite T2. f_equal.
      unfold text. rewrite map_app, concat_app. cbn. rewrite app_nil_r. reflexivity.
    + destruct (IH []) as (ts & T1 & T2); [constructor|intros c []|intros c Hc; apply HS; cbn; auto|].
      cbn [text map concat app] in *.
      destruct cur as [|c cur].
      * exists ts. split; [apply tk_sep; auto|]. cbn. exact T2.
      * exists ((c :: cur) :: ts). split.
        { apply tk_tok; [congruence|auto|right; exists (r, b), cs; auto|]. apply tk_sep; auto. }
        cbn [map]. rewrite T2. destruct (text (c :: cur)) eqn:E; [|reflexivity].
        unfold text in E. cbn in E. apply app_eq_nil in E. destruct E as [E _]. exfalso. apply (HN c); cbn; auto.
Qed.

Lemma chars_nonempty n : forall bs c, In c (chars_n n bs) -> snd c <> [].
Proof.
  induction n as [|n IH]; intros bs c H; cbn in H; [contradiction|].
  destruct bs as [|b bs]; [contradiction|].
  pose proof (decode_width (b :: bs) ltac:(congruence)) as W.
  destruct (decode (b :: bs)) as [r w]. cbn [snd] in W. destruct H as [<-|H]; [|eauto].
  cbn [snd]. destruct w; [lia|]. cbn. congruence.
Qed.

Lemma toks_tokenized P bs : exists ts, tokenized P (chars bs) ts /\ map text ts = toks P bs.
Proof.
  apply (words_tokenized_gen P (chars bs) []); [constructor|intros c []|intros c; apply chars_nonempty].
Qed.

Lemma chars_text n : forall bs, length bs <= n -> text (chars_n n bs) = bs.
Proof.
  induction n as [|n IH]; intros bs H; cbn.
  - destruct bs; [reflexivity|cbn in H; lia].
  - destruct bs as [|b bs]; [reflexivity|].
    pose proof (decode_width (b :: bs) ltac:(congruence)) as W.
    destruct (decode (b :: bs)) as [r w]. cbn [snd] in W. unfold text in *. cbn [map concat snd].
    rewrite IH; [apply firstn_skipn|]. rewrite skipn_length. lia.
Qed.

(* ---- the two loops of splitFunc ------------------------------------------ *)

Lemma skipn_app_le {A} w (d m : list A) : w <= length d -> skipn w (d ++ m) = skipn w d ++ m.
Proof. intros H. rewrite skipn_app. replace (w - length d) with 0 by lia. reflexivity. Qed.
Lemma firstn_app_le {A} w (d m : list A) : w <= length d -> firstn w (d ++ m) = firstn w d.
Proof. intros H. rewrite firstn_app. replace (w - length d) with 0 by lia. cbn. apply app_nil_r. Qed.
Lemma skipn_skipn' {A} a b (l : list A) : skipn a (skipn b l) = skipn (b + a) l.
Proof. revert l; induction b as [|b IH]; intros l; cbn; auto. destruct l; auto. destruct a; auto. Qed.
Lemma firstn_add {A} a b (l : list A) : firstn (a + b) l = firstn a l ++ firstn b (skipn a l).
Proof. revert l; induction a as [|a IH]; intros [|x l]; cbn; auto; [destruct b; auto|]. rewrite IH; auto. Qed.

Section Good.
Variable P : N -> bool.

Lemma nonascii_head (H2 : forall r, (128 <= r)%N -> P r = false) n :
  forall b l, length l < n -> (128 <= b)%N -> words P [] (chars (b :: l)) = words P [] (chars l).
Proof.
  induction n as [|n IH]; intros b l HL Hb; [lia|].
  rewrite words_eq by congruence.
  destruct (decode_cases (b :: l) ltac:(congruence)) as [(b' & t & E & D & Q)|[R F]].
  { injection E as <- <-. lia. }
  pose proof (decode_width (b :: l) ltac:(congruence)) as W.
  destruct (decode (b :: l)) as [r w]. cbn [fst snd] in *. rewrite H2 by auto. cbn [flush app].
  destruct w as [|w]; [lia|]. cbn [skipn firstn] in *. inversion F as [|? ? _ F']; subst.
  assert (HW : w <= length l) by (cbn in W; lia).
  clear - IH F' HL HW. revert l HL F' HW.
  induction w as [|w IHw]; intros l HL F' HW; [reflexivity|].
  destruct l as [|c l]; [cbn in HW; lia|]. cbn [skipn firstn length] in *. inversion F' as [|? ? Q F'']; subst.
  rewrite IHw; auto; try lia. symmetry. apply IH; auto. lia.
Qed.

Lemma nonascii_head' (H2 : forall r, (128 <= r)%N -> P r = false) b l cur :
  (128 <= b)%N -> words P cur (chars (b :: l)) = flush cur ++ words P [] (chars l).
Proof.
  intros Hb. rewrite <- (nonascii_head H2 (S (length l)) b l) by auto.
  rewrite !words_eq by congruence.
  destruct (decode_cases (b :: l) ltac:(congruence)) as [(b' & t & E & D & Q)|[R F]].
  { injection E as <- <-. lia. }
  destruct (decode (b :: l)) as [r w]. cbn [fst] in R. rewrite H2 by auto. reflexivity.
Qed.

Hypothesis HP : goodP P.

Lemma skip_loop_spec n : forall start d lc,
  length d <= n ->
  exists k d' lc', skip_loop P n start d lc = (start + k, d', lc') /\ d' = skipn k d /\ k <= length d /\
    (forall m, words P [] (chars (d ++ m)) = words P [] (chars (d' ++ m))) /\
    (d' = [] \/ P (fst (decode d')) = true).
Proof.
  induction n as [|n IH]; intros start d lc HL; cbn [skip_loop].
  - destruct d; [|cbn in HL; lia]. exists 0, [], lc. rewrite Nat.add_0_r. repeat split; auto.
  - destruct d as [|b d]; [exists 0, [], lc; rewrite Nat.add_0_r; repeat split; auto|].
    set (D := b :: d) in *. assert (HD : D <> []) by (unfold D; congruence). clearbody D. clear b d.
    pose proof (decode_width D HD) as W.
    destruct (decode D) as [r w] eqn:ED. cbn [snd] in W.
    destruct (P r) eqn:EP.
    + exists 0, D, lc. rewrite Nat.add_0_r. repeat split; auto; try lia. right. rewrite ED. exact EP.
    + destruct (IH (start + w) (skipn w D) (bump r lc)) as (k & d' & lc' & E1 & E2 & E3 & E4 & E5).
      { rewrite skipn_length. lia. }
      exists (w + k), d', lc'. rewrite E1. rewrite skipn_length in E3.
      repeat split; auto; try lia.
      * f_equal. f_equal. lia.
      * rewrite E2. apply skipn_skipn'.
      * intros m. rewrite <- E4.
        destruct (partial D) eqn:EQ.
        { destruct (partial_spec D EQ) as (Dd & Dl & p0 & t & -> & Hp & Ht).
          rewrite ED in Dd. injection Dd as -> ->. destruct HP as [G|G]; [congruence|].
          cbn [app skipn]. rewrite nonascii_head' by auto. reflexivity. }
        { rewrite words_eq by (destruct D; cbn; congruence).
          rewrite decode_stable, ED by auto. rewrite EP. cbn [flush app].
          rewrite skipn_app_le by lia. reflexivity. }
Qed.

Lemma find_conts (G : P RuneError = true) n : forall i t lc, Forall (fun b => (0x80 <= b <= 0xBF)%N) t ->
  fst (find_loop P n i t lc) = None.
Proof.
  induction n as [|n IH]; intros i t lc F; cbn [find_loop]; auto.
  destruct t as [|b t]; auto. inversion F; subst. rewrite decode_cont by auto. rewrite G. cbn [skipn]. apply IH; auto.
Qed.

Lemma find_loop_spec n : forall i d lc,
  length d <= n ->
  match find_loop P n i d lc with
  | (Some (i', w), _) => exists k, i' = i + k /\ k + w <= length d /\ 1 <= w /\ (P (fst (decode d)) = true -> 1 <= k) /\
      forall m cur, words P cur (chars (d ++ m)) = flush (cur ++ firstn k d) ++ words P [] (chars (skipn (k + w) d ++ m))
  | (None, _) => (forall cur, words P cur (chars d) = flush (cur ++ d)) /\
      exists k, k <= length d /\ length d <= k + 3 /\
      forall m cur, words P cur (chars (d ++ m)) = words P (cur ++ firstn k d) (chars (skipn k d ++ m))
  end.
Proof.
  induction n as [|n IH]; intros i d lc HL; cbn [find_loop].
  - destruct d; [|cbn in HL; lia]. split; [intros; cbn; rewrite app_nil_r; auto|].
    exists 0. cbn. repeat split; auto. intros. rewrite app_nil_r. auto.
  - destruct d as [|b d].
    { split; [intros; cbn; rewrite app_nil_r; auto|]. exists 0. cbn. repeat split; auto; try lia. intros. rewrite app_nil_r. auto. }
    set (D := b :: d) in *. assert (HD : D <> []) by (unfold D; congruence). clearbody D. clear b d.
    pose proof (decode_width D HD) as W.
    destruct (decode D) as [r w] eqn:ED. cbn [snd] in W.
    destruct (P r) eqn:EP.
    + specialize (IH (i + w) (skipn w D) (bump r lc) ltac:(rewrite skipn_length; lia)).
      destruct (find_loop P n (i + w) (skipn w D) (bump r lc)) as [[[i' w']|] lc'] eqn:EF.
      * destruct IH as (k & E1 & E2 & E3 & _ & E4). rewrite skipn_length in E2.
        assert (EQ : partial D = false).
        { destruct (partial D) eqn:EQ; auto. exfalso.
          destruct (partial_spec D EQ) as (Dd & Dl & p0 & t & -> & Hp & Ht). rewrite ED in Dd. injection Dd as -> ->.
          destruct HP as [G|G]; [|rewrite G in EP; [discriminate|unfold RuneError; lia]].
          pose proof (find_conts G n (i + 1) t (bump RuneError lc) Ht) as Q. cbn [skipn] in EF. rewrite EF in Q. discriminate. }
        exists (w + k). repeat split; try lia.
        intros m cur. rewrite words_eq by (destruct D; cbn; congruence).
        rewrite decode_stable, ED by auto. rewrite EP, skipn_app_le, firstn_app_le by lia. rewrite E4.
        rewrite skipn_skipn', firstn_add, <- !app_assoc. rewrite Nat.add_assoc. reflexivity.
      * destruct IH as (E1 & k & E2 & E3 & E4). rewrite skipn_length in *. split.
        { intros cur. rewrite words_eq by auto. rewrite ED, EP, E1, <- app_assoc, firstn_skipn. reflexivity. }
        destruct (partial D) eqn:EQ.
        { destruct (partial_spec D EQ) as (_ & Dl & _). exists 0. repeat split; try lia. intros. cbn. rewrite app_nil_r. reflexivity. }
        exists (w + k). repeat split; try lia.
        intros m cur. rewrite words_eq by (destruct D; cbn; congruence).
        rewrite decode_stable, ED by auto. rewrite EP, skipn_app_le, firstn_app_le by lia. rewrite E4.
        rewrite skipn_skipn', firstn_add, <- !app_assoc. reflexivity.
    + exists 0. repeat split; try lia; [cbn; congruence|].
      intros m cur. cbn [firstn plus]. rewrite app_nil_r.
        destruct (partial D) eqn:EQ.
        { destruct (partial_spec D EQ) as (Dd & Dl & p0 & t & -> & Hp & Ht).
          rewrite ED in Dd. injection Dd as -> ->. destruct HP as [G|G]; [congruence|].
          cbn [app skipn]. rewrite nonascii_head' by auto. reflexivity. }
        { rewrite words_eq by (destruct D; cbn; congruence).
          rewrite decode_stable, ED by auto. rewrite EP. rewrite skipn_app_le by lia. reflexivity. }
Qed.

Lemma words_first cs : forall cur, cur <> [] -> exists x ts, words P cur cs = (cur ++ x) :: ts.
Proof.
  induction cs as [|[r b] cs IH]; intros cur H; cbn [words].
  - destruct cur; [congruence|]. exists [], []. rewrite app_nil_r. reflexivity.
  - destruct (P r).
    + destruct (IH (cur ++ b)) as (x & ts & E); [destruct cur; cbn; congruence|]. exists (b ++ x), ts. rewrite E, app_assoc. reflexivity.
    + destruct cur; [congruence|]. exists [], (words P [] cs). rewrite app_nil_r. reflexivity.
Qed.

(* The three guarantees of one call of the split function. *)
Lemma split_spec p data eof :
  match split P p data eof with
  | (adv, Some t, _) => adv <= length data /\ 1 <= adv /\ t <> [] /\
      (forall m, eof = false \/ m = [] -> toks P (data ++ m) = t :: toks P (skipn adv data ++ m)) /\
      length t <= length data
  | (adv, None, _) => adv <= length data /\
      (forall m, toks P (data ++ m) = toks P (skipn adv data ++ m)) /\
      (eof = true -> skipn adv data = []) /\
      (forall m, length (skipn adv data) <= 3 \/
         exists t ts, toks P (skipn adv data ++ m) = t :: ts /\ length (skipn adv data) <= length t + 3)
  end.
Proof.
  unfold split. destruct (skip_loop_spec (length data) 0 data (pline p, pcol p)) as (k & d & lc1 & E1 & E2 & E3 & E4 & E5); auto.
  rewrite E1. cbn [plus].
  pose proof (find_loop_spec (length d) 0 d lc1 (le_n _)) as F.
  destruct (find_loop P (length d) 0 d lc1) as [[[i w]|] lc2].
  - destruct F as (k' & -> & F2 & F3 & F5 & F4). cbn [plus] in *.
    assert (HK : 1 <= k').
    { destruct E5 as [E5|E5]; auto. rewrite E5 in F2. cbn in F2. lia. }
    rewrite E2, skipn_length in F2.
    assert (HT : firstn k' d <> []).
    { intros Q. apply (f_equal (@length N)) in Q. rewrite firstn_length, E2, skipn_length in Q. cbn in Q. lia. }
    repeat split; try lia; auto.
    2:{ rewrite firstn_length. lia. }
    intros m _. unfold toks. rewrite E4, F4. cbn [app]. destruct (firstn k' d) eqn:Q; [congruence|]. cbn [flush app]. f_equal.
    rewrite E2, skipn_skipn'. rewrite <- Nat.add_assoc. reflexivity.
  - destruct F as (F1 & k' & F2 & F3 & F4).
    assert (HL : length d = length data - k) by (rewrite E2; apply skipn_length).
    destruct (eof && (k <? length data)) eqn:EE.
    + apply andb_prop in EE. destruct EE as [-> EK]. apply Nat.ltb_lt in EK.
      repeat split; try lia.
      * intros Q. rewrite Q in HL. cbn in HL. lia.
      * intros m [HH|HH]; [discriminate|]. subst m. rewrite skipn_all, !app_nil_r.
        pose proof (E4 []) as E4'. rewrite !app_nil_r in E4'. unfold toks. rewrite E4', F1. cbn [app chars words length chars_n].
        destruct d; [cbn in HL; lia|reflexivity].
    + repeat split; try lia.
      * intros m. unfold toks. rewrite <- E2. apply E4.
      * intros ->. rewrite andb_true_l in EE. apply Nat.ltb_ge in EE. apply skipn_all2. lia.
      * intros m. rewrite <- E2.
        destruct k' as [|k']; [left; lia|]. right. unfold toks. rewrite F4. cbn [app].
        destruct (words_first (chars (skipn (S k') d ++ m)) (firstn (S k') d)) as (x & ts & Q).
        { intros Q. apply (f_equal (@length N)) in Q. rewrite firstn_length in Q. rewrite Nat.min_l in Q by lia. discriminate Q. }
        exists (firstn (S k') d ++ x), ts. rewrite Q. split; auto. rewrite app_length, firstn_length. lia.
Qed.
End Good.

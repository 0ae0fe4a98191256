(* Token positions are right when the whole stream arrives in one read. *)
From Coq Require Import List Arith NArith ZArith Bool Lia.
From Verif Require Import TokModel TokSpec TokProofs TokScanProofs.
Import ListNotations.

Fixpoint pwords (P : N -> bool) (lc : Z * Z) (cur : bytes) (st : Z * Z) (cs : list (N * bytes)) : list (bytes * Z * Z) :=
  match cs with
  | [] => match cur with [] => [] | _ => [(cur, fst st, snd st)] end
  | (r, b) :: cs' =>
    if P r then pwords P (bump r lc) (cur ++ b) (match cur with [] => lc | _ => st end) cs'
    else match cur with [] => [] | _ => [(cur, fst st, snd st)] end ++ pwords P (bump r lc) [] lc cs'
  end.

Lemma advance_bump lc c : advance_pos lc c = bump (fst c) lc.
Proof. reflexivity. Qed.

Lemma pwords_located P cs : forall b w,
  Forall (fun c => P (fst c) = true) w -> (forall c, In c w -> snd c <> []) -> (forall c, In c cs -> snd c <> []) ->
  located P b (w ++ cs) (pwords P (position (b ++ w)) (text w) (position b) cs).
Proof.
  induction cs as [|[r x] cs IH]; intros b w HC HN HS.
  - cbn [pwords]. destruct w as [|c w].
    + constructor.
    + assert (T : text (c :: w) <> []).
      { unfold text; cbn. intros E. apply app_eq_nil in E. destruct E as [E _]. apply (HN c); cbn; auto. }
      destruct (text (c :: w)) eqn:E; [congruence|]. rewrite <- E. apply lo_tok; auto; [congruence|constructor].
  - cbn [pwords].
    assert (PB : forall l, bump r (position l) = position (l ++ [(r, x)])).
    { intros l. unfold position. rewrite fold_left_app. reflexivity. }
    rewrite PB. destruct (P r) eqn:EP.
    + specialize (IH b (w ++ [(r, x)])).
      assert (HX : x <> []) by (apply (HS (r, x)); cbn; auto).
      rewrite <- app_assoc in IH. cbn [app] in IH.
      assert (G : pwords P (position ((b ++ w) ++ [(r, x)])) (text w ++ x) (match text w with [] => position (b ++ w) | _ => position b end) cs
                = pwords P (position (b ++ w ++ [(r, x)])) (text (w ++ [(r, x)])) (position b) cs).
      { rewrite <- app_assoc. f_equal.
        - unfold text. rewrite map_app, concat_app. cbn. rewrite app_nil_r. reflexivity.
        - destruct w as [|c w]; [rewrite app_nil_r; reflexivity|].
          destruct (text (c :: w)) eqn:E; [|reflexivity]. exfalso. unfold text in E; cbn in E. apply app_eq_nil in E. destruct E as [E _]. apply (HN c); cbn; auto. }
      rewrite G. apply IH.
      * apply Forall_app. auto.
      * intros c Hc. apply in_app_or in Hc. destruct Hc as [Hc|[<-|[]]]; auto.
      * intros c Hc. apply HS. cbn; auto.
    + specialize (IH ((b ++ w) ++ [(r, x)]) []). rewrite app_nil_r in IH. cbn [text map concat app] in IH.
      assert (IRR : forall lc st st', pwords P lc [] st cs = pwords P lc [] st' cs).
      { clear. intros lc st st'. revert lc st st'. induction cs as [|[r x] cs IH]; intros; cbn; auto. }
      rewrite (IRR _ _ (position ((b ++ w) ++ [(r, x)]))).
      assert (L : located P (b ++ w) ((r, x) :: cs) (pwords P (position ((b ++ w) ++ [(r, x)])) [] (position ((b ++ w) ++ [(r, x)])) cs)).
      { apply lo_sep; auto. apply IH; [constructor|intros c []|intros c Hc; apply HS; cbn; auto]. }
      destruct w as [|c w].
      * rewrite app_nil_r in *. exact L.
      * destruct (text (c :: w)) eqn:E.
        { exfalso. unfold text in E; cbn in E. apply app_eq_nil in E. destruct E as [E _]. apply (HN c); cbn; auto. }
        rewrite <- E. apply (lo_tok P b (c :: w)); auto; [congruence|]. right. exists (r, x), cs. auto.
Qed.

Lemma pwords_irr P cs : forall lc st st', pwords P lc [] st cs = pwords P lc [] st' cs.
Proof. induction cs as [|[r x] cs IH]; intros; cbn; auto. Qed.

Lemma pwords_eq P lc cur st bs : bs <> [] ->
  pwords P lc cur st (chars bs) =
  let (r, w) := decode bs in
  if P r then pwords P (bump r lc) (cur ++ firstn w bs) (match cur with [] => lc | _ => st end) (chars (skipn w bs))
  else match cur with [] => [] | _ => [(cur, fst st, snd st)] end ++ pwords P (bump r lc) [] lc (chars (skipn w bs)).
Proof. intros H. rewrite chars_eq by auto. destruct (decode bs) as [r w]. reflexivity. Qed.

Lemma bump_ge r lc : (1 <= fst lc)%Z -> (1 <= fst (bump r lc))%Z.
Proof. unfold bump. destruct (N.eqb _ _); cbn; lia. Qed.

Section P.
Variable P : N -> bool.

Lemma skip_pos n : forall start d lc, length d <= n -> (1 <= fst lc)%Z ->
  exists k d' lc', skip_loop P n start d lc = (start + k, d', lc') /\ d' = skipn k d /\ k <= length d /\ (1 <= fst lc')%Z /\
    (forall st, pwords P lc [] st (chars d) = pwords P lc' [] st (chars d')) /\
    (d' = [] \/ P (fst (decode d')) = true).
Proof.
  induction n as [|n IH]; intros start d lc HL H1; cbn [skip_loop].
  - destruct d; [|cbn in HL; lia]. exists 0, [], lc. rewrite Nat.add_0_r. repeat split; auto.
  - destruct d as [|b d]; [exists 0, [], lc; rewrite Nat.add_0_r; repeat split; auto|].
    set (D := b :: d) in *. assert (HD : D <> []) by (unfold D; congruence). clearbody D. clear b d.
    pose proof (decode_width D HD) as W. destruct (decode D) as [r w] eqn:ED. cbn [snd] in W.
    destruct (P r) eqn:EP.
    + exists 0, D, lc. rewrite Nat.add_0_r. repeat split; auto; try lia. right. rewrite ED. exact EP.
    + destruct (IH (start + w) (skipn w D) (bump r lc)) as (k & d' & lc' & E1 & E2 & E3 & E4 & E5 & E6).
      { rewrite skipn_length. lia. } { apply bump_ge; auto. }
      exists (w + k), d', lc'. rewrite E1. rewrite skipn_length in E3.
      repeat split; auto; try lia.
      * f_equal. f_equal. lia.
      * rewrite E2. apply skipn_skipn'.
      * intros st. rewrite pwords_eq, ED, EP by auto. cbn [app]. rewrite E5. apply pwords_irr.
Qed.

Lemma find_pos n : forall i d lc, length d <= n -> (1 <= fst lc)%Z ->
  match find_loop P n i d lc with
  | (Some (i', w), lc') => exists k, i' = i + k /\ k + w <= length d /\ 1 <= w /\ (P (fst (decode d)) = true -> 1 <= k) /\ (1 <= fst lc')%Z /\
      forall cur st, cur ++ firstn k d <> [] ->
        pwords P lc cur st (chars d) =
        (cur ++ firstn k d, fst (match cur with [] => lc | _ => st end), snd (match cur with [] => lc | _ => st end))
          :: pwords P lc' [] lc (chars (skipn (k + w) d))
  | (None, lc') => (1 <= fst lc')%Z /\ forall cur st,
      pwords P lc cur st (chars d) =
      match cur ++ d with [] => [] | x => [(x, fst (match cur with [] => lc | _ => st end), snd (match cur with [] => lc | _ => st end))] end
  end.
Proof.
  induction n as [|n IH]; intros i d lc HL H1; cbn [find_loop].
  - destruct d; [|cbn in HL; lia]. split; auto. intros. cbn. rewrite app_nil_r. destruct cur; reflexivity.
  - destruct d as [|b d].
    { split; auto. intros. cbn. rewrite app_nil_r. destruct cur; reflexivity. }
    set (D := b :: d) in *. assert (HD : D <> []) by (unfold D; congruence). clearbody D. clear b d.
    pose proof (decode_width D HD) as W. destruct (decode D) as [r w] eqn:ED. cbn [snd] in W.
    assert (HW : firstn w D <> []).
    { destruct D; [congruence|]. destruct w; [lia|]. cbn; congruence. }
    destruct (P r) eqn:EP.
    + specialize (IH (i + w) (skipn w D) (bump r lc) ltac:(rewrite skipn_length; lia) (bump_ge _ _ H1)).
      assert (NE : forall cur st, match cur ++ firstn w D with [] => bump r lc | _ => match cur with [] => lc | _ => st end end = match cur with [] => lc | _ => st end).
      { intros cur st. destruct (cur ++ firstn w D) eqn:E; auto. apply app_eq_nil in E. destruct E; congruence. }
      destruct (find_loop P n (i + w) (skipn w D) (bump r lc)) as [[[i' w']|] lc'].
      * destruct IH as (k & E1 & E2 & E3 & _ & E5 & E4). rewrite skipn_length in E2.
        exists (w + k). repeat split; try lia. intros cur st HC.
        rewrite pwords_eq, ED, EP by auto. rewrite E4.
        2:{ intros Q. apply app_eq_nil in Q. destruct Q as [Q _]. apply app_eq_nil in Q. destruct Q; congruence. }
        rewrite NE. rewrite skipn_skipn', firstn_add, <- !app_assoc, Nat.add_assoc. f_equal. apply pwords_irr.
      * destruct IH as [E5 IH]. split; auto. intros cur st. rewrite pwords_eq, ED, EP by auto. rewrite IH, NE.
        rewrite <- app_assoc, firstn_skipn. destruct (cur ++ D) eqn:Q; auto.
    + exists 0. repeat split; try lia; [cbn; congruence|apply bump_ge; auto|].
      intros cur st HC. cbn [firstn plus] in *. rewrite app_nil_r in *.
      rewrite pwords_eq, ED, EP by auto. destruct cur; [congruence|]. reflexivity.
Qed.

(* Expected results of the rest of the scan. *)
Definition E_of (p : tpos) (d : bytes) : list (bytes * Z * Z) :=
  if (lline p =? -1)%Z then pwords P (pline p, pcol p) [] (0, 0)%Z (chars d)
  else match d with [] => [] | _ => [(d, lline p, lcol p)] end.

Definition okpos (p : tpos) (d : bytes) (eof : bool) : Prop :=
  (1 <= pline p)%Z /\
  (lline p = -1 \/ ((1 <= lline p)%Z /\ eof = true /\
     forall lc, (1 <= fst lc)%Z -> skip_loop P (length d) 0%nat d lc = (0%nat, d, lc) /\ fst (find_loop P (length d) 0%nat d lc) = None))%Z.

Lemma split_pos p d eof : okpos p d eof ->
  match split P p d eof with
  | (adv, Some t, p') => E_of p d = (t, tline p', tcol p') :: E_of p' (skipn adv d) /\ okpos p' (skipn adv d) eof
  | (adv, None, p') => E_of p d = E_of p' (skipn adv d) /\ okpos p' (skipn adv d) true /\ (eof = true -> E_of p d = [])
  end.
Proof.
  intros [H1 H2]. unfold split.
  destruct H2 as [HLL|(HL1 & HL2 & HL3)].
  - destruct (skip_pos (length d) 0 d (pline p, pcol p)) as (k & d' & lc1 & E1 & E2 & E3 & E4 & E5 & E6); auto.
    rewrite E1. cbn [plus].
    pose proof (find_pos (length d') 0 d' lc1 (le_n _) E4) as F.
    assert (FN : forall lc, fst (find_loop P (length d') 0 d' lc) = fst (find_loop P (length d') 0 d' lc1)).
    { intros lc. clear. generalize 0. generalize (length d'). intros n. revert d' lc lc1.
      induction n as [|n IH]; intros d' lc lc1 i; cbn; auto. destruct d'; auto. destruct (decode _) as [r w]. destruct (P r); auto. }
    assert (HE : E_of p d = pwords P lc1 [] (0, 0)%Z (chars d')).
    { unfold E_of. rewrite HLL, Z.eqb_refl. apply E5. }
    rewrite HE, HLL, Z.eqb_refl.
    destruct (find_loop P (length d') 0 d' lc1) as [[[i w]|] lc2].
    + destruct F as (k' & -> & F2 & F3 & F5 & F6 & F4). cbn [plus] in *.
      assert (HK : 1 <= k') by (destruct E6 as [E6|E6]; auto; rewrite E6 in F2; cbn in F2; lia).
      assert (HT : firstn k' d' <> []).
      { intros Q. apply (f_equal (@length N)) in Q. rewrite firstn_length in Q. rewrite Nat.min_l in Q by lia. destruct k'; [lia|discriminate Q]. }
      split.
      * rewrite (F4 [] (0, 0)%Z) by exact HT. cbn [app fst snd tline tcol]. f_equal.
        unfold E_of. cbn [lline pline pcol]. change (-1 =? -1)%Z with true. cbv iota.
        rewrite E2, skipn_skipn', <- Nat.add_assoc. destruct lc2. apply pwords_irr.
      * split; cbn; auto.
    + destruct F as [F1 F2].
      assert (SK : forall lc, (1 <= fst lc)%Z -> skip_loop P (length d') 0 d' lc = (0, d', lc)).
      { intros lc _. destruct d' as [|b d'']; [reflexivity|]. destruct E6 as [E6|E6]; [discriminate|].
        cbn [length skip_loop]. destruct (decode (b :: d'')) as [r w]. cbn in E6. rewrite E6. reflexivity. }
      assert (HLd : length d' = length d - k) by (rewrite E2; apply skipn_length).
      destruct (eof && (k <? length d)) eqn:EE.
      * apply andb_prop in EE. destruct EE as [-> EK]. apply Nat.ltb_lt in EK.
        split; [|split; cbn; auto].
        rewrite (F2 [] (0, 0)%Z). cbn [app fst snd tline tcol]. destruct d' as [|b d'']; [cbn in HLd; lia|].
        f_equal. unfold E_of. cbn. rewrite skipn_all. reflexivity.
      * cbn [fst snd]. split.
        { rewrite (F2 [] (0, 0)%Z). unfold E_of. cbn [lline lcol fst snd app]. rewrite <- E2.
          destruct (Z.eqb_spec (fst lc1) (-1)); [lia|]. destruct d'; reflexivity. }
        split.
        { split; cbn [pline lline]; auto. right. split; [exact E4|]. split; auto. rewrite <- E2.
          intros lc Hlc. split; auto. }
        intros ->. cbn [andb] in EE. apply Nat.ltb_ge in EE. rewrite F2.
        destruct d'; [reflexivity|]. cbn in HLd. lia.
  - subst eof. destruct (HL3 (pline p, pcol p) H1) as [S1 S2]. rewrite S1.
    assert (HNE : (lline p =? -1)%Z = false) by (apply Z.eqb_neq; lia). rewrite HNE.
    unfold E_of at 1 3. rewrite HNE.
    destruct (find_loop P (length d) 0 d (pline p, pcol p)) as [f lc2] eqn:EF. cbn in S2. subst f.
    pose proof (find_pos (length d) 0 d (pline p, pcol p) (le_n _) H1) as F. rewrite EF in F. destruct F as [F1 _].
    cbn [andb]. destruct (Nat.ltb_spec 0 (length d)) as [Q|Q].
    + split; [|split; cbn; auto]. destruct d; [cbn in Q; lia|]. cbn [tline tcol fst snd]. f_equal.
      unfold E_of. cbn. rewrite skipn_all. reflexivity.
    + destruct d; [|cbn in Q; lia]. cbn [skipn fst]. unfold E_of; cbn [lline]; rewrite HNE. split; auto. split; [split; cbn; auto|auto].
Qed.
End P.

Lemma pwords_words P cs : forall lc cur st, map (fun x => fst (fst x)) (pwords P lc cur st cs) = words P cur cs.
Proof.
  induction cs as [|[r x] cs IH]; intros lc cur st; cbn.
  - destruct cur; reflexivity.
  - destruct (P r); auto. rewrite map_app, IH. destruct cur; reflexivity.
Qed.

Section Scan.
Variable P : N -> bool.
Variable maxTok : N.
Hypothesis HM : (4096 < maxTok)%N.

(* the state after everything was read into the first buffer *)
Record One (s : scanner) (exp : list (bytes * Z * Z)) (fin : rerr) : Prop := {
  O_chunks : chunks (srd s) = [];
  O_fin : final (srd s) = fin;
  O_err : serr s = None \/ serr s = Some fin;
  O_len : serr s = None -> slen s = 4096%N;
  O_small : (sstart s + lenN (sdata s) <= 4096)%N;
  O_pos : okpos P (spos s) (sdata s) (isSome (serr s));
  O_exp : E_of P (spos s) (sdata s) = exp
}.

Lemma okpos_true p d e : okpos P p d e -> okpos P p d true.
Proof. intros [H1 [H2|(H2 & H3 & H4)]]; split; auto. Qed.

Lemma split_adv p d e : (1 <= pline p)%Z -> fst (fst (split P p d e)) <= length d.
Proof.
  intros H. unfold split. destruct (skip_pos P (length d) 0 d (pline p, pcol p) (le_n _) H) as (k & d' & lc' & Q1 & Q2 & Q3 & Q4 & _).
  rewrite Q1. pose proof (find_pos P (length d') 0 d' lc' (le_n _) Q4) as F.
  assert (Q5 : length d' = length d - k) by (rewrite Q2; apply skipn_length).
  destruct (find_loop P (length d') 0 d' lc') as [[[i w]|] lc2].
  - destruct F as (k' & -> & F2 & _). cbn. lia.
  - destruct (e && _); cbn; lia.
Qed.

Lemma one_read s exp fin : chunks (srd s) = [] -> final (srd s) = fin -> slen s = 4096%N ->
  (sstart s + lenN (sdata s) <= 4096)%N -> E_of P (spos s) (sdata s) = exp -> serr s = None ->
  okpos P (spos s) (sdata s) true ->
  exists s', read_more maxTok s = (s', OLoop) /\ One s' exp fin /\ serr s' = Some fin.
Proof.
  intros H1 H2 H4 H5 H7 HN HP. unfold read_more. rewrite HN.
  set (start1 := if ((0 <? sstart s) && ((sstart s + lenN (sdata s) =? slen s) || (slen s / 2 <? sstart s)))%N then 0%N else sstart s).
  assert (HS1 : (start1 + lenN (sdata s) <= 4096)%N) by (unfold start1; destruct (_ && _); lia).
  assert (EF : (start1 + lenN (sdata s) =? slen s)%N && (maxTok <=? slen s)%N = false).
  { rewrite H4. destruct (N.leb_spec maxTok 4096); [lia|]. apply andb_false_r. }
  rewrite EF, H1, H2. cbn [read_loop].
  eexists; split; [reflexivity|]. split; [|reflexivity].
  constructor; cbn [chunks srd final serr set_err slen sstart sdata spos isSome]; auto; rewrite ?app_nil_r; auto.
  - discriminate.
  - clearbody start1. destruct (start1 + lenN (sdata s) =? slen s)%N; lia.
Qed.

Lemma one_iter_err s exp fin : One s exp fin -> serr s = Some fin ->
  match exp with
  | [] => exists s', scan_iter P maxTok s = (s', OFalse) /\ Err s' = errof fin
  | (t, l, c) :: e => exists s', scan_iter P maxTok s = (s', OTok t) /\ One s' e fin /\ tline (spos s') = l /\ tcol (spos s') = c
  end.
Proof.
  intros [H1 H2 H3 H4 H5 H6 H7] HE. unfold scan_iter. rewrite HE in *. cbn [isSome] in *. rewrite orb_true_r.
  pose proof (split_pos P _ _ _ H6) as SP. rewrite H7 in SP.
  pose proof (split_adv (spos s) (sdata s) true (proj1 H6)) as HA.
  destruct (split P (spos s) (sdata s) true) as [[adv [t|]] p'] eqn:ES.
  - destruct SP as [S1 S2]. rewrite S1. eexists; split; [reflexivity|]. split; [|auto].
    constructor; cbn; auto.
    + unfold lenN in *. rewrite skipn_length. cbn [fst] in HA; lia.
  - destruct SP as (S1 & S2 & S3). rewrite (S3 eq_refl).
    unfold read_more. cbn [serr]. eexists; split; [reflexivity|]. unfold Err. cbn [serr]. destruct fin; reflexivity.
Qed.

Lemma one_iter_none s exp fin : One s exp fin -> serr s = None ->
  match scan_iter P maxTok s with
  | (s', OTok t) => exists l c e, exp = (t, l, c) :: e /\ One s' e fin /\ tline (spos s') = l /\ tcol (spos s') = c
  | (s', OFalse) => False
  | (s', OLoop) => One s' exp fin /\ serr s' = Some fin
  end.
Proof.
  intros HO HE. pose proof HO as [H1 H2 H3 H4 H5 H6 H7]. unfold scan_iter. rewrite HE in *. cbn [isSome] in *. rewrite orb_false_r.
  destruct (negb _) eqn:ND.
  - pose proof (split_pos P _ _ _ H6) as SP. rewrite H7 in SP.
    pose proof (split_adv (spos s) (sdata s) false (proj1 H6)) as HA.
    destruct (split P (spos s) (sdata s) false) as [[adv [t|]] p'] eqn:ES.
    + destruct SP as [S1 S2]. exists (tline p'), (tcol p'). eexists. split; [exact S1|]. split; [|auto].
      constructor; cbn; auto; try (rewrite HE; auto). unfold lenN in *. rewrite skipn_length. cbn [fst] in HA; lia.
    + destruct SP as (S1 & S2 & S3).
      edestruct (one_read (mkSc (slen s) (sstart s + N.of_nat adv) (skipn adv (sdata s)) None p' (srd s)) exp fin) as (s' & R1 & R2 & R3).
      all: cbn [chunks srd final serr slen sstart sdata spos]; auto.
      { unfold lenN in *. rewrite skipn_length. cbn [fst] in HA. lia. }
      rewrite R1. auto.
  - destruct (one_read s exp fin H1 H2 (H4 eq_refl) H5 H7 HE (okpos_true _ _ _ H6)) as (s' & R1 & R2 & R3). rewrite R1. auto.
Qed.
Lemma one_scan s exp fin : One s exp fin -> 
  match exp with
  | [] => exists s', forall n, scan_loop P maxTok (S (S n)) s = (s', None) /\ Err s' = errof fin
  | (t, l, c) :: e => exists s', One s' e fin /\ tline (spos s') = l /\ tcol (spos s') = c /\ forall n, scan_loop P maxTok (S (S n)) s = (s', Some t)
  end.
Proof.
  intros HO. destruct (O_err _ _ _ HO) as [HE|HE].
  - pose proof (one_iter_none s exp fin HO HE) as G.
    destruct (scan_iter P maxTok s) as [s' [t| |]] eqn:E1.
    + destruct G as (l & c & e & -> & G1 & G2 & G3). exists s'. split; [auto|split; [auto|split; [auto|]]]. intros n. cbn [scan_loop]. rewrite E1. reflexivity.
    + destruct G.
    + destruct G as [G1 G2]. pose proof (one_iter_err s' exp fin G1 G2) as F.
      destruct exp as [|[[t l] c] e].
      * destruct F as (s2 & F1 & F2). exists s2. intros n. cbn [scan_loop]. rewrite E1, F1. auto.
      * destruct F as (s2 & F1 & F2 & F3 & F4). exists s2. split; [auto|split; [auto|split; [auto|]]]. intros n. cbn [scan_loop]. rewrite E1, F1. auto.
  - pose proof (one_iter_err s exp fin HO HE) as F.
    destruct exp as [|[[t l] c] e].
    * destruct F as (s2 & F1 & F2). exists s2. intros n. cbn [scan_loop]. rewrite F1. auto.
    * destruct F as (s2 & F1 & F2 & F3 & F4). exists s2. split; [auto|split; [auto|split; [auto|]]]. intros n. cbn [scan_loop]. rewrite F1. auto.
Qed.

Lemma one_all n : forall s exp fin, One s exp fin -> length exp < n ->
  scan_all P maxTok n s = (exp, errof fin).
Proof.
  induction n as [|n IH]; intros s exp fin HO HL; [lia|]. cbn [scan_all].
  pose proof (one_scan s exp fin HO) as G. unfold Scan, scan_fuel. rewrite (O_chunks _ _ _ HO). cbn [concat length plus].
  destruct exp as [|[[t l] c] e].
  - destruct G as (s' & G). destruct (G 1) as [-> ->]. reflexivity.
  - destruct G as (s' & G1 & <- & <- & G4). rewrite (G4 1). cbn in HL. rewrite (IH s' e fin G1) by lia. reflexivity.
Qed.

Lemma first_read bs fin eag : (lenN bs <= 4096)%N ->
  exists s, scan_iter P maxTok (new_scanner (mkRd [bs] fin eag)) = (s, OLoop) /\
    One s (pwords P (1, 1)%Z [] (0, 0)%Z (chars bs)) fin.
Proof.
  intros HL. unfold scan_iter, new_scanner. cbn [sdata serr negb isSome orb].
  unfold read_more. cbn [serr sstart sdata slen spos srd chunks final eager].
  change ((0 <? 0)%N && _)%bool with false. cbv iota. change (0 + lenN [] =? 0)%N with true. cbn [andb].
  destruct (N.leb_spec maxTok 0); [lia|]. change (0 =? 0)%N with true. cbv iota.
  assert (N.min maxTok startBufSize = 4096%N) as -> by (unfold startBufSize; lia).
  change (4096 - 0 - lenN [])%N with 4096%N.
  assert (OP : forall d e, okpos P pos0 d e) by (intros; split; cbn; auto; lia).
  destruct bs as [|b t].
  - destruct eag; cbn [read_loop Nat.leb]; (eexists; split; [reflexivity|]; constructor; cbn [chunks srd final serr set_err slen sstart sdata spos isSome]; auto; cbn; lia || discriminate).
  - set (D := b :: t) in *.
    assert (R : read_loop 0 4096 [D] fin eag = (D, if eag then Some fin else None, [])).
    { unfold D. cbn [read_loop]. fold D. rewrite firstn_all2, skipn_all2 by (unfold lenN in HL; lia). destruct eag; reflexivity. }
    rewrite R. cbn [app].
    destruct eag; (eexists; split; [reflexivity|]; constructor; cbn [chunks srd final serr set_err slen sstart sdata spos isSome]; auto; discriminate).
Qed.

Lemma tokenize_one bs fin eag : (lenN bs <= 4096)%N ->
  located P [] (chars bs) (fst (tokenize P maxTok (mkRd [bs] fin eag))) /\
  snd (tokenize P maxTok (mkRd [bs] fin eag)) = errof fin.
Proof.
  intros HL. destruct (first_read bs fin eag HL) as (s & F1 & F2).
  set (E := pwords P (1, 1)%Z [] (0, 0)%Z (chars bs)) in *.
  assert (T : tokenize P maxTok (mkRd [bs] fin eag) = (E, errof fin)).
  { unfold tokenize. cbn [chunks concat]. rewrite app_nil_r.
    assert (HE : length E <= length bs).
    { rewrite <- (map_length (fun x => fst (fst x))). unfold E. rewrite pwords_words.
      exact (toks_length P maxTok ltac:(lia) bs). }
    cbn [scan_all].
    unfold Scan, scan_fuel. cbn [new_scanner srd chunks concat length]. rewrite app_nil_r, <- Nat.add_assoc. 
    change (1 + 3) with 4. rewrite Nat.add_comm. cbn [plus]. cbn [scan_loop]. rewrite F1.
    change (scan_loop P maxTok (S (S (S (length bs)))) s) with (scan_loop P maxTok (S (S (S (length bs)))) s).
    pose proof (one_scan s E fin F2) as G. destruct E as [|[[t l] c] e].
    - destruct G as (s' & G). destruct (G (S (length bs))) as [G1 G2]. cbn [scan_loop] in G1 |- *. rewrite G1, G2. reflexivity.
    - destruct G as (s' & G1 & <- & <- & G4). specialize (G4 (S (length bs))). cbn [scan_loop] in G4 |- *. rewrite G4.
      cbn in HE. rewrite (one_all (length bs) s' e fin G1) by lia. reflexivity. }
  rewrite T. cbn [fst snd]. split; auto.
  pose proof (pwords_located P (chars bs) [] [] ltac:(constructor) ltac:(intros ? []) (fun c => chars_nonempty _ _ c)) as L.
  cbn [app text map concat] in L. unfold E. rewrite (pwords_irr _ _ _ _ (position [])). exact L.
Qed.
End Scan.

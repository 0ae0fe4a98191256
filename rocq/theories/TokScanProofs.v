(* Proofs about bufio.Scanner running the tokenizer's split function. *)
From Coq Require Import List Arith NArith ZArith Bool Lia.
From Verif Require Import TokModel TokSpec TokProofs.
Import ListNotations.

Lemma read_loop_spec k cs fin eag : (0 < k)%N -> forall j, no_stall j cs ->
  match read_loop j k cs fin eag with
  | (got, None, cs') => concat cs = got ++ concat cs' /\ no_stall 0 cs' /\ got <> [] /\ (lenN got <= k)%N /\
      length (concat cs') + length cs' < length (concat cs) + length cs
  | (got, Some x, cs') => x = fin /\ cs' = [] /\ concat cs = got /\ (lenN got <= k)%N
  end.
Proof.
  intros Hk. induction cs as [|c cs IH]; intros j HS; cbn [read_loop].
  - repeat split; auto. unfold lenN. cbn. lia.
  - destruct c as [|b c].
    + cbn [no_stall] in HS. destruct HS as [HJ HS].
      assert (G : match (if 100 <=? j then ([], Some ENoProgress, cs) else read_loop (S j) k cs fin eag) with
        | (got, None, cs') => concat ([] :: cs) = got ++ concat cs' /\ no_stall 0 cs' /\ got <> [] /\ (lenN got <= k)%N /\
            length (concat cs') + length cs' < length (concat ([] :: cs)) + length ([] :: cs)
        | (got, Some x, cs') => x = fin /\ cs' = [] /\ concat ([] :: cs) = got /\ (lenN got <= k)%N end).
      { destruct (Nat.leb_spec 100 j); [lia|]. specialize (IH (S j) HS).
        destruct (read_loop (S j) k cs fin eag) as [[got [x|]] cs']; cbn [concat app length]; [auto|].
        destruct IH as (? & ? & ? & ? & ?). repeat split; auto. cbn [concat app length]. lia. }
      destruct cs as [|c' cs]; [|exact G]. destruct eag; [|exact G].
      repeat split; auto. unfold lenN. cbn. lia.
    + assert (HS' : no_stall 0 cs) by exact HS.
      assert (HF : firstn (N.to_nat k) (b :: c) <> []) by (destruct (N.to_nat k) eqn:E; [lia|cbn; congruence]).
      assert (HB : (lenN (firstn (N.to_nat k) (b :: c)) <= k)%N) by (unfold lenN; rewrite firstn_length; lia).
      pose proof (firstn_skipn (N.to_nat k) (b :: c)) as FS.
      destruct (skipn (N.to_nat k) (b :: c)) as [|b' rest] eqn:ER.
      * rewrite app_nil_r in FS. rewrite FS in *. clear ER FS IH HS.
        assert (LB : length (b :: c) > 0) by (cbn; lia). set (B := b :: c) in *. clearbody B.
        destruct cs as [|c' cs]; [destruct eag|]; cbn [concat]; rewrite ?app_nil_r; repeat split; auto;
          cbn [length]; rewrite ?app_length; cbn [length]; lia.
      * assert (G : concat ((b :: c) :: cs) = firstn (N.to_nat k) (b :: c) ++ concat ((b' :: rest) :: cs)).
        { change (concat ((b' :: rest) :: cs)) with ((b' :: rest) ++ concat cs). rewrite app_assoc, FS. reflexivity. }
        assert (HL : length ((b' :: rest)) < length (b :: c)).
        { rewrite <- ER, skipn_length. cbn [length]. lia. }
        assert (X : match (firstn (N.to_nat k) (b :: c), @None rerr, (b' :: rest) :: cs) with
          | (got, None, cs') => concat ((b :: c) :: cs) = got ++ concat cs' /\ no_stall 0 cs' /\ got <> [] /\ (lenN got <= k)%N /\
             length (concat cs') + length cs' < length (concat ((b :: c) :: cs)) + length ((b :: c) :: cs)
          | (got, Some x, cs') => x = fin /\ cs' = [] /\ concat ((b :: c) :: cs) = got /\ (lenN got <= k)%N end).
        { repeat split; auto. cbn [concat length]. rewrite !app_length. lia. }
        destruct cs; [destruct eag|]; exact X.
Qed.

Section Scan.
Variable P : N -> bool.
Variable maxTok : N.
Hypothesis HP : goodP P.
Hypothesis HM : (4 <= maxTok)%N.

Definition rest (s : scanner) : bytes :=
  match serr s with None => concat (chunks (srd s)) | Some _ => [] end.

Record Inv (s : scanner) : Prop := {
  I_fit : (sstart s + lenN (sdata s) <= slen s)%N;
  I_max : (slen s <= maxTok)%N;
  I_err : match serr s with None => no_stall 0 (chunks (srd s)) | Some x => x = final (srd s) end
}.

Definition short (t : bytes) : Prop := (lenN t + 4 <= maxTok)%N.

(* Scanner s will produce the tokens ts and then stop with the reader's error. *)
Definition Rep (s : scanner) (ts : list bytes) (fin : rerr) : Prop :=
  Inv s /\ toks P (sdata s ++ rest s) = ts /\ final (srd s) = fin.
Definition hd_short (ts : list bytes) : Prop := match ts with [] => True | t :: _ => short t end.

Definition mu (s : scanner) : nat :=
  match serr s with Some _ => 1 | None => length (concat (chunks (srd s))) + length (chunks (srd s)) + 2 end.

Definition errof (fin : rerr) : option rerr := match fin with EEOF => None | e => Some e end.

(* what read_more needs: the data left by the split function is small *)
Definition small (s : scanner) (ts : list bytes) : Prop :=
  length (sdata s) <= 3 \/ exists t ts', ts = t :: ts' /\ length (sdata s) <= length t + 3.

Lemma read_more_spec s ts fin :
  Rep s ts fin -> hd_short ts -> small s ts -> (serr s <> None -> sdata s = []) ->
  match read_more maxTok s with
  | (s', OTok _) => False
  | (s', OFalse) => ts = [] /\ Err s' = errof fin /\ Rep s' [] fin
  | (s', OLoop) => Rep s' ts fin /\ mu s' < mu s
  end.
Proof.
  intros (HI & HT & HF) HS Hsm He. destruct HI as [I1 I2 I3]. unfold read_more.
  destruct (serr s) as [x|] eqn:EE.
  - unfold rest in HT. rewrite EE in HT. rewrite He in HT by congruence. cbn in HT. subst ts. split; [reflexivity|].
    split; [unfold Err; cbn; rewrite I3, HF; destruct fin; reflexivity|].
    split; [constructor; cbn; rewrite ?EE; auto; unfold lenN; cbn; lia|]. unfold rest. cbn. auto.
  - set (start1 := if ((0 <? sstart s) && ((sstart s + lenN (sdata s) =? slen s) || (slen s / 2 <? sstart s)))%N then 0%N else sstart s).
    assert (HFull : (start1 + lenN (sdata s) =? slen s)%N = true -> lenN (sdata s) = slen s).
    { intros Q. apply N.eqb_eq in Q. unfold start1 in Q.
      destruct (N.ltb_spec 0 (sstart s)); cbn [andb] in Q; [|lia].
      destruct (N.eqb_spec (sstart s + lenN (sdata s)) (slen s)); cbn [orb] in Q; [lia|].
      destruct (slen s / 2 <? sstart s)%N; lia. }
    assert (HS1 : (start1 + lenN (sdata s) <= slen s)%N) by (unfold start1; destruct (_ && _); lia).
    assert (HD : (lenN (sdata s) < maxTok)%N).
    { unfold lenN. destruct Hsm as [Q|(t & ts' & -> & Q)]; [lia|]. cbn in HS. unfold short, lenN in HS. lia. }
    destruct ((start1 + lenN (sdata s) =? slen s)%N && (maxTok <=? slen s)%N) eqn:EF.
    { exfalso. apply andb_prop in EF. destruct EF as [EF1 EF2]. apply HFull in EF1. apply N.leb_le in EF2. lia. }
    set (full := (start1 + lenN (sdata s) =? slen s)%N) in *.
    set (len2 := if full then N.min maxTok (if (slen s =? 0)%N then startBufSize else (slen s * 2)%N) else slen s).
    set (start2 := if full then 0%N else start1).
    assert (HR : (0 < len2 - start2 - lenN (sdata s) /\ len2 <= maxTok)%N).
    { unfold len2, start2. destruct full eqn:Ef.
      - pose proof (HFull eq_refl). destruct (N.eqb_spec (slen s) 0); unfold startBufSize; lia.
      - unfold full in Ef. apply N.eqb_neq in Ef. lia. }
    destruct HR as [HR1 HR2].
    pose proof (read_loop_spec (len2 - start2 - lenN (sdata s)) (chunks (srd s)) (final (srd s)) (eager (srd s)) HR1 0 I3) as RL.
    destruct (read_loop 0 _ _ _ _) as [[got e] cs'].
    assert (HA : lenN (sdata s ++ got) = (lenN (sdata s) + lenN got)%N) by (unfold lenN; rewrite app_length; lia).
    unfold rest in HT. rewrite EE in HT.
    destruct e as [x|].
    + destruct RL as (-> & -> & R3 & R4). split.
      * split; [constructor; cbn; auto; rewrite ?HA; lia|]. unfold rest. cbn. rewrite app_nil_r, <- R3. auto.
      * unfold mu. rewrite EE. cbn. lia.
    + destruct RL as (R1 & R2 & R3 & R4 & R5). split.
      * split; [constructor; cbn; auto; rewrite ?HA; lia|]. unfold rest. cbn. rewrite <- app_assoc, <- R1. auto.
      * unfold mu. rewrite EE. cbn. lia.
Qed.

Lemma scan_iter_spec s ts fin :
  Rep s ts fin -> hd_short ts ->
  match scan_iter P maxTok s with
  | (s', OTok t) => exists ts', ts = t :: ts' /\ Rep s' ts' fin
  | (s', OFalse) => ts = [] /\ Err s' = errof fin /\ Rep s' [] fin
  | (s', OLoop) => Rep s' ts fin /\ mu s' < mu s
  end.
Proof.
  intros HR HS. pose proof HR as (HI & HT & HF). unfold scan_iter.
  destruct (negb _ || isSome (serr s)) eqn:EC.
  - pose proof (split_spec P HP (spos s) (sdata s) (isSome (serr s))) as SP.
    destruct (split P (spos s) (sdata s) (isSome (serr s))) as [[adv [t|]] p'].
    + destruct SP as (A1 & A2 & A3 & A4 & A5). specialize (A4 (rest s)).
      rewrite HT in A4. rewrite A4 in * by (unfold rest; destruct (serr s); cbn; auto).
      eexists; split; [reflexivity|].
      split; [|unfold rest; cbn; auto].
      destruct HI as [I1 I2 I3]. constructor; cbn; auto. unfold lenN in *. rewrite skipn_length. lia.
    + destruct SP as (A1 & A2 & A3 & A4).
      set (s1 := mkSc (slen s) (sstart s + N.of_nat adv) (skipn adv (sdata s)) (serr s) p' (srd s)).
      assert (R1 : Rep s1 ts fin).
      { split; [|change (sdata s1) with (skipn adv (sdata s)); change (rest s1) with (rest s); rewrite <- A2; auto].
        destruct HI as [I1 I2 I3]. constructor; cbn; auto. unfold lenN in *. rewrite skipn_length. lia. }
      pose proof (read_more_spec s1 ts fin R1 HS) as G.
      assert (MU : mu s1 = mu s) by reflexivity. rewrite MU in G.
      destruct (read_more maxTok s1) as [s2 [t| |]]; [exfalso; apply G| |]; try apply G.
      all: try (intros; apply A3; destruct (serr s); cbn; auto; cbn in *; congruence).
      all: unfold small; cbn [sdata s1]; destruct (A4 (rest s)) as [Q|(t0 & ts0 & Q1 & Q2)]; [left; exact Q|right].
      all: exists t0, ts0; split; auto; rewrite <- HT, A2, Q1; reflexivity.
  - apply orb_false_iff in EC. destruct EC as [EC1 EC2].
    assert (HD : sdata s = []) by (destruct (sdata s); [reflexivity|discriminate]).
    pose proof (read_more_spec s ts fin HR HS) as G.
    destruct (read_more maxTok s) as [s2 [t| |]]; [exfalso; apply G| |]; try apply G; auto.
    all: left; rewrite HD; cbn; lia.
Qed.

Lemma scan_loop_spec n : forall s ts fin, mu s <= n -> Rep s ts fin -> hd_short ts ->
  match scan_loop P maxTok n s with
  | (s', Some t) => exists ts', ts = t :: ts' /\ Rep s' ts' fin
  | (s', None) => ts = [] /\ Err s' = errof fin /\ Rep s' [] fin
  end.
Proof.
  induction n as [|n IH]; intros s ts fin HM' HR HS.
  - unfold mu in HM'. destruct (serr s); lia.
  - cbn [scan_loop]. pose proof (scan_iter_spec s ts fin HR HS) as G.
    destruct (scan_iter P maxTok s) as [s' [t| |]]; auto.
    destruct G as [G1 G2]. apply IH; auto. lia.
Qed.

Lemma Scan_spec s ts fin : Rep s ts fin -> hd_short ts ->
  match Scan P maxTok s with
  | (s', Some t) => exists ts', ts = t :: ts' /\ Rep s' ts' fin
  | (s', None) => ts = [] /\ Err s' = errof fin /\ Rep s' [] fin
  end.
Proof. intros HR HS. apply scan_loop_spec; auto. unfold mu, scan_fuel. destruct (serr s); lia. Qed.

Lemma new_Rep rd : no_stall 0 (chunks rd) -> Rep (new_scanner rd) (toks P (concat (chunks rd))) (final rd).
Proof.
  intros H1. split; [constructor; cbn; auto; unfold lenN; cbn; lia|]. unfold rest. cbn. auto.
Qed.

Lemma words_length cs : (forall c, In c cs -> snd c <> []) -> forall cur, length (words P cur cs) <= length (cur ++ text cs).
Proof.
  induction cs as [|[r b] cs IH]; intros HN cur; cbn [words].
  - unfold flush. destruct cur; cbn; lia.
  - assert (HB : b <> []) by (apply (HN (r, b)); cbn; auto).
    unfold text in *. cbn [map concat snd].
    destruct (P r).
    + specialize (IH ltac:(intros; apply HN; cbn; auto) (cur ++ b)). rewrite <- app_assoc in IH. exact IH.
    + specialize (IH ltac:(intros; apply HN; cbn; auto) []). rewrite !app_length in *. cbn in IH.
      destruct b; [congruence|]. unfold flush. destruct cur; cbn; lia.
Qed.

Lemma toks_length bs : length (toks P bs) <= length bs.
Proof.
  unfold toks. pose proof (words_length (chars bs) (fun c => chars_nonempty _ _ c) []) as G. cbn in G.
  unfold chars in *. rewrite chars_text in G by lia. exact G.
Qed.

Lemma words_sub cs : forall cur t, In t (words P cur cs) -> length t <= length (cur ++ text cs).
Proof.
  induction cs as [|[r b] cs IH]; intros cur t H; cbn [words] in H.
  - unfold flush in H. destruct cur; [contradiction|]. destruct H as [<-|[]]. rewrite app_length. lia.
  - unfold text in *. cbn [map concat snd]. destruct (P r).
    + apply IH in H. rewrite <- app_assoc in H. exact H.
    + apply in_app_or in H. rewrite !app_length. destruct H as [H|H].
      * unfold flush in H. destruct cur; [contradiction|]. destruct H as [<-|[]]. lia.
      * apply IH in H. cbn in H. lia.
Qed.
Lemma toks_sub bs t : In t (toks P bs) -> length t <= length bs.
Proof.
  intros H. apply words_sub in H. cbn in H. unfold chars in H. rewrite chars_text in H by lia. exact H.
Qed.

(* Without any assumption on lengths: either the next token, or the end, or
   ErrTooLong. *)
Lemma read_more_any s ts fin :
  Rep s ts fin -> (serr s <> None -> sdata s = []) ->
  match read_more maxTok s with
  | (s', OTok _) => False
  | (s', OFalse) => (ts = [] /\ Err s' = errof fin) \/ Err s' = Some ETooLong
  | (s', OLoop) => Rep s' ts fin /\ mu s' < mu s
  end.
Proof.
  intros (HI & HT & HF) He. destruct HI as [I1 I2 I3]. unfold read_more.
  destruct (serr s) as [x|] eqn:EE.
  - left. unfold rest in HT. rewrite EE in HT. rewrite He in HT by congruence. cbn in HT. subst ts. split; [reflexivity|].
    unfold Err; cbn; rewrite I3, HF; destruct fin; reflexivity.
  - set (start1 := if ((0 <? sstart s) && ((sstart s + lenN (sdata s) =? slen s) || (slen s / 2 <? sstart s)))%N then 0%N else sstart s).
    assert (HFull : (start1 + lenN (sdata s) =? slen s)%N = true -> lenN (sdata s) = slen s).
    { intros Q. apply N.eqb_eq in Q. unfold start1 in Q.
      destruct (N.ltb_spec 0 (sstart s)); cbn [andb] in Q; [|lia].
      destruct (N.eqb_spec (sstart s + lenN (sdata s)) (slen s)); cbn [orb] in Q; [lia|].
      destruct (slen s / 2 <? sstart s)%N; lia. }
    assert (HS1 : (start1 + lenN (sdata s) <= slen s)%N) by (unfold start1; destruct (_ && _); lia).
    destruct ((start1 + lenN (sdata s) =? slen s)%N && (maxTok <=? slen s)%N) eqn:EF; [right; reflexivity|].
    set (full := (start1 + lenN (sdata s) =? slen s)%N) in *.
    set (len2 := if full then N.min maxTok (if (slen s =? 0)%N then startBufSize else (slen s * 2)%N) else slen s).
    set (start2 := if full then 0%N else start1).
    assert (HR : (0 < len2 - start2 - lenN (sdata s) /\ len2 <= maxTok)%N).
    { unfold len2, start2. destruct full eqn:Ef.
      - pose proof (HFull eq_refl). cbn in EF. apply N.leb_gt in EF. destruct (N.eqb_spec (slen s) 0); unfold startBufSize; lia.
      - unfold full in Ef. apply N.eqb_neq in Ef. lia. }
    destruct HR as [HR1 HR2].
    pose proof (read_loop_spec (len2 - start2 - lenN (sdata s)) (chunks (srd s)) (final (srd s)) (eager (srd s)) HR1 0 I3) as RL.
    destruct (read_loop 0 _ _ _ _) as [[got e] cs'].
    assert (HA : lenN (sdata s ++ got) = (lenN (sdata s) + lenN got)%N) by (unfold lenN; rewrite app_length; lia).
    unfold rest in HT. rewrite EE in HT.
    destruct e as [x|].
    + destruct RL as (-> & -> & R3 & R4). split.
      * split; [constructor; cbn; auto; rewrite ?HA; lia|]. unfold rest. cbn. rewrite app_nil_r, <- R3. auto.
      * unfold mu. rewrite EE. cbn. lia.
    + destruct RL as (R1 & R2 & R3 & R4 & R5). split.
      * split; [constructor; cbn; auto; rewrite ?HA; lia|]. unfold rest. cbn. rewrite <- app_assoc, <- R1. auto.
      * unfold mu. rewrite EE. cbn. lia.
Qed.

Lemma scan_iter_any s ts fin :
  Rep s ts fin ->
  match scan_iter P maxTok s with
  | (s', OTok t) => exists ts', ts = t :: ts' /\ Rep s' ts' fin /\ (lenN t <= maxTok)%N
  | (s', OFalse) => (ts = [] /\ Err s' = errof fin) \/ Err s' = Some ETooLong
  | (s', OLoop) => Rep s' ts fin /\ mu s' < mu s
  end.
Proof.
  intros HR. pose proof HR as (HI & HT & HF). unfold scan_iter.
  destruct (negb _ || isSome (serr s)) eqn:EC.
  - pose proof (split_spec P HP (spos s) (sdata s) (isSome (serr s))) as SP.
    destruct (split P (spos s) (sdata s) (isSome (serr s))) as [[adv [u|]] p'].
    + destruct SP as (A1 & A2 & A3 & A4 & A5). specialize (A4 (rest s)).
      rewrite HT in A4. specialize (A4 ltac:(unfold rest; destruct (serr s); cbn; auto)).
      eexists; split; [exact A4|]. destruct HI as [I1 I2 I3]. split; [|unfold lenN in *; lia].
      split; [|unfold rest; cbn; auto].
      constructor; cbn; auto. unfold lenN in *. rewrite skipn_length. lia.
    + destruct SP as (A1 & A2 & A3 & A4).
      set (s1 := mkSc (slen s) (sstart s + N.of_nat adv) (skipn adv (sdata s)) (serr s) p' (srd s)).
      assert (R1 : Rep s1 ts fin).
      { split; [|change (sdata s1) with (skipn adv (sdata s)); change (rest s1) with (rest s); rewrite <- A2; auto].
        destruct HI as [I1 I2 I3]. constructor; cbn; auto. unfold lenN in *. rewrite skipn_length. lia. }
      pose proof (read_more_any s1 ts fin R1) as G.
      assert (MU : mu s1 = mu s) by reflexivity. rewrite MU in G.
      destruct (read_more maxTok s1) as [s2 [t| |]]; [exfalso; apply G| |]; try apply G.
      all: intros; apply A3; destruct (serr s); cbn; auto; cbn in *; congruence.
  - apply orb_false_iff in EC. destruct EC as [EC1 EC2].
    assert (HD : sdata s = []) by (destruct (sdata s); [reflexivity|discriminate]).
    pose proof (read_more_any s ts fin HR) as G.
    destruct (read_more maxTok s) as [s2 [t| |]]; [exfalso; apply G; auto| |]; try apply G; auto.
Qed.

Lemma scan_loop_any n : forall s ts fin, Rep s ts fin -> mu s <= n ->
  match scan_loop P maxTok n s with
  | (s', Some t) => exists ts', ts = t :: ts' /\ Rep s' ts' fin /\ (lenN t <= maxTok)%N
  | (s', None) => (ts = [] /\ Err s' = errof fin) \/ Err s' = Some ETooLong
  end.
Proof.
  induction n as [|n IH]; intros s ts fin HR HN.
  - unfold mu in HN. destruct (serr s); lia.
  - cbn [scan_loop]. pose proof (scan_iter_any s ts fin HR) as G.
    destruct (scan_iter P maxTok s) as [s' [u| |]]; auto. destruct G as [G1 G2]. eapply IH; eauto. lia.
Qed.

Lemma Scan_any s ts fin : Rep s ts fin ->
  match Scan P maxTok s with
  | (s', Some t) => exists ts', ts = t :: ts' /\ Rep s' ts' fin /\ (lenN t <= maxTok)%N
  | (s', None) => (ts = [] /\ Err s' = errof fin) \/ Err s' = Some ETooLong
  end.
Proof. intros HR. apply scan_loop_any; auto. unfold mu, scan_fuel; destruct (serr s); lia. Qed.

Lemma Scan_long s t ts fin : Rep s (t :: ts) fin -> (maxTok < lenN t)%N ->
  snd (Scan P maxTok s) = None /\ Err (fst (Scan P maxTok s)) = Some ETooLong.
Proof.
  intros HR HL. pose proof (Scan_any _ _ _ HR) as G. destruct (Scan P maxTok s) as [s' [u|]]; cbn.
  - destruct G as (ts' & E & _ & Q). injection E as -> _. lia.
  - destruct G as [[E _]|E]; [discriminate|auto].
Qed.

Lemma scan_all_spec n : forall s ts fin, length ts < n -> Rep s ts fin -> Forall short ts ->
  map (fun x => fst (fst x)) (fst (scan_all P maxTok n s)) = ts /\ snd (scan_all P maxTok n s) = errof fin.
Proof.
  induction n as [|n IH]; intros s ts fin HL HR HS; [lia|]. cbn [scan_all].
  pose proof (Scan_spec s ts fin HR ltac:(destruct ts; cbn; auto; inversion HS; auto)) as G. destruct (Scan P maxTok s) as [s' [t|]].
  - destruct G as (ts' & -> & G). cbn in HL. inversion HS; subst. specialize (IH s' ts' fin ltac:(lia) G ltac:(auto)).
    destruct (scan_all P maxTok n s') as [l e]. cbn in *. destruct IH as [-> ->]. auto.
  - destruct G as (-> & G & _). auto.
Qed.

Lemma scan_all_long n : forall s pre t post fin, length pre < n -> Rep s (pre ++ t :: post) fin -> Forall short pre -> (maxTok < lenN t)%N ->
  map (fun x => fst (fst x)) (fst (scan_all P maxTok n s)) = pre /\ snd (scan_all P maxTok n s) = Some ETooLong.
Proof.
  induction n as [|n IH]; intros s pre t post fin HL HR HS HT; [lia|]. cbn [scan_all].
  destruct pre as [|u pre].
  - destruct (Scan_long s t post fin HR HT) as [A B]. destruct (Scan P maxTok s) as [s' o]. cbn in A, B. subst o. auto.
  - inversion HS; subst.
    pose proof (Scan_spec s ((u :: pre) ++ t :: post) fin HR ltac:(cbn; auto)) as G. destruct (Scan P maxTok s) as [s' [v|]].
    + destruct G as (ts' & E & G). cbn in E. injection E as <- <-. cbn in HL.
      specialize (IH s' pre t post fin ltac:(lia) G ltac:(auto) HT).
      destruct (scan_all P maxTok n s') as [l e]. cbn in *. destruct IH as [-> ->]. auto.
    + destruct G as (E & _). discriminate.
Qed.

Lemma tokenize_spec rd : no_stall 0 (chunks rd) -> Forall short (toks P (concat (chunks rd))) ->
  map (fun x => fst (fst x)) (fst (tokenize P maxTok rd)) = toks P (concat (chunks rd)) /\
  snd (tokenize P maxTok rd) = errof (final rd).
Proof.
  intros H1 H2. apply scan_all_spec; auto; [pose proof (toks_length (concat (chunks rd))); lia|]. apply new_Rep; auto.
Qed.

Lemma tokenize_long rd pre t post : no_stall 0 (chunks rd) -> toks P (concat (chunks rd)) = pre ++ t :: post ->
  Forall short pre -> (maxTok < lenN t)%N ->
  map (fun x => fst (fst x)) (fst (tokenize P maxTok rd)) = pre /\ snd (tokenize P maxTok rd) = Some ETooLong.
Proof.
  intros H1 H2 H3 H4. eapply scan_all_long; eauto.
  - pose proof (toks_length (concat (chunks rd))) as Q. rewrite H2, app_length in Q. cbn in Q. lia.
  - rewrite <- H2. apply new_Rep; auto.
Qed.
End Scan.

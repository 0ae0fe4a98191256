From Coq Require Import String Ascii List Arith NArith ZArith Bool Lia.
From Verif Require Import NumModel GradeModel MetaModel MetaSpec.
Import ListNotations.
Local Open Scope string_scope.

Lemma app_assoc_s a b c : (a ++ b) ++ c = a ++ b ++ c.
Proof. induction a; cbn; congruence. Qed.
Lemma app_nil_s a : a ++ "" = a.
Proof. induction a; cbn; congruence. Qed.
Lemma has_cons c a s : has_char c (String a s) <-> c = a \/ has_char c s.
Proof. unfold has_char. cbn. intuition. Qed.
Lemma has_app c a b : has_char c (a ++ b) <-> has_char c a \/ has_char c b.
Proof. induction a as [|x a IH]; [unfold has_char; cbn; tauto|]. cbn [append]. rewrite !has_cons, IH. tauto. Qed.
Lemma slen_app a b : slen (a ++ b) = (slen a + slen b)%N.
Proof. unfold slen. induction a as [|x a IH]; cbn [append String.length]; [lia|]. lia. Qed.

Lemma raw_nonempty s : s <> "" -> raw_lines s <> [].
Proof.
  destruct s as [|c s]; [congruence|]. intros _. cbn. destruct (Ascii.eqb c LF); [discriminate|].
  destruct (raw_lines s); [discriminate|]. destruct s; discriminate.
Qed.
Lemma raw_app l : ~ has_char LF l -> forall s, raw_lines (l ++ String LF s) = l :: raw_lines s.
Proof.
  induction l as [|c l IH]; intros H s.
  - cbn. reflexivity.
  - rewrite has_cons in H. cbn [append raw_lines]. destruct (Ascii.eqb_spec c LF) as [->|]; [tauto|].
    rewrite IH by tauto. destruct l; reflexivity.
Qed.
Lemma raw_last l : ~ has_char LF l -> l <> "" -> raw_lines l = [l].
Proof.
  induction l as [|c l IH]; intros H HN; [congruence|].
  rewrite has_cons in H. cbn [raw_lines]. destruct (Ascii.eqb_spec c LF) as [->|]; [tauto|].
  destruct l as [|d l]; [reflexivity|]. rewrite IH; [reflexivity|tauto|discriminate].
Qed.
Lemma lines_of_raw s ls : lines_of s ls -> raw_lines s = ls.
Proof.
  induction 1 as [|l H1 H2|l s ls H1 H2 IH]; [reflexivity|apply raw_last; auto|]. rewrite raw_app, IH; auto.
Qed.
Lemma split_first_lf s : ~ has_char LF s \/ exists l r, s = l ++ String LF r /\ ~ has_char LF l.
Proof.
  induction s as [|c s IH]; [left; unfold has_char; cbn; tauto|].
  destruct (Ascii.eqb_spec c LF) as [->|NE]; [right; exists "", s; split; auto; unfold has_char; cbn; tauto|].
  destruct IH as [IH|(l & r & -> & IH)].
  - left. rewrite has_cons. intuition.
  - right. exists (String c l), r. split; auto. rewrite has_cons. intuition.
Qed.
Lemma lines_exist s : lines_of s (raw_lines s).
Proof.
  remember (String.length s) as n eqn:E. revert s E. induction n as [n IH] using lt_wf_ind. intros s E.
  destruct (split_first_lf s) as [H|(l & r & -> & H)].
  - destruct s as [|c s]; [constructor|]. rewrite raw_last by (auto; discriminate). constructor; auto; discriminate.
  - rewrite raw_app by auto. constructor; auto. apply (IH (String.length r)); auto. subst n.
    clear. induction l; cbn; lia.
Qed.

Lemma drop_cr_app l : drop_cr (l ++ String CR "") = l.
Proof.
  induction l as [|c l IH]; [reflexivity|]. cbn [append drop_cr]. destruct (l ++ String CR "") eqn:E; [destruct l; discriminate E|].
  rewrite IH. reflexivity.
Qed.
Lemma drop_cr_none l : (forall p, l <> p ++ String CR "") -> drop_cr l = l.
Proof.
  induction l as [|c l IH]; intros H; [reflexivity|]. cbn [drop_cr]. destruct l as [|d l].
  - destruct (Ascii.eqb_spec c CR) as [->|]; auto. exfalso. apply (H ""). reflexivity.
  - rewrite IH; auto. intros p E. apply (H (String c p)). cbn. congruence.
Qed.
Lemma drop_cr_has c l : c <> CR -> (has_char c (drop_cr l) <-> has_char c l).
Proof.
  intros HC. induction l as [|d l IH]; [reflexivity|]. cbn [drop_cr]. destruct l as [|e l].
  - destruct (Ascii.eqb_spec d CR) as [->|]; [|reflexivity]. rewrite has_cons. unfold has_char. cbn. intuition.
  - rewrite !(has_cons c d). rewrite IH. reflexivity.
Qed.
Lemma chomped_drop l l' : chomped l l' -> drop_cr l = l'.
Proof. intros [->|[-> H]]; [apply drop_cr_app|apply drop_cr_none; auto]. Qed.
Lemma split_colon_app k v : ~ has_char ":" k -> split_colon (k ++ String ":" v) = Some (k, v).
Proof.
  induction k as [|c k IH]; intros H; [reflexivity|]. rewrite has_cons in H. cbn [append split_colon].
  destruct (Ascii.eqb_spec c ":") as [->|]; [tauto|]. rewrite IH; tauto.
Qed.
Lemma split_colon_none s : split_colon s = None <-> ~ has_char ":" s.
Proof.
  induction s as [|c s IH]; [cbn; unfold has_char; cbn; tauto|]. cbn [split_colon]. rewrite has_cons.
  destruct (Ascii.eqb_spec c ":") as [->|]; [split; [discriminate|tauto]|]. destruct (split_colon s) as [[k v]|].
  - split; [discriminate|]. intros H. exfalso. assert (X : Some (k, v) = @None (string * string)) by (apply IH; tauto). discriminate X.
  - split; [|auto]. intros _. assert (~ has_char ":" s) by (apply IH; auto). intuition.
Qed.
Lemma split_colon_some s k v : split_colon s = Some (k, v) -> s = k ++ ":" ++ v /\ ~ has_char ":" k.
Proof.
  revert k v. induction s as [|c s IH]; intros k v; [discriminate|]. cbn [split_colon].
  destruct (Ascii.eqb_spec c ":") as [->|]; [intros H; injection H as <- <-; split; [reflexivity|unfold has_char; cbn; tauto]|].
  destruct (split_colon s) as [[k' v']|]; [|discriminate]. intros H; injection H as <- <-.
  destruct (IH k' v' eq_refl) as [-> H]. split; [reflexivity|]. rewrite has_cons. intuition.
Qed.
Lemma chomped_exists l : chomped l (drop_cr l).
Proof.
  assert (D : (exists p, l = p ++ String CR "") \/ forall p, l <> p ++ String CR "").
  { induction l as [|c l [(p & IH)|IH]].
    - right. intros [|? ?]; discriminate.
    - left. exists (String c p). cbn. congruence.
    - destruct l as [|d l].
      + destruct (Ascii.eqb_spec c CR) as [->|]; [left; exists ""; auto|]. right. intros [|a p]; cbn; [congruence|].
        intros E. injection E as _ E. destruct p; discriminate E.
      + right. intros [|a p]; cbn; [discriminate|]. intros E. injection E as _ E. apply (IH p). auto. }
  destruct D as [(p & ->)|D]; [rewrite drop_cr_app; left; auto|right; rewrite drop_cr_none by auto; auto].
Qed.

Section S.
Variable pf : string -> float64.
Definition apply_fields (m : metadata) (fs : list (string * string)) : metadata :=
  fold_left (fun m kv => set_field pf m (fst kv) (snd kv)) fs m.
Lemma scan_ok ls fs : Forall2 is_field ls fs -> forall m rest, scan_fields pf m (ls ++ rest)%list = scan_fields pf (apply_fields m fs) rest.
Proof.
  induction 1 as [|l [k v] ls fs (H1 & H2 & H3) H IH]; intros m rest; [reflexivity|]. cbn [app scan_fields].
  destruct (N.leb_spec MaxScanTokenSize (slen l)) as [X|X]; [unfold MaxScanTokenSize in X; lia|].
  rewrite (chomped_drop _ _ H2). cbn [fst snd]. change (":" ++ v) with (String ":" v). rewrite split_colon_app by auto. rewrite IH. reflexivity.
Qed.
Lemma scan_bad m l rest : not_field l -> scan_fields pf m (l :: rest) = (m, true).
Proof.
  intros H. cbn [scan_fields]. destruct (N.leb_spec MaxScanTokenSize (slen l)) as [X|X]; auto.
  destruct H as [H|H]; [unfold MaxScanTokenSize in X; lia|].
  assert (E : split_colon (drop_cr l) = None) by (apply split_colon_none; rewrite drop_cr_has; auto; discriminate).
  rewrite E. reflexivity.
Qed.
Lemma scan_cases ls : (exists fs, Forall2 is_field ls fs) \/
  exists pre l post fs, ls = (pre ++ l :: post)%list /\ Forall2 is_field pre fs /\ not_field l.
Proof.
  induction ls as [|l ls IH]; [left; exists []; constructor|].
  destruct (N.ltb_spec (slen l) 65536) as [HL|HL].
  - destruct (split_colon (drop_cr l)) as [[k v]|] eqn:E.
    + apply split_colon_some in E. destruct E as [E1 E2].
      assert (F : is_field l (k, v)) by (split; [auto|split; [cbn [fst snd]; rewrite <- E1; apply chomped_exists|auto]]).
      destruct IH as [(fs & IH)|(pre & b & post & fs & -> & IH & Hb)].
      * left. exists ((k, v) :: fs). constructor; auto.
      * right. exists (l :: pre), b, post, ((k, v) :: fs). split; auto.
    + right. exists [], l, ls, []. split; auto. split; [constructor|]. right. apply split_colon_none in E. rewrite drop_cr_has in E; auto. discriminate.
  - right. exists [], l, ls, []. split; auto. split; [constructor|]. left. auto.
Qed.

(* fields *)
Lemma latest_snoc_in ks fs kv : In (fst kv) ks -> latest ks (fs ++ [kv])%list kv.
Proof. intros H. exists fs, []. split; [auto|]. split; [auto|]. intros ? []. Qed.
Lemma latest_snoc_out ks fs kv kv' : ~ In (fst kv') ks -> latest ks fs kv -> latest ks (fs ++ [kv'])%list kv.
Proof.
  intros H (pre & post & -> & H1 & H2). exists pre, (post ++ [kv'])%list. split; [rewrite <- app_assoc; auto|]. split; auto.
  intros x Hx. apply in_app_or in Hx. destruct Hx as [Hx|[<-|[]]]; auto.
Qed.
Lemma absent_snoc ks fs kv : ~ In (fst kv) ks -> absent ks fs -> absent ks (fs ++ [kv])%list.
Proof. intros H1 H2 x Hx. apply in_app_or in Hx. destruct Hx as [Hx|[<-|[]]]; auto. Qed.
Definition repr (fs : list (string * string)) (m : metadata) : Prop :=
  exit_of fs (d_exit m) /\ memory_of fs (d_mem m) /\ signal_of fs (d_signal m) /\ d_verdict m = JE.
Ltac keep H := 
  match type of H with
  | exit_of _ _ => destruct H as [[H ?]|(? & H & ?)]; [left; split; [apply absent_snoc; auto; cbn; intuition congruence|auto]|right; eexists; split; [apply latest_snoc_out; [cbn; intuition congruence|exact H]|auto]]
  | memory_of _ _ => destruct H as [[H ?]|(? & H & ?)]; [left; split; [apply absent_snoc; auto; cbn; intuition congruence|auto]|right; eexists; split; [apply latest_snoc_out; [cbn; intuition congruence|exact H]|auto]]
  | signal_of _ _ => destruct H as [[H ?]|(? & [[H ?]|[H ?]])];
     [left; split; [apply absent_snoc; auto; cbn; intuition congruence|auto]
     |right; eexists; left; split; [apply latest_snoc_out; [cbn; intuition congruence|exact H]|auto]
     |right; eexists; right; split; [apply latest_snoc_out; [cbn; intuition congruence|exact H]|auto]]
  end.
Lemma repr_step fs m k v : repr fs m -> repr (fs ++ [(k, v)])%list (set_field pf m k v).
Proof.
  intros (H1 & H2 & H3 & H4). destruct m as [ve ex ti sy wa me sg sc]. cbn in *. unfold set_field, repr.
  destruct (String.eqb_spec k "status") as [->|N1].
  { cbn. split; [right; exists v; split; auto; apply latest_snoc_in; cbn; auto|]. split; [keep H2|]. split; [keep H3|auto]. }
  destruct (String.eqb_spec k "time") as [->|N2]; [cbn; split; [keep H1|split; [keep H2|split; [keep H3|auto]]]|].
  destruct (String.eqb_spec k "time-sys") as [->|N3]; [cbn; split; [keep H1|split; [keep H2|split; [keep H3|auto]]]|].
  destruct (String.eqb_spec k "time-wall") as [->|N4]; [cbn; split; [keep H1|split; [keep H2|split; [keep H3|auto]]]|].
  destruct (String.eqb_spec k "mem") as [->|N5].
  { cbn. split; [keep H1|]. split; [right; exists v; split; auto; apply latest_snoc_in; cbn; auto|]. split; [keep H3|auto]. }
  destruct (String.eqb_spec k "signal") as [->|N6].
  { cbn. split; [keep H1|]. split; [keep H2|]. split; [right; exists v; left; split; auto; apply latest_snoc_in; cbn; auto|auto]. }
  destruct (String.eqb_spec k "signal_number") as [->|N7].
  { cbn. split; [keep H1|]. split; [keep H2|]. split; [right; exists v; right; split; auto; apply latest_snoc_in; cbn; auto|auto]. }
  destruct (String.eqb_spec k "syscall") as [->|N8]; [cbn; split; [keep H1|split; [keep H2|split; [keep H3|auto]]]|].
  destruct (String.eqb_spec k "syscall_number") as [->|N9]; [cbn; split; [keep H1|split; [keep H2|split; [keep H3|auto]]]|].
  cbn. split; [keep H1|split; [keep H2|split; [keep H3|auto]]].
Qed.
Lemma repr_apply fs : forall pre m, repr pre m -> repr (pre ++ fs)%list (apply_fields m fs).
Proof.
  induction fs as [|[k v] fs IH]; intros pre m H; cbn; [rewrite app_nil_r; auto|].
  replace (pre ++ (k, v) :: fs)%list with ((pre ++ [(k, v)]) ++ fs)%list by (rewrite <- app_assoc; auto).
  apply IH. apply repr_step. auto.
Qed.
Lemma repr0 : repr [] md0.
Proof. split; [left|split; [left|split; [left|auto]]]; (split; [intros ? []|auto]). Qed.
Definition repr2 (fs : list (string * string)) (m : metadata) : Prop :=
  time_of pf fzero "time" fs (d_time m) /\ time_of pf fzero "time-sys" fs (d_sys m) /\
  time_of pf fzero "time-wall" fs (d_wall m) /\ syscall_of fs (d_syscall m).
Lemma time_keep key fs x k v : k <> key -> time_of pf fzero key fs x -> time_of pf fzero key (fs ++ [(k, v)])%list x.
Proof.
  intros N [[H1 H2]|(w & H1 & H2)]; [left; split; [apply absent_snoc; [cbn; intuition congruence|]|]; auto|].
  right. exists w. split; auto. apply latest_snoc_out; auto. cbn. intuition congruence.
Qed.
Lemma time_new key fs v : time_of pf fzero key (fs ++ [(key, v)])%list (pf v).
Proof. right. exists v. split; auto. apply latest_snoc_in. cbn. auto. Qed.
Lemma syscall_keep fs x k v : k <> "syscall" -> k <> "syscall_number" -> syscall_of fs x -> syscall_of (fs ++ [(k, v)])%list x.
Proof.
  intros N1 N2 [[H1 H2]|(w & [[H1 H2]|[H1 H2]])].
  - left. split; [apply absent_snoc; [cbn; intuition congruence|]|]; auto.
  - right. exists w. left. split; auto. apply latest_snoc_out; auto. cbn. intuition congruence.
  - right. exists w. right. split; auto. apply latest_snoc_out; auto. cbn. intuition congruence.
Qed.
Lemma repr2_step fs m k v : repr2 fs m -> repr2 (fs ++ [(k, v)])%list (set_field pf m k v).
Proof.
  intros (H1 & H2 & H3 & H4). destruct m as [ve ex ti sy wa me sg sc]. cbn in *. unfold set_field, repr2.
  destruct (String.eqb_spec k "status") as [->|N1]; [|
  destruct (String.eqb_spec k "time") as [->|N2]; [|
  destruct (String.eqb_spec k "time-sys") as [->|N3]; [|
  destruct (String.eqb_spec k "time-wall") as [->|N4]; [|
  destruct (String.eqb_spec k "mem") as [->|N5]; [|
  destruct (String.eqb_spec k "signal") as [->|N6]; [|
  destruct (String.eqb_spec k "signal_number") as [->|N7]; [|
  destruct (String.eqb_spec k "syscall") as [->|N8]; [|
  destruct (String.eqb_spec k "syscall_number") as [->|N9]]]]]]]]]; cbn [d_time d_sys d_wall d_syscall];
  (split; [first [apply time_new|apply time_keep; [congruence|exact H1]]|]);
  (split; [first [apply time_new|apply time_keep; [congruence|exact H2]]|]);
  (split; [first [apply time_new|apply time_keep; [congruence|exact H3]]|]);
  try (apply syscall_keep; [congruence|congruence|exact H4]).
  - right. exists v. left. split; auto. apply latest_snoc_in. cbn. auto.
  - right. exists v. right. split; auto. apply latest_snoc_in. cbn. auto.
Qed.
Lemma repr2_apply fs : forall pre m, repr2 pre m -> repr2 (pre ++ fs)%list (apply_fields m fs).
Proof.
  induction fs as [|[k v] fs IH]; intros pre m H; cbn; [rewrite app_nil_r; auto|].
  replace (pre ++ (k, v) :: fs)%list with ((pre ++ [(k, v)]) ++ fs)%list by (rewrite <- app_assoc; auto).
  apply IH. apply repr2_step. auto.
Qed.
Lemma repr2_0 : repr2 [] md0.
Proof. split; [left|split; [left|split; [left|left]]]; (split; [intros ? []|auto]). Qed.
End S.

(* ---- isJavaMLE ---- *)
Lemma take_drop n s : take n s ++ drop n s = s.
Proof. revert s. induction n as [|n IH]; intros [|c s]; cbn; auto. rewrite IH. auto. Qed.
Lemma is_prefix_app p s : is_prefix p (p ++ s) = true.
Proof. induction p; cbn; auto. rewrite Ascii.eqb_refl. auto. Qed.
Lemma is_prefix_split p s : is_prefix p s = true -> exists r, s = p ++ r.
Proof.
  revert s. induction p as [|a p IH]; intros s H; [exists s; reflexivity|]. destruct s as [|b s]; [cbn in H; discriminate H|]. cbn in H.
  apply andb_true_iff in H. destruct H as [H1 H2]. apply Ascii.eqb_eq in H1. destruct (IH s H2) as (r & ->). exists r. subst; auto.
Qed.
Lemma contains_spec p s : contains p s = true <-> exists a b, s = a ++ p ++ b.
Proof.
  split.
  - induction s as [|c s IH]; cbn; intros H; apply orb_true_iff in H; destruct H as [H|H]; try discriminate.
    + apply is_prefix_split in H. destruct H as (r & E). exists "", r. auto.
    + apply is_prefix_split in H. destruct H as (r & E). exists "", r. auto.
    + destruct (IH H) as (a & b & ->). exists (String c a), b. auto.
  - intros (a & b & ->). induction a as [|c a IH]; cbn [append].
    + assert (E : is_prefix p (p ++ b) = true) by apply is_prefix_app. destruct (p ++ b); cbn; cbn in E; rewrite E; auto.
    + cbn. rewrite IH. apply orb_true_r.
Qed.
Lemma drop_cr_prefix l : exists r, l = drop_cr l ++ r.
Proof. destruct (chomped_exists l) as [H|[H _]]; [exists (String CR ""); auto|exists ""; rewrite app_nil_s; auto]. Qed.
Lemma drop_S i : forall s, drop i s = match drop i s with "" => "" | String c _ => String c "" end ++ drop (S i) s.
Proof.
  induction i as [|i IH]; intros [|c s]; auto. change (drop (S i) (String c s)) with (drop i s).
  change (drop (S (S i)) (String c s)) with (drop (S i) s). apply IH.
Qed.
Lemma readline_split size s l s' : ReadLine size s = Some (l, s') -> exists m, s = l ++ m ++ s'.
Proof.
  unfold ReadLine. destruct s as [|c s0]; [discriminate|]. set (s := String c s0).
  destruct (index_lf (take size s) 0) as [i|].
  - intros H; injection H as <- <-. destruct (drop_cr_prefix (take i s)) as (r & E).
    exists (r ++ match drop i s with "" => "" | String c _ => String c "" end).
    rewrite <- (take_drop i s) at 1. rewrite E at 1. rewrite !app_assoc_s. f_equal. f_equal.
    apply drop_S.
  - destruct (_ <=? _)%nat.
    + intros H; injection H as <- <-. exists "". cbn. symmetry. apply take_drop.
    + intros H; injection H as <- <-. exists "". cbn. rewrite app_nil_s. auto.
Qed.
Lemma java_mle_sound size fuel s : java_mle size fuel s = true -> contains "java.lang.OutOfMemoryError" s = true.
Proof.
  revert s. induction fuel as [|f IH]; intros s H; [discriminate|]. cbn [java_mle] in H.
  destruct (ReadLine size s) as [[l s']|] eqn:E; [|discriminate]. apply readline_split in E. destruct E as (m & ->).
  apply contains_spec. apply orb_true_iff in H. destruct H as [H|H].
  - apply contains_spec in H. destruct H as (a & b & ->). exists a, (b ++ m ++ s'). rewrite !app_assoc_s. auto.
  - apply IH in H. apply contains_spec in H. destruct H as (a & b & ->). exists (l ++ m ++ a), b. rewrite !app_assoc_s. auto.
Qed.
Lemma index_lf_app l r : ~ has_char LF l -> forall i, index_lf (l ++ String LF r) i = Some (String.length l + i)%nat.
Proof.
  induction l as [|c l IH]; intros H i; [reflexivity|]. rewrite has_cons in H. cbn. destruct (Ascii.eqb_spec c LF) as [->|]; [tauto|].
  rewrite IH by tauto. f_equal. lia.
Qed.
Lemma index_lf_none l : ~ has_char LF l -> forall i, index_lf l i = None.
Proof.
  induction l as [|c l IH]; intros H i; [reflexivity|]. rewrite has_cons in H. cbn. destruct (Ascii.eqb_spec c LF) as [->|]; [tauto|].
  apply IH. tauto.
Qed.
Lemma take_app l r : forall n, (String.length l <= n)%nat -> take n (l ++ r) = l ++ take (n - String.length l) r.
Proof.
  induction l as [|c l IH]; intros n H; [cbn; f_equal; lia|]. cbn in H. destruct n as [|n]; [lia|]. cbn. rewrite IH by lia. reflexivity.
Qed.
Lemma drop_app l r : drop (S (String.length l)) (l ++ String LF r) = r.
Proof. induction l as [|c l IH]; [reflexivity|]. cbn [append String.length]. cbn in *. auto. Qed.
Lemma length_app_s a b : String.length (a ++ b) = (String.length a + String.length b)%nat.
Proof. induction a; cbn; auto. Qed.
Lemma take_len l : take (String.length l) l = l.
Proof. induction l; cbn; congruence. Qed.
Lemma java_mle_complete s ls : lines_of s ls -> Forall (fun l => (String.length l < 4096)%nat) ls ->
  forall fuel, (String.length s < fuel)%nat -> (exists l, In l ls /\ contains "java.lang.OutOfMemoryError" l = true) -> java_mle 4096 fuel s = true.
Proof.
  induction 1 as [|l HN HL|l s ls HL H IH]; intros HF fuel HB (x & Hx & HC).
  - destruct Hx.
  - destruct Hx as [<-|[]]. inversion HF as [|? ? F1 _]; subst. destruct fuel as [|f]; [lia|]. cbn [java_mle].
    assert (E : ReadLine 4096 l = Some (l, "")).
    { unfold ReadLine. destruct l as [|c l0]; [congruence|]. set (l := String c l0) in *.
      assert (T : take 4096 l = l).
      { rewrite <- (app_nil_s l) at 1. rewrite take_app by lia. destruct (4096 - String.length l)%nat; cbn [take]; apply app_nil_s. }
      rewrite T, index_lf_none by auto. destruct (Nat.leb_spec 4096 (String.length l)); [lia|]. reflexivity. }
    rewrite E, HC. reflexivity.
  - inversion HF as [|? ? F1 F2]; subst. destruct fuel as [|f]; [lia|].
    rewrite length_app_s in HB. cbn [String.length] in HB. cbn [java_mle].
    assert (E : ReadLine 4096 (l ++ String LF s) = Some (drop_cr l, s)).
    { unfold ReadLine. destruct (l ++ String LF s) as [|c t] eqn:ES; [destruct l; discriminate ES|]. rewrite <- ES.
      rewrite take_app by lia. destruct (4096 - String.length l)%nat as [|n] eqn:EN; [lia|]. cbn [take]. rewrite index_lf_app by auto.
      rewrite Nat.add_0_r, drop_app, take_app by lia. rewrite Nat.sub_diag. cbn [take]. rewrite app_nil_s. reflexivity. }
    rewrite E. destruct Hx as [<-|Hx].
    + apply orb_true_iff. left. apply contains_spec in HC. destruct HC as (a & b & ->).
      apply contains_spec. exists a. clear. 
      assert (X : drop_cr (a ++ "java.lang.OutOfMemoryError" ++ b) = a ++ "java.lang.OutOfMemoryError" ++ drop_cr b).
      { assert (Y : forall u w, w <> "" -> drop_cr (u ++ w) = u ++ drop_cr w).
        { clear. induction u as [|c u IH]; intros w Hw; [reflexivity|]. cbn [append drop_cr]. specialize (IH w Hw).
          destruct (u ++ w) eqn:E; [exfalso; apply Hw; destruct u; [exact E|discriminate E]|]. rewrite IH. reflexivity. }
        rewrite Y by discriminate. f_equal. destruct b as [|c b]; [reflexivity|]. apply Y. discriminate. }
      rewrite X. eauto.
    + apply orb_true_iff. right. apply IH; auto; [lia|eauto].
Qed.

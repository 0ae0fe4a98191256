(* Proofs about output-only submissions. *)
From Coq Require Import String Ascii List Arith NArith ZArith Bool Lia.
From Verif Require Import OutModel OutSpec.
Import ListNotations.
Local Open Scope string_scope.

Lemma str_app_assoc (a b c : string) : (a ++ b) ++ c = a ++ (b ++ c).
Proof. induction a as [|x a IH]; cbn; [auto|]. rewrite IH; auto. Qed.
Lemma str_app_nil (a : string) : a ++ "" = a.
Proof. induction a as [|x a IH]; cbn; [auto|]. rewrite IH; auto. Qed.
Lemma str_app_len (a b : string) : String.length (a ++ b) = (String.length a + String.length b)%nat.
Proof. induction a as [|x a IH]; cbn; [auto|]. rewrite IH; auto. Qed.
Lemma no_slash_cons c s : no_slash (String c s) <-> c <> "/"%char /\ no_slash s.
Proof. unfold no_slash. cbn. intuition. Qed.

Lemma after_slash_none s : no_slash s -> forall acc, after_slash s acc = acc.
Proof.
  induction s as [|c s IH]; intros H acc; cbn; [auto|]. apply no_slash_cons in H. destruct H as [H1 H2].
  destruct (Ascii.eqb_spec c "/"); [congruence|auto].
Qed.
Lemma after_slash_app dir b : no_slash b -> forall acc, after_slash (dir ++ "/" ++ b) acc = b.
Proof.
  intros H. induction dir as [|c dir IH]; intros acc.
  - cbn. apply after_slash_none, H.
  - cbn [append after_slash]. destruct (Ascii.eqb_spec c "/"); apply IH.
Qed.
Lemma slash_split s : no_slash s \/ exists dir b, s = dir ++ "/" ++ b /\ no_slash b.
Proof.
  induction s as [|c s IH]; [left; unfold no_slash; cbn; auto|]. destruct IH as [IH|(dir & b & -> & H)].
  - destruct (Ascii.eqb_spec c "/") as [->|N]; [right; exists "", s; auto|left; apply no_slash_cons; auto].
  - right. exists (String c dir), b. auto.
Qed.
Lemma names_base e n : names e n <-> base_name (z_name e) = n.
Proof.
  unfold names, base_name. split.
  - intros (H & [E|(dir & E)]); rewrite E; [apply after_slash_none; auto|apply after_slash_app; auto].
  - destruct (slash_split (z_name e)) as [H|(dir & b & E & H)].
    + rewrite after_slash_none by auto. intros <-. auto.
    + rewrite E, after_slash_app by auto. intros <-. eauto.
Qed.

Lemma substring_all (s : string) : substring 0 (String.length s) s = s.
Proof. induction s as [|c s IH]; cbn; [auto|]. rewrite IH; auto. Qed.
Lemma substring_app (a s : string) : substring (String.length a) (String.length s) (a ++ s) = s.
Proof. induction a as [|c a IH]; cbn [append String.length substring]; [apply substring_all|apply IH]. Qed.
Lemma has_suffix_app suf a : has_suffix suf (a ++ suf) = true.
Proof.
  unfold has_suffix. rewrite str_app_len. replace (String.length a + String.length suf - String.length suf)%nat with (String.length a) by lia.
  rewrite substring_app, String.eqb_refl. rewrite andb_true_r. apply Nat.leb_le. lia.
Qed.

Lemma lookup_assign k v m n : lookup n (assign k v m) = if n =? k then Some v else lookup n m.
Proof.
  cbn. destruct (String.eqb_spec n k) as [->|N]; [auto|]. induction m as [|[k' v'] m IH]; cbn; [auto|].
  destruct (String.eqb_spec k k') as [->|N']; cbn.
  - rewrite IH. destruct (String.eqb_spec n k'); [congruence|auto].
  - destruct (n =? k'); auto.
Qed.

(* What the entry contributes, as a function. *)
Definition contrib (limit : Z) (e : zentry) : option outfile :=
  if (limit <? Z.of_N (z_declared e))%Z then Some (mkO "" true)
  else match zread e with Some s => Some (mkO s false) | None => None end.
Lemma contrib_spec limit e f : contrib limit e = Some f <-> contributes limit e f.
Proof.
  unfold contrib. destruct (Z.ltb_spec limit (Z.of_N (z_declared e))) as [L|L].
  - split; [intros H; injection H as <-; constructor; auto|]. intros H; inversion H; [auto|lia].
  - unfold zread, slen. split.
    + destruct (z_data e) as [s|] eqn:E; [|discriminate]. destruct (N.eqb_spec (N.of_nat (String.length s)) (z_declared e)) as [Q|Q]; [|discriminate].
      intros H; injection H as <-. constructor; [auto|split; auto].
    + intros H; inversion H as [|s HL [H1 H2]]; [lia|]. rewrite H1, H2, N.eqb_refl. auto.
Qed.

Lemma entry_step_lookup cases limit m e n : (0 <= limit < 2 ^ 63)%Z ->
  lookup n (entry_step (expected_names cases) limit m e) =
  if (base_name (z_name e) =? n) && existsb (String.eqb n) (expected_names cases)
  then match contrib limit e with Some f => Some f | None => lookup n m end else lookup n m.
Proof.
  intros HL. unfold entry_step.
  assert (U : to_uint64 limit = Z.to_N limit) by (unfold to_uint64; rewrite Z.mod_small by lia; auto).
  assert (LT : (to_uint64 limit <? z_declared e)%N = (limit <? Z.of_N (z_declared e))%Z).
  { rewrite U. destruct (N.ltb_spec (Z.to_N limit) (z_declared e)), (Z.ltb_spec limit (Z.of_N (z_declared e))); auto; lia. }
  rewrite LT.
  destruct (existsb (String.eqb (base_name (z_name e))) (expected_names cases)) eqn:EX.
  - assert (SUF : has_suffix ".out" (z_name e) = true).
    { apply existsb_exists in EX. destruct EX as (x & H & E). apply String.eqb_eq in E. subst x. apply in_map_iff in H. destruct H as (c & H & _).
      symmetry in H. apply names_base in H. destruct H as (_ & [->|(dir & ->)]); [apply has_suffix_app|].
      rewrite <- !str_app_assoc. apply has_suffix_app. }
    rewrite SUF. cbn [negb]. unfold contrib.
    destruct (String.eqb_spec (base_name (z_name e)) n) as [<-|N].
    + rewrite EX. cbn [andb]. destruct (limit <? Z.of_N (z_declared e))%Z; [rewrite lookup_assign, String.eqb_refl; auto|].
      destruct (zread e); [rewrite lookup_assign, String.eqb_refl; auto|auto].
    + cbn [andb]. destruct (limit <? Z.of_N (z_declared e))%Z; [|destruct (zread e); [|auto]]; rewrite lookup_assign;
        (destruct (String.eqb_spec n (base_name (z_name e))); [congruence|auto]).
  - assert (R : (if negb (has_suffix ".out" (z_name e)) then m else
        if negb false then m else if (limit <? Z.of_N (z_declared e))%Z then assign (base_name (z_name e)) (mkO "" true) m
        else match zread e with Some s => assign (base_name (z_name e)) (mkO s false) m | None => m end) = m) by (destruct (has_suffix _ _); auto).
    rewrite R. destruct (String.eqb_spec (base_name (z_name e)) n) as [<-|N]; [rewrite EX; auto|auto].
Qed.

Lemma in_expected n cases : existsb (String.eqb n) (expected_names cases) = true <-> In n (expected_names cases).
Proof.
  rewrite existsb_exists. split; [intros (x & H & E); apply String.eqb_eq in E; subst; auto|].
  intros H. exists n. split; [auto|apply String.eqb_refl].
Qed.

Lemma last_for_snoc limit n files e f : last_for limit n (files ++ [e]) f <->
  (names e n /\ contributes limit e f) \/ (last_for limit n files f /\ ~ (names e n /\ exists f', contributes limit e f')).
Proof.
  split.
  - intros (pre & x & post & E & H1 & H2 & H3). destruct post as [|y post _] using rev_ind.
    + apply app_inj_tail in E. destruct E as [<- <-]. left. auto.
    + rewrite app_comm_cons, app_assoc in E. apply app_inj_tail in E. destruct E as [-> <-]. right. split.
      * exists pre, x, post. split; [auto|]. split; [auto|]. split; [auto|]. intros e' f' I. apply H3. apply in_or_app; auto.
      * intros (N & f' & C). apply (H3 e f'); auto. apply in_or_app; cbn; auto.
  - intros [[H1 H2]|((pre & x & post & -> & H1 & H2 & H3) & N)].
    + exists files, e, []. split; [auto|]. split; [auto|]. split; [auto|]. intros ? ? [].
    + exists pre, x, (post ++ [e])%list. rewrite <- app_assoc. split; [auto|]. split; [auto|]. split; [auto|].
      intros e' f' I NM C. apply in_app_or in I. destruct I as [I|[<-|[]]]; [eapply H3; eauto|]. apply N. eauto.
Qed.

Lemma fold_lookup cases limit files : (0 <= limit < 2 ^ 63)%Z -> forall n f,
  lookup n (fold_left (entry_step (expected_names cases) limit) files []) = Some f <-> In n (expected_names cases) /\ last_for limit n files f.
Proof.
  intros HL. induction files as [|e files IH] using rev_ind; intros n f.
  - cbn. split; [discriminate|]. intros (_ & pre & x & post & E & _). destruct pre; discriminate E.
  - rewrite fold_left_app. cbn [fold_left]. rewrite entry_step_lookup by auto. rewrite last_for_snoc.
    destruct (existsb (String.eqb n) (expected_names cases)) eqn:EX.
    + apply in_expected in EX. rewrite andb_true_r. destruct (String.eqb_spec (base_name (z_name e)) n) as [E|N].
      * apply names_base in E. destruct (contrib limit e) as [g|] eqn:C.
        -- apply contrib_spec in C. split.
           ++ intros H; injection H as <-. auto.
           ++ intros (_ & [[_ H]|[_ H]]); [|elim H; eauto]. apply contrib_spec in C, H. congruence.
        -- rewrite IH. split; [intros [A B]; split; [auto|right; split; [auto|]]; intros (_ & f' & H); apply contrib_spec in H; congruence|].
           intros (A & [[_ H]|[B _]]); [apply contrib_spec in H; congruence|auto].
      * assert (NN : ~ names e n) by (rewrite names_base; auto). rewrite IH. tauto.
    + rewrite andb_false_r. assert (NI : ~ In n (expected_names cases)) by (rewrite <- in_expected; congruence). rewrite IH. tauto.
Qed.

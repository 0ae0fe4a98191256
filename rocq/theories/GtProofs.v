(* Lemmas about the walk of a git tree. *)
From Coq Require Import String Ascii List Bool ZArith Lia.
From Verif Require Import GoStr InModel InSpec InProofs InReload InRunnerProofs GtModel GtSpec.
Import ListNotations.
Local Open Scope string_scope.
Local Open Scope list_scope.

(* ---- Names ---- *)
Definition proper_path (p : path) : Prop := forall s, In s p -> git_name s.
Lemma fold_clean l : forall p, proper_path l -> fold_left clean_seg l p = p ++ l.
Proof.
  induction l as [|s l IH]; intros p H; cbn; [rewrite app_nil_r; auto|].
  destruct (H s (or_introl eq_refl)) as (A & B & C & _). unfold clean_seg at 2.
  destruct (String.eqb_spec s ""); [tauto|]. destruct (String.eqb_spec s "."); [tauto|]. destruct (String.eqb_spec s ".."); [tauto|]. cbn.
  rewrite IH by (intros x Hx; apply H; right; auto). rewrite <- app_assoc. auto.
Qed.
Lemma fold_clean_empty l p : fold_left clean_seg ("" :: l) p = fold_left clean_seg l p. Proof. reflexivity. Qed.
Lemma proper_app p n : proper_path p -> git_name n -> proper_path (p ++ [n]).
Proof. intros A B s H. apply in_app_iff in H as [H|[<-|[]]]; auto. Qed.
Lemma split_path p : p <> [] -> proper_path p -> split "/" (join "/" p) = p.
Proof. intros H P. apply split_join; [auto|]. apply Forall_forall. intros x Hx. apply (P x Hx). Qed.
Lemma clean_path p s : proper_path p -> p <> [] -> (exists c t, s = String c t /\ c <> "/"%char) -> fold_left clean_seg (split "/" s) [] = p -> Clean s = join "/" p.
Proof.
  intros P N (c & t & -> & NC) E. unfold Clean. destruct (Ascii.eqb_spec c "/"); [tauto|]. rewrite E. destruct p; [tauto|auto].
Qed.
Lemma head_plain p r : proper_path p -> p <> [] -> exists c t, (join "/" p ++ r)%string = String c t /\ c <> "/"%char.
Proof.
  intros P N. destruct p as [|s p]; [tauto|]. destruct (P s (or_introl eq_refl)) as (A & _ & _ & D). destruct s as [|c s]; [tauto|].
  assert (E : exists t, join "/" (String c s :: p) = String c t) by (destruct p; cbn; eauto). destruct E as (t & ->).
  exists c, (t ++ r)%string. split; [auto|]. intros ->. apply D. apply contains_cons. auto.
Qed.
(* The parent's name that the walk passes on. *)
Definition parent_of (p : path) : string := match p with [] => "" | _ => (join "/" p ++ "/")%string end.
Lemma parent_snoc p n : (parent_of p ++ n ++ "/")%string = parent_of (p ++ [n]).
Proof.
  destruct p as [|a p]; [reflexivity|]. unfold parent_of. change ((a :: p) ++ [n]) with (a :: p ++ [n]) at 1. cbv iota.
  rewrite (join_app "/" (a :: p) [n]) by discriminate. cbn [join]. rewrite !append_assoc. reflexivity.
Qed.
Lemma Join_path p n : proper_path p -> git_name n -> Join (parent_of p) n = join "/" (p ++ [n]).
Proof.
  intros P N. assert (Q := proper_app _ _ P N). destruct N as (A & _ & _ & D). unfold Join, parent_of. destruct p as [|a p].
  - cbn. destruct (String.eqb_spec n ""); [tauto|]. change n with (join "/" ([] ++ [n])) at 2. apply clean_path; [exact Q|discriminate| |].
    + destruct n as [|c n]; [tauto|]. exists c, n. split; [auto|]. intros ->. apply D, contains_cons. auto.
    + rewrite split_single by auto. apply fold_clean, Q.
  - destruct (String.eqb_spec (join "/" (a :: p) ++ "/") "") as [E|_].
    { destruct (head_plain (a :: p) "/" P) as (c & t & X & _); [discriminate|]. rewrite X in E. discriminate. }
    destruct (String.eqb_spec n ""); [tauto|]. apply clean_path; [exact Q|discriminate| |].
    + rewrite append_assoc. apply head_plain; [auto|discriminate].
    + assert (E : split "/" ((join "/" (a :: p) ++ "/") ++ "/" ++ n)%string = (a :: p) ++ [""; n]).
      { rewrite append_assoc. change ("/" ++ "/" ++ n)%string with (String "/" (String "/" n)).
        assert (X : (join "/" (a :: p) ++ String "/" (String "/" n))%string = join "/" ((a :: p) ++ [""; n])).
        { rewrite join_app by discriminate. reflexivity. }
        rewrite X. apply split_join; [discriminate|]. apply Forall_forall. intros x Hx. apply in_app_iff in Hx as [Hx|[<-|[<-|[]]]]; [apply (P x Hx)|apply contains_nil|auto]. }
      rewrite E, fold_left_app, (fold_clean (a :: p)) by auto. cbn [app]. rewrite fold_clean_empty. apply (fold_clean [n] (a :: p)). intros s [<-|[]]. apply Q, in_app_iff. right. left. auto.
Qed.
Lemma rel_path p : p <> [] -> proper_path p -> rel (join "/" p) = p.
Proof.
  intros N P. unfold rel. rewrite split_path by auto. clear N. induction p as [|s p IH]; cbn; [auto|].
  destruct (P s (or_introl eq_refl)) as (A & B & _). destruct (String.eqb_spec s ""); [tauto|]. destruct (String.eqb_spec s "."); [tauto|]. cbn. f_equal. apply IH. intros x Hx. apply P. right. auto.
Qed.
Lemma inside_path p : p <> [] -> proper_path p -> inside (join "/" p).
Proof. intros N P I. rewrite split_path in I by auto. destruct (P _ I) as (_ & _ & X & _). auto. Qed.
Lemma snoc_ne (p : path) n : p ++ [n] <> []. Proof. destruct p; discriminate. Qed.

(* ---- The walk ---- *)
Fixpoint flat (p : path) (t : gtree) : list entry :=
  match t with
  | End => []
  | Blob n c rest => EFile (join "/" (p ++ [n])) c :: flat p rest
  | Sub n sub rest => EDir (join "/" (p ++ [n])) :: flat (p ++ [n]) sub ++ flat p rest
  | LostBlob _ rest | LostSub _ rest | Link _ rest => flat p rest
  end.
Definition has_settings (p : path) (t : gtree) : bool := match p with [] => existsb (String.eqb "settings.json") (names t) | _ => false end.
Lemma settings_name p n : proper_path p -> git_name n -> (Join (parent_of p) n =? "settings.json") = match p with [] => ("settings.json" =? n) | _ => false end.
Proof.
  intros P N. rewrite Join_path by auto. destruct p as [|a p].
  - cbn. apply String.eqb_sym.
  - apply String.eqb_neq. intros E. apply (f_equal (split "/")) in E. rewrite split_path in E; [|discriminate|apply proper_app; auto]. vm_compute in E. destruct p; discriminate.
Qed.
Lemma tree_sub n sub rest : tree (Sub n sub rest) -> git_name n /\ tree sub /\ tree rest.
Proof.
  intros ((ND & G) & A & B & C). cbn in *. split; [apply G; auto|]. split; [split; auto|]. split; [|auto]. apply NoDup_cons_iff in ND as [_ ND]. split; auto.
Qed.
Lemma tree_rest n rest : forall t, names t = n :: names rest -> all_trees proper t -> (all_trees proper t -> all_trees proper rest) -> proper t -> git_name n /\ tree rest.
Proof. intros t E A F (ND & G). rewrite E in *. apply NoDup_cons_iff in ND as [_ ND]. split; [apply G; left; auto|]. split; [split; auto; intros x Hx; apply G; right; auto|auto]. Qed.
Ltac rest T := let G := fresh "G" in let TR := fresh "TR" in
  match type of T with
  | tree (Blob ?n ?c ?t) => destruct (tree_rest n t (Blob n c t) eq_refl (proj2 T) (fun a => a) (proj1 T)) as (G & TR)
  | tree (LostBlob ?n ?t) => destruct (tree_rest n t (LostBlob n t) eq_refl (proj2 T) (fun a => a) (proj1 T)) as (G & TR)
  | tree (LostSub ?n ?t) => destruct (tree_rest n t (LostSub n t) eq_refl (proj2 T) (fun a => a) (proj1 T)) as (G & TR)
  | tree (Link ?n ?t) => destruct (tree_rest n t (Link n t) eq_refl (proj2 T) (fun a => a) (proj1 T)) as (G & TR)
  end.

(* Every object can be read. *)
Lemma walk_whole t : forall p s, tree t -> proper_path p -> lost_trees t = 0%nat -> lost_blobs t = 0%nat ->
  walk (parent_of p) t s = (true, {| walkErr := walkErr s; foundSettings := has_settings p t || foundSettings s; uncompressedSize := uncompressedSize s + bytes t; headers := headers s ++ flat p t |}).
Proof.
  induction t as [|n c t IH|n t IH|n sub IHs t IH|n t IH|n t IH]; intros p s T P LT LB; cbn [walk].
  - cbn. destruct s; cbn. rewrite app_nil_r, Z.add_0_r. destruct p; reflexivity.
  - rest T. cbn in LT, LB. rewrite IH by auto. f_equal. cbn [seen on_blob walkErr foundSettings uncompressedSize headers flat bytes]. rewrite settings_name, Join_path, <- app_assoc by auto. f_equal; [|lia].
    destruct p; cbn [has_settings names existsb]; [rewrite orb_assoc; f_equal; apply orb_comm|auto].
  - discriminate.
  - destruct (tree_sub _ _ _ T) as (G & T1 & T2). cbn in LT, LB. rewrite parent_snoc, IHs by (auto using proper_app; lia). rewrite IH by (auto; lia). f_equal.
    cbn [seen on_tree walkErr foundSettings uncompressedSize headers flat bytes]. rewrite settings_name, Join_path, <- !app_assoc by auto. cbn [app]. f_equal; [|lia].
    assert (E : has_settings (p ++ [n]) sub = false) by (destruct p; auto). rewrite E. cbn [orb]. destruct p; cbn [has_settings names existsb]; [rewrite orb_assoc; f_equal; apply orb_comm|auto].
  - discriminate.
  - rest T. cbn in LT, LB. rewrite IH by auto. f_equal. cbn [seen walkErr foundSettings uncompressedSize headers flat bytes]. rewrite settings_name by auto. f_equal.
    destruct p; cbn [has_settings names existsb]; [rewrite orb_assoc; f_equal; apply orb_comm|auto].
Qed.
(* A file that cannot be read is an error. *)
Lemma walk_err_stays t : forall parent s, walkErr s = true -> walkErr (snd (walk parent t s)) = true.
Proof.
  induction t as [|n c t IH|n t IH|n sub IHs t IH|n t IH|n t IH]; intros parent s E; cbn [walk]; auto.
  specialize (IHs (parent ++ n ++ "/")%string (on_tree (Join parent n) (seen (Join parent n) s)) E).
  destruct (walk (parent ++ n ++ "/")%string sub _) as [[|] s1]; cbn in *; auto.
Qed.
Lemma walk_lost_blob t : forall parent s, lost_trees t = 0%nat -> 
  match walk parent t s with (true, s') => lost_blobs t = 0%nat /\ walkErr s' = walkErr s | (false, s') => walkErr s' = true /\ lost_blobs t <> 0%nat end.
Proof.
  induction t as [|n c t IH|n t IH|n sub IHs t IH|n t IH|n t IH]; intros parent s L; cbn [walk lost_blobs lost_trees] in *; [auto|..].
  - apply (IH parent (on_blob (Join parent n) c (seen (Join parent n) s))). auto.
  - cbn in L |- *. split; [auto|discriminate].
  - specialize (IHs (parent ++ n ++ "/")%string (on_tree (Join parent n) (seen (Join parent n) s)) ltac:(lia)).
    destruct (walk (parent ++ n ++ "/")%string sub _) as [[|] s1]; [|destruct IHs; split; [auto|lia]]. destruct IHs as (A & B).
    specialize (IH parent s1 ltac:(lia)). destruct (walk parent t s1) as [[|] s2]; destruct IH as (C & D); split; try lia; cbn in *; congruence.
  - discriminate.
  - apply (IH parent (seen (Join parent n) s)). auto.
Qed.

(* ---- What was written ---- *)
Lemma flat_names t : forall p e, tree t -> proper_path p -> In e (flat p t) ->
  exists r, proper_path (p ++ r) /\ r <> [] /\ name_of e = join "/" (p ++ r) /\ (forall nm c, e = EFile nm c -> blob_at t r c).
Proof.
  induction t as [|n c t IH|n t IH|n sub IHs t IH|n t IH|n t IH]; intros p e T P I; cbn [flat] in I; [destruct I| | | | |].
  - rest T. destruct I as [<-|I].
    + exists [n]. split; [apply proper_app; auto|]. split; [discriminate|]. split; [auto|]. intros nm k E. injection E as _ <-. cbn. auto.
    + destruct (IH p e TR P I) as (r & A & B & C & D). exists r. split; [auto|]. split; [auto|]. split; [auto|]. intros nm k E. right. eauto.
  - rest T. destruct (IH p e TR P I) as (r & A & B & C & D). exists r. auto.
  - destruct (tree_sub _ _ _ T) as (G & T1 & T2). destruct I as [<-|I].
    + exists [n]. split; [apply proper_app; auto|]. split; [discriminate|]. split; [auto|]. intros nm k E. discriminate.
    + apply in_app_iff in I as [I|I].
      * destruct (IHs (p ++ [n]) e T1 (proper_app _ _ P G) I) as (r & A & B & C & D). exists (n :: r). rewrite <- app_assoc in A, C. cbn in A, C. split; [auto|]. split; [discriminate|]. split; [auto|].
        intros nm k E. left. exists r. split; [auto|]. eauto.
      * destruct (IH p e T2 P I) as (r & A & B & C & D). exists r. split; [auto|]. split; [auto|]. split; [auto|]. intros nm k E. right. eauto.
  - rest T. destruct (IH p e TR P I) as (r & A & B & C & D). exists r. auto.
  - rest T. destruct (IH p e TR P I) as (r & A & B & C & D). exists r. auto.
Qed.
Lemma blob_at_head t r c : blob_at t r c -> exists n r', r = n :: r' /\ In n (names t).
Proof.
  induction t as [|n k t IH|n t IH|n sub IHs t IH|n t IH|n t IH]; cbn; [tauto| | | | |].
  - intros [(-> & _)|H]; [exists n, []; auto|]. destruct (IH H) as (m & r' & E & I). eauto 6.
  - intros H. destruct (IH H) as (m & r' & E & I). eauto 6.
  - intros [(r' & -> & _)|H]; [exists n, r'; auto|]. destruct (IH H) as (m & r' & E & I). eauto 6.
  - intros H. destruct (IH H) as (m & r' & E & I). eauto 6.
  - intros H. destruct (IH H) as (m & r' & E & I). eauto 6.
Qed.
Lemma fresh n t : NoDup (n :: names t) -> forall r c, ~ blob_at t (n :: r) c.
Proof. intros ND r c H. destruct (blob_at_head _ _ _ H) as (m & r' & E & I). injection E as <- _. apply NoDup_cons_iff in ND. tauto. Qed.
Lemma content_none es r : (forall nm c, In (EFile nm c) es -> rel nm <> r) -> content es r = None.
Proof.
  induction es as [|[x|x c] es IH]; intros H; cbn; [auto|apply IH; intros; eapply H; right; eauto|].
  rewrite IH by (intros; eapply H; right; eauto). destruct (path_eqb (rel x) r) eqn:E; [|auto]. apply path_eqb_spec in E. elim (H x c (or_introl eq_refl) E).
Qed.
Lemma content_in es r c : content es r = Some c -> exists nm, In (EFile nm c) es /\ rel nm = r.
Proof.
  induction es as [|[x|x k] es IH]; cbn; [discriminate| |].
  - intros H. destruct (IH H) as (nm & A & B). eauto.
  - destruct (content es r) as [c'|] eqn:E.
    + intros H. injection H as ->. destruct (IH eq_refl) as (nm & A & B). eauto.
    + destruct (path_eqb (rel x) r) eqn:E2; [|discriminate]. intros H. injection H as ->. apply path_eqb_spec in E2. eauto.
Qed.
Lemma app_snoc_inv (p : path) n r q : (p ++ [n]) ++ r = p ++ q -> q = n :: r.
Proof. rewrite <- app_assoc. intros E. apply app_inv_head in E. auto. Qed.
Lemma content_flat t : forall p r c, tree t -> proper_path p -> (content (flat p t) (p ++ r) = Some c <-> blob_at t r c).
Proof.
  intros p r c T P. split.
  - intros H. destruct (content_in _ _ _ H) as (nm & I & R). destruct (flat_names _ _ _ T P I) as (r' & A & B & C & D). cbn in C. subst nm.
    rewrite rel_path in R; [|destruct p; [auto|discriminate]|auto]. apply app_inv_head in R. subst r'. eauto.
  - revert p r T P. induction t as [|n k t IH|n t IH|n sub IHs t IH|n t IH|n t IH]; intros p r T P H; cbn [flat blob_at content] in *; [tauto| | | | |].
    + rest T. destruct H as [(-> & ->)|H].
      * rewrite content_none, rel_path, path_eqb_refl; auto using snoc_ne, proper_app.
        intros nm k I R. destruct (flat_names _ _ _ TR P I) as (r' & A & B & C & D). cbn in C. subst nm. rewrite rel_path in R; [|destruct p; [auto|discriminate]|auto].
        apply app_inv_head in R. subst r'. apply (fresh n t (proj1 (proj1 T)) [] k). eauto.
      * rewrite (IH p r TR P H). auto.
    + rest T. auto.
    + destruct (tree_sub _ _ _ T) as (G & T1 & T2). rewrite content_app_file. destruct H as [(r' & -> & H)|H].
      * rewrite content_none; [change (n :: r') with ([n] ++ r'); rewrite app_assoc; apply IHs; auto using proper_app|].
        intros nm k I R. destruct (flat_names _ _ _ T2 P I) as (r2 & A & B & C & D). cbn in C. subst nm. rewrite rel_path in R; [|destruct p; [auto|discriminate]|auto].
        apply app_inv_head in R. subst r2. apply (fresh n t (proj1 (proj1 T)) r' k). eauto.
      * rewrite (IH p r T2 P H). auto.
    + rest T. auto.
    + rest T. auto.
Qed.
Lemma total_app a b : total_size (a ++ b) = (total_size a + total_size b)%Z.
Proof. induction a as [|[x|x c] a IH]; cbn [app total_size]; lia. Qed.
Lemma total_flat t : forall p, total_size (flat p t) = bytes t.
Proof. induction t as [|n k t IH|n t IH|n sub IHs t IH|n t IH|n t IH]; intros p; cbn [flat total_size bytes]; auto; [rewrite IH; lia|rewrite total_app, IHs, IH; lia]. Qed.
Lemma NoDup_app {A} (a b : list A) : NoDup a -> NoDup b -> (forall x, In x a -> ~ In x b) -> NoDup (a ++ b).
Proof.
  induction a as [|x a IH]; cbn; [auto|]. intros Ha Hb H. apply NoDup_cons_iff in Ha as [X Ha]. constructor; [rewrite in_app_iff; intros [I|I]; [auto|apply (H x); auto]|].
  apply IH; auto.
Qed.
Lemma files_in es nm c : In (nm, c) (files es) <-> In (EFile nm c) es.
Proof.
  unfold files. rewrite in_flat_map. split; [intros ([x|x k] & I & H); cbn in H; [tauto|destruct H as [H|[]]; injection H as -> ->; auto]|]. intros I. exists (EFile nm c). split; [auto|]. left. auto.
Qed.
Lemma files_app a b : files (a ++ b) = files a ++ files b. Proof. unfold files. apply flat_map_app. Qed.
Lemma flat_once t : forall p, tree t -> proper_path p -> NoDup (map (fun x => rel (fst x)) (files (flat p t))).
Proof.
  induction t as [|n k t IH|n t IH|n sub IHs t IH|n t IH|n t IH]; intros p T P; cbn [flat]; [constructor| | | | |].
  - rest T. change (files (EFile (join "/" (p ++ [n])) k :: flat p t)) with ((join "/" (p ++ [n]), k) :: files (flat p t)). cbn [map fst]. constructor; [|auto].
    rewrite rel_path by auto using snoc_ne, proper_app. rewrite in_map_iff. intros ((nm & c) & R & I). apply files_in in I. cbn [fst] in R.
    destruct (flat_names _ _ _ TR P I) as (r' & A & B & C & D). cbn in C. subst nm. rewrite rel_path in R; [|destruct p; [auto|discriminate]|auto].
    apply app_inv_head in R. subst r'. apply (fresh n t (proj1 (proj1 T)) [] c). eauto.
  - rest T. auto.
  - destruct (tree_sub _ _ _ T) as (G & T1 & T2). change (files (EDir (join "/" (p ++ [n])) :: flat (p ++ [n]) sub ++ flat p t)) with (files (flat (p ++ [n]) sub ++ flat p t)).
    rewrite files_app, map_app. apply NoDup_app; auto using proper_app. intros x I J. rewrite in_map_iff in I, J. destruct I as ((nm & c) & R & I), J as ((nm' & c') & R' & J).
    apply files_in in I, J. cbn [fst] in R, R'. destruct (flat_names _ _ _ T1 (proper_app _ _ P G) I) as (r1 & A1 & B1 & C1 & D1), (flat_names _ _ _ T2 P J) as (r2 & A2 & B2 & C2 & D2).
    cbn in C1, C2. subst nm nm'. rewrite rel_path in R; [|intros X; apply app_eq_nil in X as [X _]; apply (snoc_ne _ _ X)|auto]. rewrite rel_path in R'; [|destruct p; [auto|discriminate]|auto].
    rewrite <- R in R'. symmetry in R'. apply app_snoc_inv in R'. subst r2. apply (fresh n t (proj1 (proj1 T)) r1 c'). eauto.
  - rest T. auto.
  - rest T. auto.
Qed.

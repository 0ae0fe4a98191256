(* C32 for the grader: its inputs do not get in each other's way. *)
From Coq Require Import String Ascii List Bool ZArith Lia Permutation.
From Verif Require Import GoStr InModel InSpec InProofs InRunnerProofs InReload InGraderProofs PoolModel PoolProps GPoolModel.
Import ListNotations.
Local Open Scope string_scope.
Local Open Scope list_scope.

(* The files of the input whose archive is a. *)
Definition belongs (a q : path) : Prop := below a q \/ below (with_ext a ".tmp") q \/ below (with_ext a ".sha1") q \/ below (with_ext a ".len") q.

(* ---- What a program may touch ---- *)
Definition gallowed (a : path) (o : op) : Prop :=
  match o with
  | MkdirAll q => below q a
  | Create q | Append q _ | Remove q | RemoveAll q => belongs a q
  | Rename q r => belongs a q /\ belongs a r
  end.
Fixpoint gconfined (a : path) (g : prog) : Prop :=
  match g with
  | Ret _ => True
  | Do o k => gallowed a o /\ gconfined a (k true) /\ gconfined a (k false)
  | Look k => forall f, gconfined a (k f)
  end.
Lemma belongs_app a q r : belongs a q -> belongs a (q ++ r).
Proof. unfold belongs. intros [H|[H|[H|H]]]; apply (below_app _ _ r) in H; tauto. Qed.
Lemma gapply_frame a o f f' q : gallowed a o -> apply o f = Some f' -> ~ belongs a q -> ~ below q a -> f' q = f q.
Proof.
  intros HA HE H1 H2. destruct o as [p|p|p c|p|p|p r]; cbn [gallowed] in HA; cbn [apply] in HE.
  - fold (apply (MkdirAll p) f) in HE. apply mkdir_spec in HE. destruct HE as (_ & HE & _). apply HE. intros (z & ->).
    destruct HA as (y & ->). apply H2. exists (z ++ y). rewrite app_assoc. auto.
  - destruct (_ && _); [|discriminate]. injection HE as <-. apply set_other. intros ->. auto.
  - destruct (f p) as [[|]|]; try discriminate. injection HE as <-. apply set_other. intros ->. auto.
  - destruct (f p) as [[|]|]; try discriminate. injection HE as <-. apply set_other. intros ->. auto.
  - injection HE as <-. destruct (strip p q) as [r|] eqn:E; [|auto]. apply strip_spec in E. subst q. elim H1. apply belongs_app. auto.
  - destruct HA as [A1 A2]. destruct (f p) as [[c|]|]; try discriminate.
    + destruct (_ && _); [|discriminate]. injection HE as <-. rewrite !set_other; auto; intros ->; auto.
    + destruct (_ && _); [|discriminate]. injection HE as <-. destruct (strip r q) as [t|] eqn:E.
      * apply strip_spec in E. subst q. elim H1. apply belongs_app. auto.
      * destruct (strip p q) as [t|] eqn:E2; [|auto]. apply strip_spec in E2. subst q. elim H1. apply belongs_app. auto.
Qed.
Lemma gstep_frame a p f p' f' q : gconfined a p -> op_step p f p' f' -> gconfined a p' /\ (~ belongs a q -> ~ below q a -> f' q = f q).
Proof.
  intros HC HS. destruct HS as [k f|o k f f' E|o k f]; cbn in HC.
  - split; auto.
  - split; [tauto|]. intros. eapply gapply_frame; [exact (proj1 HC)|exact E|assumption|assumption].
  - split; [tauto|auto].
Qed.

Lemma gwrite_confined a q s ok fail : belongs a q -> gconfined a ok -> gconfined a fail -> gconfined a (write q s ok fail).
Proof. intros A B C. induction s as [|c s IH]; cbn [write gconfined]; auto. Qed.
Lemma gwrite_ign_confined a q s k : belongs a q -> gconfined a k -> gconfined a (write_ignoring q s k).
Proof. intros A B. induction s as [|c s IH]; cbn [write_ignoring gconfined]; auto. Qed.
Section Confined.
Variable digest : string -> string.
Variable a : path.
Lemma belongs_a : belongs a a. Proof. left. exists []. rewrite app_nil_r. auto. Qed.
Lemma belongs_tmp : belongs a (with_ext a ".tmp"). Proof. right. left. exists []. rewrite app_nil_r. auto. Qed.
Lemma belongs_sha : belongs a (with_ext a ".sha1"). Proof. right. right. left. exists []. rewrite app_nil_r. auto. Qed.
Lemma belongs_len : belongs a (with_ext a ".len"). Proof. right. right. right. exists []. rewrite app_nil_r. auto. Qed.
Hint Resolve belongs_a belongs_tmp belongs_sha belongs_len : core.
Lemma gdelete_confined k : gconfined a k -> gconfined a (grader_Delete a k).
Proof. intros H. unfold grader_Delete. cbn [gconfined gallowed]. auto 20. Qed.
Lemma removelast_below : below (removelast a) a.
Proof. destruct a as [|x l]; [exists []; auto|]. exists [last (x :: l) ""]. apply app_removelast_last. discriminate. Qed.
Hint Resolve removelast_below : core.
Lemma gpersist_confined body trailer total ok : gconfined a (grader_Persist digest a body trailer total ok).
Proof.
  assert (F : gconfined a (Do (Remove (with_ext a ".tmp")) (fun _ => Ret Err))) by (cbn; auto).
  unfold grader_Persist. cbn [gconfined gallowed negb]. split; [auto|]. split; [|auto]. split; [auto|]. split; [|apply F].
  apply gwrite_confined; [auto| |apply gwrite_ign_confined; auto; apply F].
  apply gwrite_ign_confined; [auto|]. destruct ok; cbn [negb]; [|apply F]. cbn [gconfined]. intros f. destruct (f _) as [[c|]|]; try apply F.
  cbn [gconfined gallowed negb]. split; [auto|]. split; [|apply F]. apply gwrite_confined; [auto| |apply F].
  cbn [gconfined gallowed negb]. split; [auto|]. split; [|apply F]. apply gwrite_confined; [auto| |apply F].
  cbn [gconfined gallowed negb]. auto 10.
Qed.
Lemma gliteral_confined h t total : gconfined a (literal_grader_Persist a h t total).
Proof.
  unfold literal_grader_Persist. cbn [gconfined gallowed negb]. split; [auto|]. split; [|auto]. split; [auto|]. split; [|auto].
  apply gwrite_confined; [auto| |cbn; auto]. cbn [gconfined gallowed negb]. split; [auto|]. split; [|auto].
  apply gwrite_confined; [auto| |cbn; auto]. cbn [gconfined gallowed negb]. split; [auto|]. split; [|auto].
  apply gwrite_confined; cbn; auto.
Qed.
Lemma gsource_confined s : gconfined a (gsource_add digest a s).
Proof.
  destruct s as [body trailer total ok| |h t total]; cbn [gsource_add].
  - unfold grader_add, add. cbn [gconfined]. intros f. destruct (grader_Verify _ _ _) as [[[z h] l]|]; [cbn; auto|]. apply gdelete_confined, gpersist_confined.
  - unfold grader_cached_add, add. cbn [gconfined]. intros f. destruct (grader_Verify _ _ _) as [[[z h] l]|]; [cbn; auto|]. apply gdelete_confined. cbn. auto.
  - unfold literal_grader_add, add. cbn [gconfined]. intros _. apply gdelete_confined, gliteral_confined.
Qed.
End Confined.

(* ---- Different inputs, different files ---- *)
Lemma archive_path_split root h : 2 <= String.length h -> exists a n, archive_path root h = (root ++ [a]) ++ [(n ++ ".tar.gz")%string] /\ h = (a ++ n)%string /\ String.length a = 2.
Proof.
  intros H. destruct h as [|c1 [|c2 r]]; cbn in H; try lia. exists (String c1 (String c2 "")), r. cbn. rewrite <- app_assoc. auto.
Qed.
Lemma belongs_shape root a n q : belongs ((root ++ [a]) ++ [(n ++ ".tar.gz")%string]) q -> exists e r, q = root ++ a :: (n ++ e)%string :: r.
Proof.
  unfold belongs. rewrite !with_ext_snoc, !append_assoc. intros [(r & ->)|[(r & ->)|[(r & ->)|(r & ->)]]]; rewrite <- !app_assoc; eexists _, r; reflexivity.
Qed.
Lemma belongs_disjoint root h h' q : 2 <= String.length h -> String.length h = String.length h' -> belongs (archive_path root h) q -> belongs (archive_path root h') q -> h = h'.
Proof.
  intros L E A B. destruct (archive_path_split root h) as (a & n & E1 & -> & La); [auto|]. destruct (archive_path_split root h') as (a' & n' & E2 & -> & La'); [lia|]. rewrite E1 in A. rewrite E2 in B. clear E1 E2 L.
  assert (SL : forall x y, String.length (x ++ y) = String.length x + String.length y) by (induction x; cbn; intros; auto).
  rewrite !SL in E. assert (Ln : String.length n = String.length n') by lia.
  apply belongs_shape in A, B. destruct A as (e & r & ->), B as (e' & r' & B). apply app_inv_head in B. injection B as -> B _.
  f_equal. eapply append_len; [|exact B]. auto.
Qed.
Lemma belongs_not_above root h h' q : 2 <= String.length h -> 2 <= String.length h' -> belongs (archive_path root h) q -> ~ belongs (archive_path root h') q -> ~ below q (archive_path root h').
Proof.
  intros L L' A B (z & E). destruct (archive_path_split root h) as (a & n & EH & -> & La); [auto|]. rewrite EH in A. destruct (archive_path_split root h') as (a' & n' & EH' & -> & La'); [auto|]. rewrite EH' in *.
  apply belongs_shape in A. destruct A as (e & r & ->).
  assert (z = []). { assert (LE := f_equal (@length _) E). rewrite !app_length in LE. cbn in LE. destruct z; [auto|cbn in LE; lia]. }
  subst z. rewrite app_nil_r in E. apply B. rewrite <- E. apply belongs_a.
Qed.

(* ---- The invariant ---- *)
Section System.
Variable digest : string -> string.
Variable root : path.
Variable L : nat.
Hypothesis HL : 2 <= L.

Definition gfine_event (e : gevent) : Prop := match e with GBegin h src => String.length h = L | _ => True end.
Record ginv (s : sys) : Prop := {
  g_nodup : NoDup (map fst (running s) ++ map fst (cache s));
  g_len : forall h, In h (map fst (running s) ++ map fst (cache s)) -> String.length h = L;
  g_conf : forall h p, In (h, p) (running s) -> gconfined (archive_path root h) p
}.
Lemma gstep_inv s e s' : ginv s -> gfine_event e -> gstep digest root s e s' -> ginv s'.
Proof.
  intros [ND LEN CONF] HE HS. destruct HS as [s h id l HR HF|s h src HR HB|s h p p' f' HI HO|s h id z HI HR HF|s h HI|s h id l HR HI|s h HR]; constructor; cbn [running cache disk] in *;
    rewrite ?update_some in *; auto.
  - cbn. constructor; [|auto]. rewrite in_app_iff. intros [X|X]; [|apply (refs_none _ _ HR X)]. apply in_map_iff in X. destruct X as ([k v] & E & X). cbn in E. subst. apply HB. exists v. auto.
  - cbn. intros k [<-|X]; [apply HE|auto].
  - intros k p [X|X]; [|auto]. injection X as <- <-. apply gsource_confined.
  - intros k q X. apply (update_some_in digest (fun _ => true)) in X. destruct X as [[-> ->]|X]; [|auto]. exact (proj1 (gstep_frame _ _ _ _ _ [] (CONF _ _ HI) HO)).
  - assert (P : Permutation (map fst (running s)) (h :: map fst (update (running s) h None))) by (apply (update_none_perm digest (fun _ => true)), in_map_iff; exists (h, Ret (Nil z)); auto).
    cbn [map fst]. eapply Permutation_NoDup; [|exact ND]. apply perm_mid. auto.
  - assert (P : Permutation (map fst (running s)) (h :: map fst (update (running s) h None))) by (apply (update_none_perm digest (fun _ => true)), in_map_iff; exists (h, Ret (Nil z)); auto).
    intros k X. apply LEN. cbn [map fst] in X. eapply Permutation_in; [apply Permutation_sym, perm_mid, P|exact X].
  - intros k q X. apply (update_none_in digest (fun _ => true)) in X. auto.
  - assert (P : Permutation (map fst (running s)) (h :: map fst (update (running s) h None))) by (apply (update_none_perm digest (fun _ => true)), in_map_iff; exists (h, Ret Err); auto).
    rewrite P in ND. cbn in ND. inversion ND. auto.
  - assert (P : Permutation (map fst (running s)) (h :: map fst (update (running s) h None))) by (apply (update_none_perm digest (fun _ => true)), in_map_iff; exists (h, Ret Err); auto).
    intros k X. apply LEN. rewrite P. cbn. auto.
  - intros k q X. apply (update_none_in digest (fun _ => true)) in X. auto.
  - apply refs_in in HR. assert (P : Permutation (map fst (cache s)) (h :: map fst (update (cache s) h None))) by (apply (update_none_perm digest (fun _ => true)), in_map_iff; exists (h, []); auto).
    cbn [map fst]. eapply Permutation_NoDup; [|exact ND]. rewrite P. apply Permutation_sym, Permutation_middle.
  - apply refs_in in HR. assert (P : Permutation (map fst (cache s)) (h :: map fst (update (cache s) h None))) by (apply (update_none_perm digest (fun _ => true)), in_map_iff; exists (h, []); auto).
    intros k X. apply LEN. rewrite P. eapply Permutation_in; [|exact X]. cbn. apply Permutation_middle.
  - intros k q [X|X]; [|auto]. injection X as <- <-. apply gdelete_confined. exact I.
Qed.

(* A step changes nothing of what is cached, unless it evicts it. *)
Lemma gstep_intact s e s' h id l : ginv s -> gstep digest root s e s' -> refs s h = Some l -> In id l -> e <> GRelease h id ->
  (forall q, belongs (archive_path root h) q -> disk s' q = disk s q) /\ exists l', refs s' h = Some l' /\ In id l'.
Proof.
  intros [ND LEN CONF] HS HR HI NE. assert (HC := refs_in _ _ _ HR).
  assert (HLh : String.length h = L) by (apply LEN, in_app_iff; right; apply in_map_iff; exists (h, l); auto).
  assert (KEEP : forall k x, k <> h -> forall s2, cache s2 = update (cache s) k x -> refs s2 h = Some l).
  { intros k x NK s2 E. unfold refs in *. rewrite E. clear - NK HR. induction (cache s) as [|[k' v'] c IH]; cbn in *; [discriminate|].
    destruct (String.eqb_spec k' k) as [->|N1].
    - destruct (String.eqb_spec k h); [congruence|]. destruct x; cbn; [destruct (String.eqb_spec k h); [congruence|]|]; auto.
    - cbn. destruct (k' =? h); auto. }
  assert (HEAD : forall x s2, cache s2 = update (cache s) h (Some x) -> refs s2 h = Some x).
  { intros x s2 E. unfold refs in *. rewrite E. clear - HC. induction (cache s) as [|[k' v'] c IH]; cbn in *; [tauto|].
    destruct (String.eqb_spec k' h) as [->|N1]; cbn; [rewrite String.eqb_refl; auto|]. destruct (String.eqb_spec k' h); [congruence|]. destruct HC as [X|X]; [congruence|]. auto. }
  destruct HS as [s k id' l' HR' HF|s k src HR' HB|s k p p' f' HI' HO|s k id' z HI' HR' HF|s k HI'|s k id' l' HR' HI'|s k HR']; cbn [disk running cache] in *.
  - split; [auto|]. destruct (String.eqb_spec k h) as [->|NK].
    + rewrite HR in HR'. injection HR' as <-. exists (id' :: l). split; [apply HEAD; auto|right; auto].
    + exists l. split; [apply (KEEP k (Some (id' :: l')) NK); auto|auto].
  - split; [auto|]. exists l. auto.
  - split; [|exists l; auto]. intros q HQ. assert (NK : k <> h).
    { intros ->. clear - ND HC HI'. revert ND. assert (A : In h (map fst (running s))) by (apply in_map_iff; exists (h, p); auto). assert (B : In h (map fst (cache s))) by (apply in_map_iff; exists (h, l); auto).
      revert A. generalize (map fst (running s)) as r. induction r as [|x r IH]; cbn; [tauto|]. intros [->|A] ND; inversion ND; [|auto]. apply H1, in_app_iff. auto. }
    assert (HLk : String.length k = L) by (apply LEN, in_app_iff; left; apply in_map_iff; exists (k, p); auto).
    assert (NA : ~ belongs (archive_path root k) q). { intros X. apply NK. eapply belongs_disjoint; [| |exact X|exact HQ]; lia. }
    assert (NB : ~ below q (archive_path root k)) by (apply (belongs_not_above root h k q); auto; lia).
    exact (proj2 (gstep_frame _ _ _ _ _ q (CONF _ _ HI') HO) NA NB).
  - split; [auto|]. exists l. split; [|auto]. unfold refs in *. cbn. destruct (String.eqb_spec k h) as [->|]; [|auto]. rewrite HR in HR'. discriminate.
  - split; [auto|]. exists l. auto.
  - split; [auto|]. destruct (String.eqb_spec k h) as [->|NK].
    + rewrite HR in HR'. injection HR' as <-. exists (remove Nat.eq_dec id' l). split; [apply HEAD; auto|]. apply in_in_remove; [|auto]. intros ->. congruence.
    + exists l. split; [apply (KEEP k (Some (remove Nat.eq_dec id' l')) NK); auto|auto].
  - split; [auto|]. destruct (String.eqb_spec k h) as [->|NK]; [rewrite HR in HR'; injection HR' as ->; elim HI|].
    exists l. split; [apply (KEEP k None NK); auto|auto].
Qed.
End System.

(* While a caller of the grader's input manager holds a reference to an input,
   its archive and the files beside it stay as they are, and the reference stays
   valid until it is released, in any interleaving. *)
Theorem C32_held_grader : forall digest root L s0 evs1 s evs2 s' hash id l, 2 <= L ->
  running s0 = [] -> cache s0 = [] -> (forall h src, In (GBegin h src) (evs1 ++ evs2) -> String.length h = L) ->
  gsteps digest root s0 evs1 s -> gsteps digest root s evs2 s' ->
  refs s hash = Some l -> In id l -> ~ In (GRelease hash id) evs2 ->
  (forall q, belongs (archive_path root hash) q -> disk s' q = disk s q) /\ exists l', refs s' hash = Some l' /\ In id l'.
Proof.
  intros digest root L s0 evs1 s evs2 s' hash id l HL R0 C0 HF0 S1 S2 HR HI NR.
  assert (HF : Forall (gfine_event L) (evs1 ++ evs2)).
  { apply Forall_forall. intros [h src|h|h i|h|h i|h] X; cbn; auto. eapply HF0. exact X. }
  apply Forall_app in HF. destruct HF as [HF1 HF2].
  assert (I : ginv root L s).
  { assert (I0 : ginv root L s0) by (constructor; rewrite R0, ?C0; cbn; [constructor|tauto|tauto]). clear - HL I0 HF1 S1.
    induction S1 as [|s e s1 es s2 H HS IH]; [auto|]. inversion HF1; subst. apply IH; auto. eapply gstep_inv; eauto. }
  clear S1 HF1 R0 C0 HF0. revert l HR HI NR I HF2. induction S2 as [s|s e s1 es s2 H HS IH]; intros l HR HI NR I HF2.
  - split; [auto|eauto].
  - inversion HF2; subst. assert (NE : e <> GRelease hash id) by (intros ->; apply NR; left; auto).
    destruct (gstep_intact digest root L HL s e s1 hash id l I H HR HI NE) as (A & l1 & R1 & I1).
    destruct (IH l1 R1 I1) as (B & X).
    + intros Y. apply NR. right. auto.
    + eapply gstep_inv; eauto.
    + auto.
    + split; [|exact X]. intros q HQ. rewrite B, A; auto.
Qed.
Print Assumptions C32_held_grader.

(* ---- A case that meets the hypotheses ---- *)
(* The archive of "aabb" is persisted from the repository and held; "aacc" is
   looked up in the same directory, rejected and removed meanwhile; then "aadd"
   is persisted from memory. *)
Lemma ex_run_gsteps digest root h n : forall p f rest c, exists m, gsteps digest root {| disk := f; running := (h, p) :: rest; cache := c |} (repeat (GOp h) m)
  {| disk := snd (ex_run digest n p f); running := (h, fst (ex_run digest n p f)) :: rest; cache := c |}.
Proof.
  induction n as [|n IH]; intros p f rest c; [exists 0; constructor|]. destruct p as [r|o k|k]; cbn [ex_run].
  - exists 0. constructor.
  - destruct (apply o f) as [f'|] eqn:E.
    + destruct (IH (k true) f' rest c) as (m & H). exists (S m). cbn [repeat]. eapply gsteps_cons; [eapply gstep_op; [left; reflexivity|apply op_works; exact E]|]. cbn [update running disk cache]. rewrite String.eqb_refl. exact H.
    + destruct (IH (k false) f rest c) as (m & H). exists (S m). cbn [repeat]. eapply gsteps_cons; [eapply gstep_op; [left; reflexivity|apply op_fails]|]. cbn [update running disk cache]. rewrite String.eqb_refl. exact H.
  - destruct (IH (k f) f rest c) as (m & H). exists (S m). cbn [repeat]. eapply gsteps_cons; [eapply gstep_op; [left; reflexivity|apply op_look]|]. cbn [update running disk cache]. rewrite String.eqb_refl. exact H.
Qed.
Lemma gsteps_app digest root s1 e1 s2 e2 s3 : gsteps digest root s1 e1 s2 -> gsteps digest root s2 e2 s3 -> gsteps digest root s1 (e1 ++ e2) s3.
Proof. induction 1; cbn; [auto|]. intros. econstructor; eauto. Qed.
Definition gex_git := FromGit "body" "end" 5%Z true.
Definition gex_mem := InMemoryArchive "aadd" "tgz" 3%Z.
Example gex_held : exists evs1 s evs2 s', (forall h src, In (GBegin h src) (evs1 ++ evs2) -> String.length h = 4) /\
  gsteps ex_sha1 [] ex_start evs1 s /\ gsteps ex_sha1 [] s evs2 s' /\ refs s "aabb" = Some [7] /\ ~ In (GRelease "aabb" 7) evs2 /\
  disk s' ["aa"; "bb.tar.gz"] = Some (File "bodyend") /\ In (GDone "aacc") evs2 /\ disk s ["aa"; "dd.tar.gz"] = None /\ disk s' ["aa"; "dd.tar.gz"] = Some (File "tgz") /\ refs s' "aadd" = Some [8].
Proof.
  destruct (ex_run_gsteps ex_sha1 [] "aabb" 90 (gsource_add ex_sha1 (archive_path [] "aabb") gex_git) (disk ex_start) [] []) as (m & H).
  set (r := ex_run ex_sha1 90 _ _) in H.
  assert (R : exists z, fst r = Ret (Nil z)) by (eexists; vm_compute; reflexivity). destruct R as (z & R). rewrite R in H.
  set (s := {| disk := snd r; running := []; cache := [("aabb", [7])] |}).
  destruct (ex_run_gsteps ex_sha1 [] "aacc" 60 (gsource_add ex_sha1 (archive_path [] "aacc") CachedArchive) (snd r) [] [("aabb", [7])]) as (m' & H').
  set (r' := ex_run ex_sha1 60 _ (snd r)) in H'. assert (R' : fst r' = Ret Err) by (vm_compute; reflexivity). rewrite R' in H'.
  destruct (ex_run_gsteps ex_sha1 [] "aadd" 60 (gsource_add ex_sha1 (archive_path [] "aadd") gex_mem) (snd r') [] [("aabb", [7])]) as (m2 & H2).
  set (r2 := ex_run ex_sha1 60 _ (snd r')) in H2. assert (R2 : exists z, fst r2 = Ret (Nil z)) by (eexists; vm_compute; reflexivity). destruct R2 as (z2 & R2). rewrite R2 in H2.
  exists ((GBegin "aabb" gex_git :: repeat (GOp "aabb") m) ++ [GGet "aabb" 7]), s,
    (((GBegin "aacc" CachedArchive :: repeat (GOp "aacc") m') ++ [GDone "aacc"]) ++ ((GBegin "aadd" gex_mem :: repeat (GOp "aadd") m2) ++ [GGet "aadd" 8])), {| disk := snd r2; running := []; cache := [("aadd", [8]); ("aabb", [7])] |}.
  assert (RO : forall h k x, In x (repeat (GOp h) k) -> x = GOp h) by (intros h k x X; apply repeat_spec in X; auto).
  split; [|split; [|split; [|split; [|split; [|split; [|split; [|split; [|split]]]]]]]].
  - intros h src X. rewrite !in_app_iff in X. cbn [In] in X. intuition (try discriminate);
      match goal with Q : GBegin _ _ = GBegin _ _ |- _ => injection Q as <- <-; reflexivity | Q : _ = GBegin _ _ |- _ => injection Q as <- <-; reflexivity | Q : In _ (repeat _ _) |- _ => apply RO in Q; discriminate end.
  - eapply gsteps_app; [eapply gsteps_cons; [apply gstep_miss; [reflexivity|intros (p & [])]|exact H]|]. eapply gsteps_cons; [eapply gstep_added with (z := z); [left; reflexivity|reflexivity|intros ? ? []]|]. constructor.
  - eapply gsteps_app; [eapply gsteps_app; [eapply gsteps_cons; [apply gstep_miss; [reflexivity|intros (p & [])]|exact H']|]; eapply gsteps_cons; [eapply gstep_failed; left; reflexivity|]; constructor|].
    eapply gsteps_app; [eapply gsteps_cons; [apply gstep_miss; [reflexivity|intros (p & [])]|exact H2]|]. eapply gsteps_cons; [eapply gstep_added with (z := z2); [left; reflexivity|reflexivity|]|constructor].
    intros h l [X|[]] Y. injection X as <- <-. cbn in Y. intuition discriminate.
  - reflexivity.
  - rewrite !in_app_iff. cbn [In]. intuition (try discriminate); match goal with Q : In _ (repeat _ _) |- _ => apply RO in Q; discriminate end.
  - vm_compute. reflexivity.
  - rewrite !in_app_iff. left. right. left. auto.
  - vm_compute. reflexivity.
  - vm_compute. reflexivity.
  - reflexivity.
Qed.

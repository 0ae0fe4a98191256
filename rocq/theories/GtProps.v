(* C76: the runner gets what is in the repository. *)
From Coq Require Import String Ascii List Bool ZArith Lia.
From Verif Require Import GoStr InModel InSpec InProofs InReload InRunnerProofs InGraderProofs InProps GtModel GtSpec GtProofs GtLive.
Import ListNotations.
Local Open Scope string_scope.
Local Open Scope list_scope.

Lemma proper_nil : proper_path []. Proof. intros s []. Qed.
Lemma create_whole t : tree t -> lost_trees t = 0%nat -> lost_blobs t = 0%nat ->
  CreateArchiveFromGit (Some t) = (flat [] t, if existsb (String.eqb "settings.json") (names t) then Some (bytes t) else None).
Proof.
  intros T A B. unfold CreateArchiveFromGit. change "" with (parent_of []). rewrite walk_whole by auto using proper_nil. cbn [headers walkErr foundSettings uncompressedSize app has_settings].
  rewrite orb_false_r. destruct (existsb _ _); reflexivity.
Qed.
Lemma create_some t es z : tree t -> lost_trees t = 0%nat -> CreateArchiveFromGit (Some t) = (es, Some z) -> lost_blobs t = 0%nat /\ es = flat [] t /\ z = bytes t /\ In "settings.json" (names t).
Proof.
  intros T A E. assert (B : lost_blobs t = 0%nat).
  { unfold CreateArchiveFromGit in E. pose proof (walk_lost_blob t "" {| walkErr := false; foundSettings := false; uncompressedSize := 0; headers := [] |} A) as W.
    destruct (walk "" t _) as [[|] s]; destruct W as (W1 & W2); [auto|]. rewrite W1 in E. discriminate. }
  rewrite create_whole in E by auto. destruct (existsb _ _) eqn:X; [|discriminate]. injection E as <- <-. apply existsb_exists in X as (x & I & X). apply String.eqb_eq in X. subst x. auto.
Qed.

(* An archive that is not read to its end leaves nothing, wherever the process crashes. *)
Lemma persist_bad digest settings_ok d n al stream readable es clean streamHash f : (forall e, In e es -> inside (name_of e)) -> gone d n f -> readable && clean = false ->
  safe al (persist_tar digest settings_ok (d ++ [n]) stream readable es clean streamHash) f (absent d n) (fun _ => absent d n).
Proof.
  intros HI (HA & HS & HT) BAD. unfold persist_tar. rewrite !with_ext_snoc. set (tmp := d ++ [(n ++ ".tmp")%string]). set (sha := d ++ [(n ++ ".sha1")%string]).
  assert (FAIL : forall f, absent d n f -> safe al (Do (RemoveAll tmp) (fun _ => Ret Err)) f (absent d n) (fun _ => absent d n)).
  { intros g Hg. apply safe_do; [auto|intros kept; apply partly_tmp_absent; auto| |].
    - intros g' E. apply safe_ret. eapply remove_tmp_absent; eauto.
    - intros _. apply safe_ret. auto. }
  apply safe_atom; [auto|auto| |].
  2: { intros _. cbn [negb]. apply safe_ret. exact HA. }
  intros f1 E. cbn [negb]. apply mkdir_spec in E. destruct E as (E1 & E2 & E3).
  assert (A1 : absent d n f1). { intros r. rewrite E2; [apply HA|]. intros X. revert X. rewrite <- (app_nil_r tmp). apply (pdis d (n ++ ".tmp") n). intros X. apply (n_tmp n). auto. }
  assert (T1 : f1 tmp = Some Dir). { apply E1. exists []. rewrite app_nil_r. auto. }
  assert (T2 : forall r c, f1 (tmp ++ r) <> Some (File c)). { intros r c X. apply E3 in X. unfold tmp in X. rewrite HT in X. discriminate. }
  destruct readable; cbn [negb]; [|apply FAIL; auto].
  apply safe_atom; [auto|auto| |].
  2: { intros _. cbn [negb]. apply FAIL. auto. }
  intros f2 E. cbn [negb]. apply create_spec in E. destruct E as (F1 & F2 & _ & _).
  apply (extract_safe digest settings_ok d n al (absent d n) (fun _ => absent d n)) with (done := []); auto.
  { constructor.
    - intros r. rewrite F2 by apply p_sha. auto.
    - unfold sha in F1. rewrite F1. auto.
    - rewrite F2; [auto|]. intros X. apply (tmp_sha d n []). rewrite app_nil_r. auto.
    - intros r c. rewrite F2 by apply tmp_sha. cbn. split; [intros X; elim (T2 _ _ X)|discriminate]. }
  cbn [app]. intros f3 H3. cbn [andb] in BAD. subst clean. cbn [negb]. apply FAIL. apply (x_absent _ _ _ _ _ H3).
Qed.

(* ---- The archive ---- *)
(* An archive that is made has exactly the files of the tree, each once and below the
   directory it is extracted to, and the size is theirs: if no subtree is lost.  A file
   that cannot be read is an error. *)
Theorem C76_archive t es total : tree t -> lost_trees t = 0%nat -> CreateArchiveFromGit (Some t) = (es, Some total) ->
  (forall r c, content es r = Some c <-> blob_at t r c) /\ total = bytes t /\ total = total_size es /\ lost_blobs t = 0%nat /\
  (forall e, In e es -> inside (name_of e)) /\ NoDup (map (fun x => rel (fst x)) (files es)).
Proof.
  intros T A E. destruct (create_some _ _ _ T A E) as (B & -> & -> & _). split; [intros r c; apply (content_flat t [] r c T proper_nil)|]. split; [auto|]. split; [symmetry; apply total_flat|]. split; [auto|]. split.
  - intros e I. destruct (flat_names _ _ _ T proper_nil I) as (r & P & N & -> & _). apply inside_path; auto.
  - apply flat_once; auto using proper_nil.
Qed.
(* If every object can be read there is an archive exactly if the tree has a
   settings.json. *)
Theorem C76_made t : tree t -> lost_trees t = 0%nat -> lost_blobs t = 0%nat ->
  ((exists total, snd (CreateArchiveFromGit (Some t)) = Some total) <-> In "settings.json" (names t)).
Proof.
  intros T A B. rewrite create_whole by auto. cbn [snd]. destruct (existsb _ _) eqn:X.
  - apply existsb_exists in X as (x & I & X). apply String.eqb_eq in X. subst x. split; eauto.
  - split; [intros (? & ?); discriminate|]. intros I. apply not_true_iff_false in X. elim X. apply existsb_exists. exists "settings.json". split; [auto|apply String.eqb_refl].
Qed.
(* In general the archive is that of the tree up to the first subtree or file that cannot
   be read, and nothing after it. *)
Lemma walk_readable t : forall parent s, snd (walk parent t s) = snd (walk parent (fst (readable_part t)) s) /\
  (snd (readable_part t) = true -> fst (walk parent t s) = true /\ fst (walk parent (fst (readable_part t)) s) = true) /\ (snd (readable_part t) = false -> fst (walk parent t s) = false).
Proof.
  induction t as [|n c t IH|n t IH|n sub IHs t IH|n t IH|n t IH]; intros parent s.
  - cbn. split; [auto|]. split; [auto|discriminate].
  - cbn [readable_part walk]. destruct (readable_part t) as [r b]. cbn [fst snd walk] in *. apply IH.
  - cbn [readable_part walk fst snd]. split; [auto|]. split; [discriminate|auto].
  - cbn [readable_part walk]. specialize (IHs (parent ++ n ++ "/")%string (on_tree (Join parent n) (seen (Join parent n) s))).
    destruct (readable_part sub) as [s' b]. destruct (walk (parent ++ n ++ "/") sub _) as [go s1] eqn:W. cbn [fst snd] in IHs. destruct IHs as (A & B & C).
    destruct b.
    + destruct (B eq_refl) as (-> & D). specialize (IH parent s1). destruct (readable_part t) as [r b]. cbn [fst snd walk] in *.
      destruct (walk (parent ++ n ++ "/") s' _) as [go s2]. cbn [fst snd] in *. subst. apply IH.
    + rewrite (C eq_refl). cbn [fst snd walk]. destruct (walk (parent ++ n ++ "/") s' _) as [go2 s2]. cbn [fst snd] in *. subst s2. split; [destruct go2; reflexivity|]. split; [discriminate|auto].
  - cbn [readable_part walk fst snd]. split; [auto|]. split; [discriminate|auto].
  - cbn [readable_part walk]. destruct (readable_part t) as [r b]. cbn [fst snd walk] in *. apply IH.
Qed.
Theorem C76_lost t : CreateArchiveFromGit (Some t) = CreateArchiveFromGit (Some (fst (readable_part t))) /\
  (snd (readable_part t) = true <-> lost_trees t = 0%nat /\ lost_blobs t = 0%nat) /\ lost_trees (fst (readable_part t)) = 0%nat /\
  (forall r c, blob_at (fst (readable_part t)) r c -> blob_at t r c).
Proof.
  split.
  - unfold CreateArchiveFromGit. destruct (walk_readable t "" {| walkErr := false; foundSettings := false; uncompressedSize := 0; headers := [] |}) as (E & _).
    destruct (walk "" t _) as [b s], (walk "" (fst (readable_part t)) _) as [b' s']. cbn [snd] in E. subst s'. reflexivity.
  - induction t as [|n c t IH|n t IH|n sub IHs t IH|n t IH|n t IH]; cbn [readable_part lost_trees lost_blobs fst snd blob_at].
    + tauto.
    + destruct (readable_part t) as [r b]. cbn [fst snd lost_trees blob_at] in *. destruct IH as (A & B & C). split; [auto|]. split; [auto|]. intros r' c' [X|X]; auto.
    + cbn. split; [split; [discriminate|lia]|]. split; [auto|]. tauto.
    + destruct (readable_part sub) as [s b], (readable_part t) as [r b']. destruct IHs as (A & B & C), IH as (A' & B' & C'). destruct b; cbn [fst snd lost_trees lost_blobs blob_at] in *.
      * split; [|split; [lia|]].
        { rewrite A'. assert (lost_trees sub = 0%nat /\ lost_blobs sub = 0%nat) by tauto. lia. }
        intros r' c' [(q & -> & X)|X]; [left; eauto|auto].
      * split; [|split; [lia|]].
        { split; [discriminate|]. intros (X & Y). assert (false = true) by (apply A; lia). discriminate. }
        intros r' c' [(q & -> & X)|[]]. left; eauto.
    + cbn. split; [split; [discriminate|lia]|]. split; [auto|]. intros r' c' [(q & -> & [])|[]].
    + destruct (readable_part t) as [r b]. cbn [fst snd lost_trees blob_at] in *. auto.
Qed.
(* The settings the grader read are those of the archive of the input hash it found. *)
Lemma blob_named_at t c : NoDup (names t) -> forall n, blob_named t n = Some c -> blob_at t [n] c.
Proof.
  induction t as [|m k t IH|m t IH|m sub IHs t IH|m t IH|m t IH]; intros ND n E; cbn in *; [discriminate| | | | |]; apply NoDup_cons_iff in ND as [_ ND];
    destruct (String.eqb_spec m n) as [->|]; try discriminate; auto. injection E as ->. auto.
Qed.
Theorem C76_settings (settings : Type) (unmarshal : string -> option settings) repo h s :
  GetProblemInformation unmarshal repo = Some (h, s) -> exists t, trees repo h = Some t /\
  (tree t -> lost_trees t = 0%nat -> lost_blobs t = 0%nat ->
   exists es c, CreateArchiveFromGit (trees repo h) = (es, Some (bytes t)) /\ content es ["settings.json"] = Some c /\ unmarshal c = Some s).
Proof.
  unfold GetProblemInformation. destruct (private_tree repo) as [h'|]; [|discriminate]. destruct (trees repo h') as [t|] eqn:E; [|discriminate].
  destruct (blob_named t "settings.json") as [c|] eqn:B; [|discriminate]. destruct (unmarshal c) as [s'|] eqn:U; [|discriminate]. intros X. injection X as <- <-.
  exists t. split; [auto|]. intros T A L. assert (BA := blob_named_at _ _ (proj1 (proj1 T)) _ B). rewrite E, create_whole by auto.
  destruct (blob_at_head _ _ _ BA) as (m & r & Em & I). injection Em as <- <-. exists (flat [] t), c. split; [|split; [|auto]].
  - destruct (existsb _ _) eqn:X; [auto|]. apply not_true_iff_false in X. elim X. apply existsb_exists. exists "settings.json". split; [auto|apply String.eqb_refl].
  - apply (content_flat t [] ["settings.json"] c T proper_nil). auto.
Qed.

(* It reads them exactly if the private branch has them. *)
Lemma blob_at_named t c : NoDup (names t) -> forall n, blob_at t [n] c -> blob_named t n = Some c.
Proof.
  induction t as [|m k t IH|m t IH|m sub IHs t IH|m t IH|m t IH]; intros ND n E; cbn in *; [destruct E| | | | |]; apply NoDup_cons_iff in ND as [NI ND].
  all: assert (NA : forall t, blob_at t [n] c -> In n (names t)) by (clear; intros t; induction t; cbn; firstorder congruence).
  1: { destruct E as [([= ->] & ->)|E]; [rewrite String.eqb_refl; auto|]. destruct (String.eqb_spec m n) as [->|]; [elim NI; auto|auto]. }
  2: { assert (NR : forall t, ~ blob_at t [] c) by (clear; intros t; induction t as [|m k t IH|m t IH|m sub IHs t IH|m t IH|m t IH]; cbn; try tauto; intros [(? & X)|X]; [congruence|auto|destruct X; congruence|auto]).
       destruct E as [(r & E & X)|E]; [injection E as -> <-; elim (NR sub X)|]. destruct (String.eqb_spec m n) as [->|]; [elim NI; auto|auto]. }
  all: destruct (String.eqb_spec m n) as [->|]; [elim NI; auto|auto].
Qed.
Theorem C76_known (settings : Type) (unmarshal : string -> option settings) repo h s :
  (forall t, trees repo h = Some t -> tree t) ->
  (GetProblemInformation unmarshal repo = Some (h, s) <->
   private_tree repo = Some h /\ exists t c, trees repo h = Some t /\ blob_at t ["settings.json"] c /\ unmarshal c = Some s).
Proof.
  intros T. unfold GetProblemInformation. split.
  - destruct (private_tree repo) as [h'|]; [|discriminate]. destruct (trees repo h') as [t|] eqn:E; [|discriminate].
    destruct (blob_named t "settings.json") as [c|] eqn:B; [|discriminate]. destruct (unmarshal c) as [s'|] eqn:U; [|discriminate]. intros X. injection X as <- <-.
    split; [auto|]. exists t, c. split; [auto|]. split; [apply blob_named_at; auto; apply (T t E)|auto].
  - intros (-> & t & c & E & B & U). rewrite E, (blob_at_named t c), U; auto. apply (T t E).
Qed.

(* ---- The whole way ---- *)
(* Whatever fails and wherever either process crashes: what a runner accepts of what a
   grader sends from an archive it accepted are exactly the files of the tree. *)
Theorem C76_faithful digest settings_ok body trailer untar t d n d' n' os f0 f size hash len resp os' g0 g :
  hex_digest digest -> codec body trailer untar -> tree t -> lost_trees t = 0%nat -> (bytes t < 2 ^ 63)%Z ->
  ~ In Fails (firstn 4 os) -> grader_Verify digest (d ++ [n]) f0 = None ->
  (exists s, exec (grader_Add digest body trailer (d ++ [n]) (Some t)) os f0 = Finished (Nil s) f) \/ exec (grader_Add digest body trailer (d ++ [n]) (Some t)) os f0 = Crashed f ->
  grader_Verify digest (d ++ [n]) f = Some (size, hash, len) -> Transmit (d ++ [n]) hash len f = Some resp ->
  ~ In Fails (firstn 3 os') -> runner_Verify digest settings_ok (d' ++ [n']) g0 = None ->
  (exists s, exec (runner_Add digest settings_ok untar (d' ++ [n']) (Some resp)) os' g0 = Finished (Nil s) g) \/
  (exec (runner_Add digest settings_ok untar (d' ++ [n']) (Some resp)) os' g0 = Crashed g /\ exists s, runner_Verify digest settings_ok (d' ++ [n']) g = Some s) ->
  checked_out g (d' ++ [n']) t /\ len = bytes t.
Proof.
  intros HD (HC1 & HC2) T LT TS HO V0 HG HV HT HO' W0 HR. unfold grader_Add in HG.
  destruct (CreateArchiveFromGit (Some t)) as [es total] eqn:EC.
  assert (TT : forall z, total = Some z -> (0 <= z < 2 ^ 63)%Z).
  { intros z ->. destruct (create_some _ _ _ T LT EC) as (_ & _ & -> & _). split; [|auto]. clear. induction t; cbn [bytes]; lia. }
  assert (TOT : (0 <= match total with Some z => z | None => 0 end < 2 ^ 63)%Z) by (destruct total; [apply TT; auto|lia]).
  assert (X : (match total with Some _ => true | None => false end) = true /\ len = (match total with Some z => z | None => 0 end)%Z /\
              exists archive, f (d ++ [n]) = Some (File archive) /\ hash = digest archive /\ exists a b, trailer es = (a ++ b)%string /\ archive = (body es ++ a)%string).
  { destruct HG as [(s & HG)|HG].
    - destruct (C31_grader_finish _ _ _ _ _ _ _ _ _ _ _ HD TOT HO V0 HG) as (A & ar & B & _ & C & D & _). rewrite HV in C. injection C as -> -> ->. split; [auto|]. split; [auto|]. exists ar. auto.
    - destruct (C31_grader_crash _ _ _ _ _ _ _ _ _ _ _ _ _ HD TOT HO HG HV) as (A & -> & ar & B & C & _ & D & _). split; [auto|]. split; [auto|]. exists ar. auto. }
  destruct X as (OK & -> & ar & FA & -> & a & b & TA & ->). destruct total as [z|]; [|discriminate]. clear OK.
  destruct (C76_archive t es z T LT EC) as (CO & -> & _ & _ & IN & _). split; [|auto].
  unfold Transmit in HT. rewrite FA in HT. injection HT as <-.
  unfold runner_Add, add, runner_Persist in HR. cbn [Content_SHA1 Uncompressed_Size content_] in HR. rewrite ParseInt_fmt in HR by lia.
  specialize (HC2 es a b TA). destruct (untar (body es ++ a)%string) as [[rd es'] cl] eqn:EU. destruct HC2 as ((rest & PF) & ALL).
  assert (INs : forall e, In e es' -> inside (name_of e)).
  { intros e I. destruct (create_some _ _ _ T LT EC) as (_ & -> & _). assert (J : In (name_of e) (map name_of (map slash (flat [] t)))) by (rewrite PF; apply in_app_iff; left; apply in_map; auto).
    apply in_map_iff in J as (e0 & EN & J). rewrite <- EN. apply (slash_names t e0 T J). }
  assert (ST : stored g (d' ++ [n']) es' /\ rd = true /\ cl = true).
  { destruct HR as [(s & HR)|(HR & s & HVr)].
    - destruct (C31_runner_finish _ _ _ _ _ _ _ _ _ _ _ _ _ INs HO' W0 HR) as (ST & _ & _ & A & B). auto.
    - split; [apply (C31_runner_crash _ _ _ _ _ _ _ _ _ _ _ _ _ INs HO' HR HVr)|]. destruct (rd && cl) eqn:B; [apply andb_true_iff; auto|].
      cbn [exec] in HR. rewrite W0 in HR.
      destruct (delete_exec d' n' (persist_tar digest settings_ok (d' ++ [n']) (body es ++ a)%string rd es' cl (digest (body es ++ a)%string)) os' g0 HO') as [(f' & E & S & _)|(os2 & f' & E & G & _)]; rewrite E in HR.
      + injection HR as <-. rewrite (verify_sub _ _ _ _ _ _ S HVr) in W0. discriminate.
      + pose proof (persist_bad digest settings_ok d' n' true (body es ++ a)%string rd es' cl (digest (body es ++ a)%string) f' INs G B os2) as X. rewrite HR in X.
        rewrite (absent_verify digest settings_ok _ _ _ (X ltac:(discriminate))) in HVr. discriminate. }
  destruct ST as (ST & RD & CL). intros r c. rewrite (ST r c), (ALL RD CL), content_slash. apply CO.
Qed.

(* A lost answer, or one without a size, changes nothing but what was damaged; it is an
   error. *)
Theorem C76_no_answer digest settings_ok untar p resp os g0 r g :
  (match resp with None => True | Some resp => ParseInt (Uncompressed_Size resp) = None end) -> runner_Verify digest settings_ok p g0 = None ->
  exec (runner_Add digest settings_ok untar p resp) os g0 = Finished r g -> r = Err.
Proof.
  intros H V E. unfold runner_Add, add in E. cbn [exec] in E. rewrite V in E.
  assert (P : runner_Persist digest settings_ok untar p resp = Ret Err) by (unfold runner_Persist; destruct resp as [resp|]; [rewrite H|]; auto). rewrite P in E.
  unfold runner_Delete in E. cbn [exec] in E.
  destruct os as [|[| |k1] os]; try discriminate; cbn [apply] in E; destruct os as [|[| |k2] os]; try discriminate; cbn [apply exec] in E; destruct os as [|[| |k3] os]; try discriminate; cbn [apply exec] in E; injection E as <- _; auto.
Qed.

(* Nothing fails: the tree arrives. *)
Lemma flat_plain t : forall p e, plain t -> (forall s, In s p -> ~ contains LF s /\ ~ contains CR s) -> In e (flat p t) ->
  exists r, name_of e = join "/" r /\ forall s, In s r -> ~ contains LF s /\ ~ contains CR s.
Proof.
  assert (SN : forall p n, (forall s, In s p -> ~ contains LF s /\ ~ contains CR s) -> (~ contains LF n /\ ~ contains CR n) -> forall s, In s (p ++ [n]) -> ~ contains LF s /\ ~ contains CR s).
  { intros p n A B s I. apply in_app_iff in I as [I|[<-|[]]]; auto. }
  induction t as [|n c t IH|n t IH|n sub IHs t IH|n t IH|n t IH]; intros p e (PL & PA) P I; cbn [flat] in I; [destruct I| | | | |]; cbn [names all_trees] in PL, PA.
  - destruct I as [<-|I]; [exists (p ++ [n]); split; [auto|apply SN; auto; apply PL; left; auto]|]. apply (IH p e); auto. split; [intros; apply PL; right; auto|auto].
  - apply (IH p e); auto. split; [intros; apply PL; right; auto|auto].
  - destruct PA as (PS & PSA & PR). destruct I as [<-|I]; [exists (p ++ [n]); split; [auto|apply SN; auto; apply PL; left; auto]|]. apply in_app_iff in I as [I|I].
    + apply (IHs (p ++ [n]) e); [split; auto|apply SN; auto; apply PL; left; auto|auto].
    + apply (IH p e); auto. split; [intros; apply PL; right; auto|auto].
  - apply (IH p e); auto. split; [intros; apply PL; right; auto|auto].
  - apply (IH p e); auto. split; [intros; apply PL; right; auto|auto].
Qed.
Lemma join_plain c r : c <> "/"%char -> (forall s, In s r -> ~ contains c s) -> ~ contains c (join "/" r).
Proof.
  intros N. induction r as [|s r IH]; intros H; [apply contains_nil|]. destruct r as [|s' r].
  - cbn. apply H. left. auto.
  - rewrite join_cons by discriminate. rewrite contains_app, contains_cons. intros [X|[X|X]]; [apply (H s); [left; auto|auto]|auto|apply IH; auto; intros; apply H; right; auto].
Qed.
Theorem C76_delivered digest settings_ok body trailer untar t c d n d' n' f0 g0 :
  hex_digest digest -> codec body trailer untar -> tree t -> lost_trees t = 0%nat -> lost_blobs t = 0%nat -> (bytes t < 2 ^ 63)%Z ->
  blob_at t ["settings.json"] c -> settings_ok c = true ->
  accessible f0 d -> no_dirs d n f0 -> grader_Verify digest (d ++ [n]) f0 = None ->
  accessible g0 d' -> runner_Verify digest settings_ok (d' ++ [n']) g0 = None ->
  exists k f size hash resp k' g,
    exec (grader_Add digest body trailer (d ++ [n]) (Some t)) (repeat Works k) f0 = Finished (Nil (Some size)) f /\
    grader_Verify digest (d ++ [n]) f = Some (size, hash, bytes t) /\ Transmit (d ++ [n]) hash (bytes t) f = Some resp /\
    exec (runner_Add digest settings_ok untar (d' ++ [n']) (Some resp)) (repeat Works k') g0 = Finished (Nil (Some (bytes t))) g /\
    checked_out g (d' ++ [n']) t /\
    (segment n' -> plain t -> runner_Verify digest settings_ok (d' ++ [n']) g = Some (bytes t)).
Proof.
  intros HD HC T LT LB TS BS OK A0 ND V0 AG W0.
  assert (NW : forall k m, ~ In Fails (firstn m (repeat Works k))). { intros k m I. assert (J : In Fails (repeat Works k)) by (rewrite <- (firstn_skipn m); apply in_app_iff; auto). apply repeat_spec in J. discriminate. }
  assert (NWA : forall k, ~ In Fails (repeat Works k)) by (intros k I; apply repeat_spec in I; discriminate).
  assert (CA : CreateArchiveFromGit (Some t) = (flat [] t, Some (bytes t))).
  { rewrite create_whole by auto. destruct (existsb _ _) eqn:X; [auto|]. apply not_true_iff_false in X. elim X. apply existsb_exists. destruct (blob_at_head _ _ _ BS) as (m & r & E & I). injection E as <- <-. exists "settings.json". split; [auto|apply String.eqb_refl]. }
  assert (TOT : (0 <= bytes t < 2 ^ 63)%Z) by (split; [clear; induction t; cbn [bytes]; lia|auto]).
  set (es := flat [] t) in *.
  assert (GA : grader_Add digest body trailer (d ++ [n]) (Some t) = grader_add digest (d ++ [n]) (body es) (trailer es) (bytes t) true) by (unfold grader_Add; rewrite CA; auto).
  destruct (ideal_exec (grader_Add digest body trailer (d ++ [n]) (Some t)) f0) as (k & EX).
  destruct (grader_delete_works d n (grader_Persist digest (d ++ [n]) (body es) (trailer es) (bytes t) true) f0 A0 ND) as (f1 & D1 & A1 & N1).
  destruct (grader_persist_works digest d n (body es) (trailer es) (bytes t) f1 A1 N1) as (f & P1).
  assert (ID : ideal (grader_Add digest body trailer (d ++ [n]) (Some t)) f0 = (Nil (Some (Z.of_nat (String.length (body es ++ trailer es)))), f)).
  { rewrite GA. unfold grader_add, add. cbn [ideal]. rewrite V0, D1. auto. }
  rewrite ID in EX. cbn [fst snd] in EX. pose proof EX as EX'. rewrite GA in EX'.
  destruct (C31_grader_finish _ _ _ _ _ _ _ _ _ _ _ HD TOT (NW _ _) V0 EX') as (_ & ar & FA & SZ & VF & _ & AR). specialize (AR (NWA k)). subst ar.
  exists k, f, (Z.of_nat (String.length (body es ++ trailer es))), (digest (body es ++ trailer es)%string), {| Content_SHA1 := digest (body es ++ trailer es)%string; Uncompressed_Size := fmt_int (bytes t); content_ := (body es ++ trailer es)%string |}.
  destruct HC as (HC1 & _).
  assert (IN : forall e, In e (map slash es) -> inside (name_of e)) by (intros e I; apply (slash_names t e T I)).
  assert (CS : content (map slash es) ["settings.json"] = Some c) by (rewrite content_slash; apply (content_flat t [] ["settings.json"] c T proper_nil); auto).
  set (stream := (body es ++ trailer es)%string) in *.
  set (resp := {| Content_SHA1 := digest stream; Uncompressed_Size := fmt_int (bytes t); content_ := stream |}).
  assert (RA : runner_Add digest settings_ok untar (d' ++ [n']) (Some resp) = runner_add digest settings_ok (d' ++ [n']) stream true (map slash es) true (digest stream)).
  { unfold runner_Add, runner_Persist. cbn [Content_SHA1 Uncompressed_Size content_ resp]. rewrite ParseInt_fmt by lia. unfold stream. rewrite HC1. reflexivity. }
  destruct (ideal_exec (runner_Add digest settings_ok untar (d' ++ [n']) (Some resp)) g0) as (k' & RX).
  destruct (delete_works d' n' (persist_tar digest settings_ok (d' ++ [n']) stream true (map slash es) true (digest stream)) g0 AG) as (g1 & D2 & G1 & AG1).
  destruct (persist_works digest settings_ok d' n' stream (map slash es) g1 c IN (consistent_slash t T) G1 AG1 CS OK) as (g & P2).
  assert (ID2 : ideal (runner_Add digest settings_ok untar (d' ++ [n']) (Some resp)) g0 = (Nil (Some (bytes t)), g)).
  { rewrite RA. unfold runner_add, add. cbn [ideal]. rewrite W0, D2, P2, total_slash. unfold es. rewrite total_flat. auto. }
  rewrite ID2 in RX. cbn [fst snd] in RX. pose proof RX as RX'. rewrite RA in RX'.
  destruct (C31_runner_finish _ _ _ _ _ _ _ _ _ _ _ _ _ IN (NW _ _) W0 RX') as (ST & _).
  exists k', g. split; [exact EX|]. split; [exact VF|]. split; [unfold Transmit; rewrite FA; auto|]. split; [exact RX|]. split.
  - intros r k0. rewrite (ST r k0), content_slash. apply (content_flat t [] r k0 T proper_nil).
  - intros SG PL. eapply C31_runner_reload; [exact HD|exact SG|exact IN| | |apply (NW k')|exact W0|exact RX'].
    + intros nm k0 I. assert (J : In (EFile nm k0) es). { apply in_map_iff in I as ([x|x k1] & E & I); cbn in E; [discriminate|]. injection E as -> ->. auto. }
      destruct (flat_names _ _ _ T proper_nil J) as (r & P & N & C & _). cbn in P, C. destruct (flat_plain t [] _ PL (fun s (X : In s []) => match X with end) J) as (r' & C' & PL'). cbn in C'.
      split; [|split; [rewrite C; apply inside_path; auto|]].
      * rewrite C. destruct (head_plain r "" P N) as (x & y & E & _). rewrite append_nil_r in E. rewrite E. discriminate.
      * rewrite C'. split; apply join_plain; try discriminate; intros s I'; apply PL'; auto.
    + rewrite files_slash. apply flat_once; auto using proper_nil.
Qed.

(* ---- Where it fails ---- *)
(* Not so: "an archive has all files of its tree".  The error of a walk that ends at a
   subtree that cannot be read is dropped; if settings.json came before, the archive is
   made, sent and accepted without the files after it. *)
Theorem C76_lost_tree_refuted digest settings_ok body trailer untar c v :
  hex_digest digest -> codec body trailer untar -> settings_ok c = true -> (Z.of_nat (String.length c) < 2 ^ 63)%Z ->
  let t := Blob "settings.json" c (LostSub "solutions" (Blob "validator.py" v End)) in
  tree t /\ blob_at t ["validator.py"] v /\
  exists k f size hash len resp k' g,
    exec (grader_Add digest body trailer ["cache"; "in.tar.gz"] (Some t)) (repeat Works k) empty_fs = Finished (Nil (Some size)) f /\
    grader_Verify digest ["cache"; "in.tar.gz"] f = Some (size, hash, len) /\ Transmit ["cache"; "in.tar.gz"] hash len f = Some resp /\
    exec (runner_Add digest settings_ok untar ["input"; "in"] (Some resp)) (repeat Works k') empty_fs = Finished (Nil (Some len)) g /\
    runner_Verify digest settings_ok ["input"; "in"] g = Some len /\ (forall c', g ["input"; "in"; "validator.py"] <> Some (File c')).
Proof.
  intros HD HC OK SZ t. assert (NS : forall s, In s ["settings.json"; "solutions"; "validator.py"]%string -> git_name s /\ ~ contains LF s /\ ~ contains CR s).
  { intros s [<-|[<-|[<-|[]]]]; (split; [split; [discriminate|split; [discriminate|split; [discriminate|]]]|split]); unfold contains; cbn; intuition discriminate. }
  assert (ND : NoDup ["settings.json"; "solutions"; "validator.py"]%string) by (repeat constructor; cbn; intuition discriminate).
  split; [split; [split; [exact ND|intros s I; apply NS; exact I]|cbn; auto]|]. split; [cbn; auto|].
  set (t' := Blob "settings.json" c (Sub "solutions" End End)).
  assert (EQ : grader_Add digest body trailer ["cache"; "in.tar.gz"] (Some t) = grader_Add digest body trailer ["cache"; "in.tar.gz"] (Some t')) by reflexivity. rewrite EQ. clear EQ.
  destruct (C76_delivered digest settings_ok body trailer untar t' c ["cache"] "in.tar.gz" ["input"] "in" empty_fs empty_fs) as (k & f & size & hash & resp & k' & g & E1 & E2 & E3 & E4 & E5 & E6); auto.
  - split; [split; [repeat constructor; cbn; intuition discriminate|intros s I; apply NS; cbn in I |- *; tauto]|]. cbn. split; [split; [constructor|intros ? []]|auto].
  - cbn. rewrite Z.add_0_r. auto.
  - cbn. auto.
  - intros q r c' E X. unfold empty_fs in X. destruct q; discriminate.
  - intros e _ X. discriminate.
  - intros q r c' E X. unfold empty_fs in X. destruct q; discriminate.
  - exists k, f, size, hash, (bytes t'), resp, k', g. split; [auto|]. split; [auto|]. split; [auto|]. split; [auto|]. split.
    + apply E6.
      * unfold segment. split; [discriminate|]. split; [discriminate|]. split; [discriminate|]. unfold contains. cbn. intuition discriminate.
      * split; [intros s I; apply NS; cbn in I |- *; tauto|]. cbn. split; [intros ? []|auto].
    + intros c' X. apply (E5 ["validator.py"] c') in X. cbn in X. destruct X as [(X & _)|[(r' & X & _)|[]]]; discriminate.
Qed.
(* Not so: "an archive that is made has settings".  A directory of that name will do; no
   runner accepts the archive. *)
Theorem C76_settings_directory_refuted digest settings_ok body trailer untar :
  codec body trailer untar ->
  let t := Sub "settings.json" End End in
  tree t /\ snd (CreateArchiveFromGit (Some t)) = Some 0%Z /\
  forall resp d n os g0 r g, content_ resp = (body (fst (CreateArchiveFromGit (Some t))) ++ trailer (fst (CreateArchiveFromGit (Some t))))%string ->
    ~ In Fails (firstn 3 os) -> runner_Verify digest settings_ok (d ++ [n]) g0 = None ->
    exec (runner_Add digest settings_ok untar (d ++ [n]) (Some resp)) os g0 = Finished r g -> r = Err.
Proof.
  intros (HC & _) t. assert (TT : tree t).
  { split; [split; [repeat constructor; cbn; tauto|]|cbn; split; [split; [constructor|intros ? []]|auto]]. intros s [<-|[]]. split; [discriminate|]. split; [discriminate|]. split; [discriminate|]. unfold contains; cbn; intuition discriminate. }
  split; [exact TT|]. split; [reflexivity|]. intros resp d n os g0 r g ER HO V E. unfold runner_Add, add in E. cbn [exec] in E. rewrite V in E. unfold runner_Persist in E.
  destruct (ParseInt (Uncompressed_Size resp)) as [z|] eqn:PI; [|eapply (C76_no_answer digest settings_ok untar (d ++ [n]) (Some resp) os g0 r g); auto; unfold runner_Add, add; cbn [exec]; rewrite V; unfold runner_Persist; rewrite PI; auto].
  rewrite ER, HC in E. destruct r as [|s]; [auto|]. exfalso.
  destruct (delete_exec d n (persist_tar digest settings_ok (d ++ [n]) (body (fst (CreateArchiveFromGit (Some t))) ++ trailer (fst (CreateArchiveFromGit (Some t))))%string true (map slash (fst (CreateArchiveFromGit (Some t)))) true (Content_SHA1 resp)) os g0 HO) as [(f' & E' & _)|(os' & f' & E' & G & _)]; rewrite E' in E; [discriminate|].
  assert (IN : forall e, In e (map slash (fst (CreateArchiveFromGit (Some t)))) -> inside (name_of e)) by (intros e I; apply (slash_names t e TT I)).
  pose proof (persist_safe digest settings_ok d n true (body (fst (CreateArchiveFromGit (Some t))) ++ trailer (fst (CreateArchiveFromGit (Some t))))%string true _ true (Content_SHA1 resp) f' IN G os') as X. rewrite E in X.
  destruct X as (_ & [B _ (c & S & _)] & _); [discriminate|]. apply B in S. vm_compute in S. discriminate.
Qed.

(* ---- The hypotheses can be met ---- *)
(* A format: entries one after the other, a final z. *)
Fixpoint enc (s : string) : string := match s with "" => "e" | String c s => String "x" (String c (enc s)) end.
Fixpoint dec (s : string) : option (string * string) :=
  match s with
  | String "e" r => Some ("", r)%string
  | String "x" (String c s) => match dec s with Some (t, r) => Some (String c t, r) | None => None end
  | _ => None
  end.
Lemma dec_enc s r : dec (enc s ++ r)%string = Some (s, r).
Proof. induction s as [|c s IH]; cbn; [auto|]. rewrite IH. auto. Qed.
Definition ex_one (e : entry) : string := match e with EDir n => String "d" (enc n) | EFile n c => String "f" (enc n ++ enc c)%string end.
Definition ex_body (es : list entry) : string := fold_right (fun e t => (ex_one e ++ t)%string) "" es.
Definition ex_trailer (es : list entry) : string := "z".
Fixpoint ex_read (fuel : nat) (s : string) : list entry * bool :=
  match fuel, s with
  | _, String "z" "" => ([], true)
  | S fuel, String "d" s => match dec s with Some (n, r) => let (es, b) := ex_read fuel r in (EDir (n ++ "/")%string :: es, b) | None => ([], false) end
  | S fuel, String "f" s => match dec s with Some (n, r) => match dec r with Some (c, r) => let (es, b) := ex_read fuel r in (EFile n c :: es, b) | None => ([], false) end | None => ([], false) end
  | _, _ => ([], false)
  end.
Definition ex_untar (s : string) : bool * list entry * bool := let (es, b) := ex_read (String.length s) s in (true, es, b).
Lemma ex_read_body es r : forall fuel, (length es <= fuel)%nat -> ex_read fuel (ex_body es ++ r)%string = let (es', b) := ex_read (fuel - length es) r in (map slash es ++ es', b).
Proof.
  induction es as [|e es IH]; intros fuel F; cbn [ex_body fold_right length map app].
  - rewrite Nat.sub_0_r. change ("" ++ r)%string with r. destruct (ex_read fuel r). auto.
  - cbn in F. destruct fuel as [|fuel]; [lia|]. cbn [Nat.sub]. fold (ex_body es). destruct e as [n|n c]; cbn [ex_one]; rewrite !append_assoc || rewrite append_assoc.
    + cbn [String.append ex_read]. rewrite dec_enc, IH by lia. destruct (ex_read (fuel - length es) r). auto.
    + cbn [String.append ex_read]. rewrite !append_assoc, !dec_enc, IH by lia. destruct (ex_read (fuel - length es) r). auto.
Qed.
Lemma ex_body_long es : (length es <= String.length (ex_body es))%nat.
Proof.
  assert (L : forall a b, String.length (a ++ b) = (String.length a + String.length b)%nat) by (induction a; intros; cbn; auto).
  induction es as [|e es IH]; cbn [ex_body fold_right length]; [lia|]. fold (ex_body es). rewrite L. destruct e; cbn [ex_one String.length]; lia.
Qed.
Example ex_codec : codec ex_body ex_trailer ex_untar.
Proof.
  assert (L : forall a b, String.length (a ++ b) = (String.length a + String.length b)%nat) by (induction a; intros; cbn; auto).
  assert (FULL : forall es, ex_untar (ex_body es ++ ex_trailer es) = (true, map slash es, true)).
  { intros es. unfold ex_untar. pose proof (ex_body_long es). rewrite ex_read_body by (rewrite L; lia). unfold ex_trailer. destruct (_ - _)%nat; cbn; rewrite app_nil_r; auto. }
  split; [exact FULL|]. intros es t u E. destruct t as [|x t].
  - rewrite append_nil_r. unfold ex_untar. pose proof (ex_body_long es) as BL. pose proof (ex_read_body es "" (String.length (ex_body es)) BL) as RB. rewrite append_nil_r in RB. rewrite RB.
    destruct (_ - _)%nat; cbn; (split; [exists []; rewrite !app_nil_r; auto|discriminate]).
  - unfold ex_trailer in E. injection E as <- E. destruct t; [|discriminate]. change "z"%string with (ex_trailer es). rewrite FULL. split; [exists []; rewrite app_nil_r; auto|auto].
Qed.
(* A problem with two cases. *)
Definition ex_tree : gtree :=
  Sub "cases" (Blob "0.in" "1" (Blob "0.out" "2" End)) (Blob "settings.json" "{}" (Link "shared" End)).
Lemma ex_is_tree : tree ex_tree /\ plain ex_tree.
Proof.
  assert (NS : forall s, In s ["cases"; "0.in"; "0.out"; "settings.json"; "shared"]%string -> git_name s /\ ~ contains LF s /\ ~ contains CR s).
  { intros s [<-|[<-|[<-|[<-|[<-|[]]]]]]; (split; [split; [discriminate|split; [discriminate|split; [discriminate|]]]|split]); unfold contains; cbn; intuition discriminate. }
  split; split.
  - split; [repeat constructor; cbn; intuition discriminate|intros s I; apply NS; cbn in I |- *; tauto].
  - cbn. split; [|auto]. split; [repeat constructor; cbn; intuition discriminate|intros s I; apply NS; cbn in I |- *; tauto].
  - intros s I; apply NS; cbn in I |- *; tauto.
  - cbn. split; [|auto]. intros s I; apply NS; cbn in I |- *; tauto.
Qed.
Example ex_archive : CreateArchiveFromGit (Some ex_tree) = ([EDir "cases"; EFile "cases/0.in" "1"; EFile "cases/0.out" "2"; EFile "settings.json" "{}"], Some 4%Z).
Proof. reflexivity. Qed.
Example ex_blob : blob_at ex_tree ["cases"; "0.in"] "1". Proof. cbn. left. eauto. Qed.
Example ex_delivered : exists k f size hash resp k' g,
    exec (grader_Add (fun _ => hex0) ex_body ex_trailer ["cache"; "in.tar.gz"] (Some ex_tree)) (repeat Works k) empty_fs = Finished (Nil (Some size)) f /\
    grader_Verify (fun _ => hex0) ["cache"; "in.tar.gz"] f = Some (size, hash, 4%Z) /\ Transmit ["cache"; "in.tar.gz"] hash 4 f = Some resp /\
    exec (runner_Add (fun _ => hex0) (fun _ => true) ex_untar ["input"; "in"] (Some resp)) (repeat Works k') empty_fs = Finished (Nil (Some 4%Z)) g /\
    g ["input"; "in"; "cases"; "0.in"] = Some (File "1").
Proof.
  destruct (C76_delivered (fun _ => hex0) (fun _ => true) ex_body ex_trailer ex_untar ex_tree "{}" ["cache"] "in.tar.gz" ["input"] "in" empty_fs empty_fs) as (k & f & size & hash & resp & k' & g & E1 & E2 & E3 & E4 & E5 & _); auto using ex_codec; try apply ex_is_tree; try reflexivity.
  - intros s. split; [reflexivity|]. intros c I. vm_compute in I. repeat (destruct I as [<-|I]; [reflexivity|]). destruct I.
  - cbn. auto.
  - intros q r c' E X. unfold empty_fs in X. destruct q; discriminate.
  - intros e _ X. discriminate.
  - intros q r c' E X. unfold empty_fs in X. destruct q; discriminate.
  - exists k, f, size, hash, resp, k', g. split; [auto|]. split; [auto|]. split; [auto|]. split; [auto|]. apply (E5 ["cases"; "0.in"] "1"). apply ex_blob.
Qed.
Example ex_settings : GetProblemInformation (fun c => Some c) {| private_tree := Some "h"%string; trees := fun _ => Some ex_tree |} = Some ("h", "{}")%string.
Proof. reflexivity. Qed.
Print Assumptions C76_archive.
Print Assumptions C76_made.
Print Assumptions C76_settings.
Print Assumptions C76_known.
Print Assumptions C76_lost.
Print Assumptions C76_faithful.
Print Assumptions C76_no_answer.
Print Assumptions C76_delivered.
Print Assumptions C76_lost_tree_refuted.
Print Assumptions C76_settings_directory_refuted.

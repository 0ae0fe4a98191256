(* Executions in which no operation is refused. *)
From Coq Require Import String Ascii List Bool ZArith Lia.
From Verif Require Import GoStr InModel InSpec InProofs InReload InRunnerProofs InGraderProofs GtModel GtSpec GtProofs.
Import ListNotations.
Local Open Scope string_scope.
Local Open Scope list_scope.

Fixpoint ideal (p : prog) (f : fs) : answer * fs :=
  match p with
  | Ret r => (r, f)
  | Look k => ideal (k f) f
  | Do o k => match apply o f with Some f' => ideal (k true) f' | None => ideal (k false) f end
  end.
Lemma ideal_exec p : forall f, exists k, exec p (repeat Works k) f = Finished (fst (ideal p f)) (snd (ideal p f)).
Proof.
  induction p as [r|o k IH|k IH]; intros f; cbn [ideal].
  - exists 0%nat. reflexivity.
  - destruct (apply o f) as [f'|] eqn:E.
    + destruct (IH true f') as (m & H). exists (S m). cbn [repeat exec]. rewrite E. auto.
    + destruct (IH false f) as (m & H). exists (S m). cbn [repeat exec]. rewrite E. auto.
  - apply (IH f f).
Qed.
Lemma ideal_write q s ok fail : forall f s0, f q = Some (File s0) ->
  exists f', ideal (write q s ok fail) f = ideal ok f' /\ f' q = Some (File (s0 ++ s)%string) /\ agree f' f q.
Proof.
  induction s as [|c s IH]; intros f s0 H; cbn [write ideal].
  - exists f. rewrite append_nil_r. split; [auto|]. split; [auto|]. intros r _. auto.
  - cbn [apply]. rewrite H. destruct (IH (set f q (Some (File (s0 ++ String c "")%string))) _ (set_same _ _ _)) as (f' & A & B & C).
    exists f'. split; [auto|]. split; [rewrite B, append_assoc; auto|]. intros r N. rewrite C by auto. apply set_other. auto.
Qed.
Lemma ideal_write_ignoring q s k : forall f s0, f q = Some (File s0) ->
  exists f', ideal (write_ignoring q s k) f = ideal k f' /\ f' q = Some (File (s0 ++ s)%string) /\ agree f' f q.
Proof.
  induction s as [|c s IH]; intros f s0 H; cbn [write_ignoring ideal].
  - exists f. rewrite append_nil_r. split; [auto|]. split; [auto|]. intros r _. auto.
  - cbn [apply]. rewrite H. destruct (IH (set f q (Some (File (s0 ++ String c "")%string))) _ (set_same _ _ _)) as (f' & A & B & C).
    exists f'. split; [auto|]. split; [rewrite B, append_assoc; auto|]. intros r N. rewrite C by auto. apply set_other. auto.
Qed.
Lemma mkdir_works p f : accessible f p -> exists f', apply (MkdirAll p) f = Some f'.
Proof.
  intros A. cbn. destruct (forallb _ _) eqn:E; [eauto|]. exfalso. apply not_true_iff_false in E. apply E, forallb_forall. intros q I. apply in_prefixes in I as (r & ->).
  destruct (f q) as [[c|]|] eqn:X; auto. elim (A q r c eq_refl X).
Qed.
Lemma create_works p f : f (removelast p) = Some Dir -> f p <> Some Dir -> exists f', apply (Create p) f = Some f'.
Proof. intros A B. cbn [apply]. unfold is_dir. rewrite A. destruct (f p) as [[c|]|]; [cbn; eexists; reflexivity|elim B; auto|cbn; eexists; reflexivity]. Qed.

Lemma pdis (d : path) a b r r' : a <> b -> ~ exists z, (d ++ [a]) ++ r = ((d ++ [b]) ++ r') ++ z.
Proof. apply (prefix_disjoint (fun x => x) (fun _ => true) d ""). Qed.
(* An archive whose files are not directories of it. *)
Definition is_file (e : entry) : Prop := match e with EFile _ _ => True | EDir _ => False end.
Definition consistent (es : list entry) : Prop :=
  forall nm c, In (EFile nm c) es -> rel nm <> [] /\ forall e x, In e es -> rel (name_of e) = rel nm ++ x -> x = [] /\ is_file e.

Section Runner.
Variable digest : string -> string.
Variable settings_ok : string -> bool.
Variable d : path.
Variable n : string.
Notation p := (d ++ [n]).
Notation tmp := (d ++ [(n ++ ".tmp")%string]).
Notation sha := (d ++ [(n ++ ".sha1")%string]).
Record live (done : list entry) (f : fs) : Prop := {
  l_extracted : extracted digest d n done f;
  l_access : accessible f tmp;
  l_d : f d = Some Dir;
  l_dirs : forall r, f (tmp ++ r) = Some Dir -> r = [] \/ exists e x, In e done /\ rel (name_of e) = r ++ x /\ (is_file e -> x <> [])
}.
Lemma d_not_tmp r : d <> tmp ++ r. Proof. rewrite <- app_assoc. cbn. intros E. apply (f_equal (@length _)) in E. rewrite app_length in E. cbn in E. lia. Qed.
Lemma d_not_sha : d <> sha. Proof. intros E. apply (f_equal (@length _)) in E. rewrite app_length in E. cbn in E. lia. Qed.
(* A prefix of a path below tmp. *)
Lemma prefix_below r q z : tmp ++ r = q ++ z -> (exists y, tmp = q ++ y) \/ exists r1, q = tmp ++ r1 /\ r = r1 ++ z.
Proof.
  revert q z. generalize tmp. intros a. induction a as [|x a IH]; intros q z E.
  - right. exists q. auto.
  - destruct q as [|y q]; [left; exists (x :: a); auto|]. cbn in E. injection E as -> E. destruct (IH _ _ E) as [(w & ->)|(r1 & -> & ->)]; [left; exists w; auto|right; exists r1; auto].
Qed.
Lemma accessible_below done f r : live done f -> (forall nm c r1 z, In (EFile nm c) done -> rel nm = r1 -> r <> r1 ++ z) -> accessible f (tmp ++ r).
Proof.
  intros L H q z c E X. destruct (prefix_below _ _ _ E) as [(y & Ey)|(r1 & -> & ->)].
  - apply (l_access _ _ L q y c Ey X).
  - apply (x_files _ _ _ _ _ (l_extracted _ _ L)) in X. destruct (content_in _ _ _ X) as (nm & I & R). apply (H nm c r1 z I R eq_refl).
Qed.
Lemma mkdir_live done r f f' : live done f -> apply (MkdirAll (tmp ++ r)) f = Some f' ->
  extracted digest d n done f' /\ accessible f' tmp /\ f' d = Some Dir /\
  (forall s, f' (tmp ++ s) = Some Dir -> (exists z, r = s ++ z) \/ f (tmp ++ s) = Some Dir) /\ f' (tmp ++ r) = Some Dir.
Proof.
  intros L E. apply mkdir_spec in E. destruct E as (E1 & E2 & E3). destruct (l_extracted _ _ L) as [XA XS XT XF]. split; [|split; [|split; [|split]]].
  - constructor.
    + intros s. rewrite E2; [apply XA|]. apply (pdis d (n ++ ".tmp") n). intros X. apply (n_tmp n). auto.
    + rewrite E2; [auto|]. intros X. revert X. rewrite <- (app_nil_r sha). apply (pdis d (n ++ ".tmp") (n ++ ".sha1")). intros X. apply (sha_tmp n). auto.
    + apply E1. eauto.
    + intros s c. rewrite E3. apply XF.
  - intros q z c Eq X. apply E3 in X. apply (l_access _ _ L q z c Eq X).
  - apply E1. exists ([(n ++ ".tmp")%string] ++ r). rewrite app_assoc. auto.
  - intros s X. destruct (existsb (path_eqb (tmp ++ s)) (prefixes (tmp ++ r))) eqn:B.
    + apply existsb_prefixes in B. destruct B as (z & B). rewrite <- (app_assoc tmp s z) in B. apply app_inv_head in B. eauto.
    + rewrite E2 in X; [auto|]. intros Y. apply existsb_prefixes in Y. congruence.
  - apply E1. exists []. rewrite app_nil_r. auto.
Qed.
Lemma extract_works ok fail : forall es done size f, (forall e, In e es -> inside (name_of e)) -> consistent (done ++ es) -> live done f ->
  exists f', ideal (extract digest p es size ok fail) f = ideal (ok (size + total_size es)%Z) f' /\ live (done ++ es) f'.
Proof.
  induction es as [|[nm|nm c] es IH]; intros done size f HI HC L; cbn [extract].
  - exists f. cbn. rewrite Z.add_0_r, app_nil_r. auto.
  - rewrite with_ext_snoc, path_join_inside by (apply (HI (EDir nm)); left; auto). cbn [ideal].
    destruct (mkdir_works (tmp ++ rel nm) f) as (f1 & E).
    { eapply accessible_below; [eauto|]. intros nm' c r1 z I R X. destruct (HC nm' c) as (_ & K); [apply in_app_iff; auto|].
      destruct (K (EDir nm) z) as (_ & K2); [apply in_app_iff; right; left; auto|cbn [name_of]; rewrite R; auto|]. destruct K2. }
    rewrite E. destruct (mkdir_live _ _ _ _ L E) as (A & B & C & D & _).
    assert (L1 : live (done ++ [EDir nm]) f1).
    { destruct A as [XA XS XT XF]. constructor; [constructor| | |]; auto.
      - rewrite text_app. cbn. rewrite append_nil_r. auto.
      - intros r c. rewrite content_snoc. auto.
      - intros r X. apply D in X as [(z & X)|X]; [right; exists (EDir nm), z; rewrite in_app_iff; cbn; auto|].
        destruct (l_dirs _ _ L r X) as [?|(e & x & I & R & K)]; [auto|]. right. exists e, x. rewrite in_app_iff. auto. }
    destruct (IH (done ++ [EDir nm]) size f1) as (f' & F & G); [intros; apply HI; right; auto|rewrite <- app_assoc; auto|auto|].
    exists f'. rewrite F. rewrite <- app_assoc in G. cbn [total_size]. auto.
  - rewrite !with_ext_snoc, path_join_inside by (apply (HI (EFile nm c)); left; auto). cbn [ideal].
    destruct (HC nm c) as (NE & K); [apply in_app_iff; right; left; auto|]. destruct (exists_last NE) as (r0 & l & R).
    assert (RL : removelast (tmp ++ rel nm) = tmp ++ r0) by (rewrite R, app_assoc; apply removelast_last). rewrite RL.
    destruct (mkdir_works (tmp ++ r0) f) as (f1 & E).
    { eapply accessible_below; [eauto|]. intros nm' c' r1 z I Q X. destruct (HC nm' c') as (_ & K'); [apply in_app_iff; auto|].
      destruct (K' (EFile nm c) (z ++ [l])) as (K2 & _); [apply in_app_iff; right; left; auto|cbn [name_of]; rewrite R, X, Q, <- app_assoc; auto|]. destruct z; discriminate. }
    rewrite E. destruct (mkdir_live _ _ _ _ L E) as (A & B & C & D & PD). cbn [negb].
    destruct (create_works (tmp ++ rel nm) f1) as (f2 & E2).
    { rewrite RL. auto. }
    { intros X. apply D in X as [(z & X)|X].
      - rewrite R, <- app_assoc in X. rewrite <- (app_nil_r r0) in X at 1. apply app_inv_head in X. discriminate.
      - destruct (l_dirs _ _ L _ X) as [X0|(e & x & I & Q & KK)]; [auto|]. destruct (K e x) as (-> & F); [apply in_app_iff; auto|auto|]. elim KK; auto. }
    cbn [ideal]. rewrite E2. cbn [negb]. apply create_spec in E2. destruct E2 as (F1 & F2 & _ & _).
    destruct (ideal_write (tmp ++ rel nm) c (write sha (sha1_line digest p nm c) (extract digest p es (size + Z.of_nat (String.length c)) ok fail) fail) fail f2 "" F1) as (f3 & W & W1 & W2). rewrite W. cbn [String.append] in W1.
    assert (SH : f3 sha = Some (File (text digest d n done))). { rewrite W2, F2 by (intros X; symmetry in X; apply (tmp_sha d n _ X)). apply (x_sha _ _ _ _ _ A). }
    destruct (ideal_write sha (sha1_line digest p nm c) (extract digest p es (size + Z.of_nat (String.length c)) ok fail) fail f3 _ SH) as (f4 & V & V1 & V2). rewrite V.
    assert (P4 : forall q, q <> tmp ++ rel nm -> q <> sha -> f4 q = f1 q) by (intros q N1 N2; rewrite V2, W2, F2 by auto; auto).
    assert (L4 : live (done ++ [EFile nm c]) f4).
    { destruct A as [XA XS XT XF]. constructor; [constructor| | |].
      - intros s. rewrite P4; [apply XA|intros X; apply (p_tmp d n _ _ X)|apply p_sha].
      - rewrite V1, text_app. cbn. rewrite append_nil_r. auto.
      - rewrite P4; [auto| |rewrite <- (app_nil_r tmp); apply tmp_sha]. rewrite <- (app_nil_r tmp) at 1. intros X. apply app_inv_head in X. symmetry in X. auto.
      - intros s k. rewrite content_snoc. destruct (path_eqb (rel nm) s) eqn:Q.
        + apply path_eqb_spec in Q. subst s. rewrite V2, W1 by apply tmp_sha. split; intros X; injection X as ->; auto.
        + apply path_eqb_neq in Q. rewrite P4; [apply XF|intros X; apply app_inv_head in X; auto|apply tmp_sha].
      - intros q z k Eq X. rewrite P4 in X; [apply (B q z k Eq X)| |].
        + intros ->. rewrite <- (app_assoc tmp) in Eq. rewrite <- (app_nil_r tmp) in Eq at 1. apply app_inv_head in Eq. symmetry in Eq. apply app_eq_nil in Eq as [Eq _]. auto.
        + intros ->. apply (pdis d (n ++ ".tmp") (n ++ ".sha1") [] []); [intros X'; apply (sha_tmp n); auto|]. exists z. rewrite !app_nil_r. auto.
      - rewrite P4; [auto|apply d_not_tmp|apply d_not_sha].
      - intros s X. destruct (path_eq_dec s (rel nm)) as [->|Ns]; [rewrite V2, W1 in X by apply tmp_sha; discriminate|].
        rewrite P4 in X; [|intros Y; apply app_inv_head in Y; auto|apply tmp_sha]. right. apply D in X as [(z & X)|X].
        + exists (EFile nm c), (z ++ [l]). rewrite in_app_iff. split; [right; left; auto|]. cbn [name_of]. split; [rewrite R, X, <- app_assoc; auto|]. intros _ Y. destruct z; discriminate.
        + destruct (l_dirs _ _ L s X) as [->|(e & x & I & Q & KK)].
          * exists (EFile nm c), (rel nm). rewrite in_app_iff. split; [right; left; auto|]. split; [auto|]. intros _. auto.
          * exists e, x. rewrite in_app_iff. auto. }
    destruct (IH (done ++ [EFile nm c]) (size + Z.of_nat (String.length c))%Z f4) as (f' & F & G); [intros; apply HI; right; auto|rewrite <- app_assoc; auto|auto|].
    exists f'. rewrite F. rewrite <- app_assoc in G. cbn [total_size]. split; [f_equal; f_equal; lia|auto].
Qed.
Lemma persist_works stream es f c : (forall e, In e es -> inside (name_of e)) -> consistent es -> gone d n f -> accessible f d ->
  content es ["settings.json"] = Some c -> settings_ok c = true ->
  exists f', ideal (persist_tar digest settings_ok p stream true es true (digest stream)) f = (Nil (Some (total_size es)), f').
Proof.
  intros HI HC (GA & GS & GT) AC CS OK. unfold persist_tar. rewrite !with_ext_snoc. cbn [ideal].
  destruct (mkdir_works tmp f) as (f1 & E).
  { intros q z k Eq X. destruct z as [|a z] using rev_ind.
    - rewrite app_nil_r in Eq. subst q. specialize (GT []). rewrite app_nil_r in GT. congruence.
    - rewrite app_assoc in Eq. apply app_inj_tail in Eq as [Eq _]. apply (AC q z k Eq X). }
  rewrite E. cbn [negb ideal]. apply mkdir_spec in E. destruct E as (E1 & E2 & E3).
  assert (S1 : f1 sha = None). { rewrite E2; [auto|]. intros X. revert X. rewrite <- (app_nil_r tmp), <- (app_nil_r sha). apply (pdis d (n ++ ".tmp") (n ++ ".sha1")). intros X. apply (sha_tmp n). auto. }
  assert (D1 : f1 d = Some Dir) by (apply E1; eauto).
  destruct (create_works sha f1) as (f2 & E); [rewrite removelast_last; auto|congruence|]. rewrite E. cbn [negb]. apply create_spec in E. destruct E as (F1 & F2 & _ & _).
  destruct (extract_works (fun size => if (digest stream =? digest stream)
     then Look (fun f => match f (tmp ++ ["settings.json"]) with
           | Some (File c) => if settings_ok c then Do (Rename tmp p) (fun b => if negb b then Do (RemoveAll tmp) (fun _ => Ret Err) else Do (RemoveAll tmp) (fun _ => Ret (Nil (Some size)))) else Do (RemoveAll tmp) (fun _ => Ret Err)
           | _ => Do (RemoveAll tmp) (fun _ => Ret Err) end) else Do (RemoveAll tmp) (fun _ => Ret Err)) (Do (RemoveAll tmp) (fun _ => Ret Err)) es [] 0%Z f2) as (f3 & I & L3); auto.
  { constructor; [constructor| | |].
    - intros r. rewrite F2 by apply p_sha. rewrite E2; [apply GA|]. intros X. revert X. rewrite <- (app_nil_r tmp). apply (pdis d (n ++ ".tmp") n). intros X. apply (n_tmp n). auto.
    - rewrite F1. auto.
    - rewrite F2; [apply E1; exists []; rewrite app_nil_r; auto|]. rewrite <- (app_nil_r tmp). apply tmp_sha.
    - intros r k. rewrite F2 by apply tmp_sha. rewrite E3, GT. cbn. split; discriminate.
    - intros q z k Eq X. destruct (path_eq_dec q sha) as [->|N].
      + apply (pdis d (n ++ ".tmp") (n ++ ".sha1") [] []); [intros X'; apply (sha_tmp n); auto|]. exists z. rewrite !app_nil_r. auto.
      + rewrite F2 in X by auto. rewrite E1 in X by eauto. discriminate.
    - rewrite F2 by apply d_not_sha. auto.
    - intros r X. rewrite F2 in X by apply tmp_sha. destruct r as [|a r]; [auto|]. rewrite E2, GT in X; [discriminate|].
      intros (z & Y). rewrite <- (app_assoc tmp) in Y. rewrite <- (app_nil_r tmp) in Y at 1. apply app_inv_head in Y. discriminate. }
  cbn [app negb] in *. rewrite String.eqb_refl in *. cbn [negb]. rewrite I. cbn [ideal].
  destruct (l_extracted _ _ L3) as [XA XS XT XF]. assert (CS' := CS). apply XF in CS'. rewrite CS', OK. cbn [ideal apply]. rewrite XT.
  unfold is_dir. rewrite removelast_last, (l_d _ _ L3). cbn [andb]. specialize (XA []) as XP. rewrite app_nil_r in XP. rewrite XP. cbn [negb ideal apply fst]. eexists. reflexivity.
Qed.
Lemma delete_works k f : accessible f d -> exists f', ideal (runner_Delete p k) f = ideal k f' /\ gone d n f' /\ accessible f' d.
Proof.
  intros A. unfold runner_Delete. rewrite !with_ext_snoc. cbn [ideal apply]. eexists. split; [reflexivity|]. split; [split; [|split]|].
  - intros r. assert (X : strip p (p ++ r) = Some r) by (apply strip_spec; auto). rewrite X. auto.
  - destruct (strip p sha); [auto|]. assert (X : strip sha sha = Some []) by (apply strip_spec; rewrite app_nil_r; auto). rewrite X. auto.
  - intros r. destruct (strip p (tmp ++ r)); [auto|]. destruct (strip sha (tmp ++ r)); [auto|]. assert (X : strip tmp (tmp ++ r) = Some r) by (apply strip_spec; auto). rewrite X. auto.
  - intros q r c E X. destruct (strip p q); [discriminate|]. destruct (strip sha q); [discriminate|]. destruct (strip tmp q); [discriminate|]. apply (A q r c E X).
Qed.
End Runner.

Section Grader.
Variable digest : string -> string.
Variable d : path.
Variable n : string.
Notation a := (d ++ [n]).
(* Nothing but files where the archive's files go. *)
Definition no_dirs (f : fs) : Prop := forall e, In e [""; ".tmp"; ".sha1"; ".len"]%string -> f (d ++ [(n ++ e)%string]) <> Some Dir.
Lemma d_not_ext e : d <> d ++ [e]. Proof. intros E. apply (f_equal (@length _)) in E. rewrite app_length in E. cbn in E. lia. Qed.
Lemma ext_distinct x y : x <> y -> d ++ [(n ++ x)%string] <> d ++ [(n ++ y)%string].
Proof. intros N E. apply app_inv_head in E. injection E as E. apply append_inj in E. auto. Qed.
Lemma remove_works q k f : exists f', ideal (Do (Remove q) (fun _ => k)) f = ideal k f' /\ sub f' f /\ (forall c, f' q <> Some (File c)).
Proof.
  cbn [ideal apply]. destruct (f q) as [[c|]|] eqn:E; (eexists; split; [reflexivity|]).
  - split; [intros r; unfold set; destruct (path_eqb q r); auto|]. intros k0. rewrite set_same. discriminate.
  - split; [intros r; auto|]. congruence.
  - split; [intros r; auto|]. congruence.
Qed.
Lemma grader_persist_works body trailer total f : accessible f d -> (forall e, In e [""; ".tmp"; ".sha1"; ".len"]%string -> f (d ++ [(n ++ e)%string]) = None) ->
  exists f', ideal (grader_Persist digest a body trailer total true) f = (Nil (Some (Z.of_nat (String.length (body ++ trailer)))), f').
Proof.
  intros A N. unfold grader_Persist. rewrite !with_ext_snoc, removelast_last. cbn [ideal].
  destruct (mkdir_works d f A) as (f1 & E). rewrite E. cbn [negb ideal]. apply mkdir_spec in E. destruct E as (E1 & E2 & _).
  assert (D1 : f1 d = Some Dir) by (apply E1; exists []; rewrite app_nil_r; auto).
  assert (N1 : forall e, In e [""; ".tmp"; ".sha1"; ".len"]%string -> f1 (d ++ [(n ++ e)%string]) = None).
  { intros e I. rewrite E2; [auto|]. intros (r & X). apply (f_equal (@length _)) in X. rewrite !app_length in X. cbn in X. lia. }
  destruct (create_works (d ++ [(n ++ ".tmp")%string]) f1) as (f2 & E); [rewrite removelast_last; auto|rewrite N1 by (cbn; auto); discriminate|]. rewrite E. cbn [negb].
  apply create_spec in E. destruct E as (F1 & F2 & _).
  match goal with |- context [ideal (write ?q ?s ?ok ?fl) f2] => destruct (ideal_write q s ok fl f2 "" F1) as (f3 & -> & G1 & G2) end. cbn [String.append] in G1.
  match goal with |- context [ideal (write_ignoring ?q ?s ?k) f3] => destruct (ideal_write_ignoring q s k f3 _ G1) as (f4 & -> & H1 & H2) end.
  cbn [ideal]. rewrite H1. cbn [ideal].
  assert (O4 : forall q, q <> d ++ [(n ++ ".tmp")%string] -> f4 q = f1 q) by (intros q X; rewrite H2, G2, F2 by auto; auto).
  destruct (create_works (d ++ [(n ++ ".sha1")%string]) f4) as (f5 & E); [rewrite removelast_last, O4 by apply d_not_ext; auto|rewrite O4, N1; [discriminate|cbn; auto|apply ext_distinct; discriminate]|]. rewrite E. cbn [negb].
  apply create_spec in E. destruct E as (I1 & I2 & _).
  match goal with |- context [ideal (write ?q ?s ?ok ?fl) f5] => destruct (ideal_write q s ok fl f5 "" I1) as (f6 & -> & J1 & J2) end. cbn [ideal].
  assert (O6 : forall q, q <> d ++ [(n ++ ".sha1")%string] -> f6 q = f4 q) by (intros q X; rewrite J2, I2 by auto; auto).
  destruct (create_works (d ++ [(n ++ ".len")%string]) f6) as (f7 & E); [rewrite removelast_last, O6, O4 by apply d_not_ext; auto|rewrite O6, O4, N1; [discriminate|cbn; auto|apply ext_distinct; discriminate|apply ext_distinct; discriminate]|]. rewrite E. cbn [negb].
  apply create_spec in E. destruct E as (K1 & K2 & _).
  match goal with |- context [ideal (write ?q ?s ?ok ?fl) f7] => destruct (ideal_write q s ok fl f7 "" K1) as (f8 & -> & M1 & M2) end. cbn [ideal].
  assert (O8 : forall q, q <> d ++ [(n ++ ".len")%string] -> f8 q = f6 q) by (intros q X; rewrite M2, K2 by auto; auto).
  assert (AN : f8 a = None).
  { assert (X : a = d ++ [(n ++ "")%string]) by (rewrite append_nil_r; auto). rewrite X. rewrite O8, O6, O4, N1; [auto|cbn; auto|apply ext_distinct; discriminate..]. }
  cbn [apply]. rewrite O8, O6, H1 by (apply ext_distinct; discriminate). unfold is_dir. rewrite removelast_last, AN, O8, O6, O4, D1 by apply d_not_ext. cbn [andb negb ideal apply].
  match goal with |- context [match ?x with _ => _ end] => destruct x as [[?|]|] end; eexists; reflexivity.
Qed.
Lemma grader_delete_works k f : accessible f d -> no_dirs f ->
  exists f', ideal (grader_Delete a k) f = ideal k f' /\ accessible f' d /\ (forall e, In e [""; ".tmp"; ".sha1"; ".len"]%string -> f' (d ++ [(n ++ e)%string]) = None).
Proof.
  intros A ND. unfold grader_Delete. rewrite !with_ext_snoc.
  match goal with |- context [ideal (Do (Remove ?q) (fun _ => ?k)) ?f] => destruct (remove_works q k f) as (f1 & -> & S1 & R1) end.
  match goal with |- context [ideal (Do (Remove ?q) (fun _ => ?k)) ?f] => destruct (remove_works q k f) as (f2 & -> & S2 & R2) end.
  match goal with |- context [ideal (Do (Remove ?q) (fun _ => ?k)) ?f] => destruct (remove_works q k f) as (f3 & -> & S3 & R3) end.
  match goal with |- context [ideal (Do (Remove ?q) (fun _ => ?k)) ?f] => destruct (remove_works q k f) as (f4 & -> & S4 & R4) end.
  exists f4. split; [auto|]. assert (S41 := sub_trans _ _ _ (sub_trans _ _ _ S4 S3) S2). assert (S40 := sub_trans _ _ _ S41 S1). split.
  - intros q r c E X. destruct (S40 q) as [Y|Y]; [|congruence]. apply (A q r c E). congruence.
  - intros e I. destruct (f4 (d ++ [(n ++ e)%string])) as [[c|]|] eqn:X; [exfalso| |auto].
    + destruct I as [<-|[<-|[<-|[<-|[]]]]].
      * rewrite append_nil_r in X. apply (R4 _ X).
      * destruct (S41 (d ++ [(n ++ ".tmp")%string])) as [Y|Y]; [|congruence]. apply (R1 c). congruence.
      * destruct (sub_trans _ _ _ S4 S3 (d ++ [(n ++ ".sha1")%string])) as [Y|Y]; [|congruence]. apply (R2 c). congruence.
      * destruct (S4 (d ++ [(n ++ ".len")%string])) as [Y|Y]; [|congruence]. apply (R3 c). congruence.
    + destruct (S40 (d ++ [(n ++ e)%string])) as [Y|Y]; [|congruence]. elim (ND e I). congruence.
Qed.
End Grader.

(* The archive of a tree is consistent. *)
Lemma flat_head t : forall p e, tree t -> proper_path p -> In e (flat p t) -> exists m r, In m (names t) /\ name_of e = join "/" (p ++ m :: r) /\ proper_path (p ++ m :: r).
Proof.
  induction t as [|n c t IH|n t IH|n sub IHs t IH|n t IH|n t IH]; intros p e T P I; cbn [flat] in I; [destruct I| | | | |].
  - rest T. destruct I as [<-|I]; [exists n, []; cbn; auto using proper_app|]. destruct (IH p e TR P I) as (m & r & A & B). exists m, r. cbn. auto.
  - rest T. destruct (IH p e TR P I) as (m & r & A & B). exists m, r. cbn. auto.
  - destruct (tree_sub _ _ _ T) as (G & T1 & T2). destruct I as [<-|I]; [exists n, []; cbn; auto using proper_app|]. apply in_app_iff in I as [I|I].
    + destruct (IHs (p ++ [n]) e T1 (proper_app _ _ P G) I) as (m & r & A & B & C). exists n, (m :: r). rewrite <- app_assoc in B, C. cbn in *. auto.
    + destruct (IH p e T2 P I) as (m & r & A & B). exists m, r. cbn. auto.
  - rest T. destruct (IH p e TR P I) as (m & r & A & B). exists m, r. cbn. auto.
  - rest T. destruct (IH p e TR P I) as (m & r & A & B). exists m, r. cbn. auto.
Qed.
Lemma flat_head_rel t p e : tree t -> proper_path p -> In e (flat p t) -> exists m r, In m (names t) /\ rel (name_of e) = p ++ m :: r.
Proof. intros T P I. destruct (flat_head t p e T P I) as (m & r & A & B & C). exists m, r. split; [auto|]. rewrite B. apply rel_path; [destruct p; discriminate|auto]. Qed.
Lemma flat_consistent t : forall p r c e x, tree t -> proper_path p -> blob_at t r c -> In e (flat p t) -> rel (name_of e) = p ++ r ++ x -> x = [] /\ is_file e.
Proof.
  induction t as [|n k t IH|n t IH|n sub IHs t IH|n t IH|n t IH]; intros p r c e x T P B I R; cbn [flat blob_at] in *; [tauto| | | | |].
  - rest T. destruct B as [(-> & ->)|B], I as [<-|I].
    + cbn [name_of] in R. rewrite rel_path in R by auto using snoc_ne, proper_app. apply app_inv_head in R. destruct x; [cbn; auto|discriminate].
    + destruct (flat_head_rel _ _ _ TR P I) as (m & r' & A & E). rewrite E in R. apply app_inv_head in R. injection R as -> _. destruct T as ((ND & _) & _). apply NoDup_cons_iff in ND. tauto.
    + cbn [name_of] in R. rewrite rel_path in R by auto using snoc_ne, proper_app. apply app_inv_head in R. destruct (blob_at_head _ _ _ B) as (m & r' & -> & M). injection R as -> _. destruct T as ((ND & _) & _). apply NoDup_cons_iff in ND. tauto.
    + eauto.
  - rest T. eauto.
  - destruct (tree_sub _ _ _ T) as (G & T1 & T2). destruct T as ((ND & _) & _). apply NoDup_cons_iff in ND as [ND _]. destruct B as [(r' & -> & B)|B].
    + destruct I as [<-|I].
      * cbn [name_of] in R. rewrite rel_path in R by auto using snoc_ne, proper_app. apply app_inv_head in R. injection R as R. symmetry in R. apply app_eq_nil in R as [-> _]. destruct (blob_at_head _ _ _ B) as (? & ? & ? & _). discriminate.
      * apply in_app_iff in I as [I|I].
        -- apply (IHs (p ++ [n]) r' c e x T1 (proper_app _ _ P G) B I). rewrite R, <- app_assoc. auto.
        -- destruct (flat_head_rel _ _ _ T2 P I) as (m & r2 & A & E). rewrite E in R. apply app_inv_head in R. injection R as -> _. tauto.
    + destruct (blob_at_head _ _ _ B) as (m & r2 & -> & M). destruct I as [<-|I].
      * cbn [name_of] in R. rewrite rel_path in R by auto using snoc_ne, proper_app. apply app_inv_head in R. injection R as -> _. tauto.
      * apply in_app_iff in I as [I|I]; [|eapply IH; eauto]. destruct (flat_head_rel _ _ _ T1 (proper_app _ _ P G) I) as (m2 & r3 & A & E). rewrite E, <- app_assoc in R. apply app_inv_head in R. injection R as -> _. tauto.
  - rest T. eauto.
  - rest T. eauto.
Qed.

(* The names as they are read. *)
Lemma slash_path p : p <> [] -> proper_path p -> split "/" (join "/" p ++ "/")%string = p ++ [""].
Proof.
  intros N P. assert (E : (join "/" p ++ "/")%string = join "/" (p ++ [""])) by (rewrite join_app by (auto; discriminate); reflexivity). rewrite E.
  apply split_join; [destruct p; discriminate|]. apply Forall_forall. intros x Hx. apply in_app_iff in Hx as [Hx|[<-|[]]]; [apply (P x Hx)|apply contains_nil].
Qed.
Lemma rel_slash p : p <> [] -> proper_path p -> rel (join "/" p ++ "/")%string = p.
Proof.
  intros N P. unfold rel. rewrite slash_path, filter_app by auto. cbn [filter String.eqb orb negb]. rewrite app_nil_r.
  rewrite <- (rel_path p N P) at 2. unfold rel. rewrite split_path by auto. auto.
Qed.
Lemma content_slash es r : content (map slash es) r = content es r.
Proof. induction es as [|[x|x c] es IH]; cbn [map slash content]; auto. rewrite IH. auto. Qed.
Lemma total_slash es : total_size (map slash es) = total_size es.
Proof. induction es as [|[x|x c] es IH]; cbn [map slash total_size]; auto. rewrite IH. auto. Qed.
Lemma files_slash es : files (map slash es) = files es.
Proof. unfold files. induction es as [|[x|x c] es IH]; cbn; auto. rewrite IH. auto. Qed.
Lemma slash_names t e : tree t -> In e (map slash (flat [] t)) -> inside (name_of e) /\ exists e0, In e0 (flat [] t) /\ rel (name_of e) = rel (name_of e0) /\ (is_file e <-> is_file e0) /\ (forall nm c, e = EFile nm c -> e0 = e).
Proof.
  intros T I. apply in_map_iff in I as (e0 & <- & I). destruct (flat_names _ _ _ T (fun s (X : In s []) => match X with end) I) as (r & A & B & C & _). cbn in A, C.
  destruct e0 as [x|x c]; cbn [slash name_of] in *; subst x.
  - split; [intros X; rewrite slash_path in X by auto; apply in_app_iff in X as [X|[X|[]]]; [destruct (A _ X) as (_ & _ & Y & _); auto|discriminate]|].
    exists (EDir (join "/" r)). split; [auto|]. cbn [name_of]. rewrite rel_slash, rel_path by auto. split; [auto|]. split; [tauto|]. intros ? ? ?. discriminate.
  - split; [apply inside_path; auto|]. exists (EFile (join "/" r) c). split; [auto|]. split; [auto|]. split; [tauto|]. auto.
Qed.
Lemma consistent_slash t : tree t -> consistent (map slash (flat [] t)).
Proof.
  intros T nm c I. assert (J : In (EFile nm c) (flat [] t)). { apply in_map_iff in I as ([x|x k] & E & I); cbn in E; [discriminate|]. injection E as -> ->. auto. }
  destruct (flat_names _ _ _ T (fun s (X : In s []) => match X with end) J) as (r & A & B & C & D). cbn in A, C. specialize (D _ _ eq_refl). subst nm. rewrite rel_path by auto. split; [auto|].
  intros e x Ie R. destruct (slash_names t e T Ie) as (_ & e0 & I0 & E & F & _). rewrite E in R.
  destruct (flat_consistent t [] r c e0 x T (fun s (X : In s []) => match X with end) D I0 R). tauto.
Qed.

From Coq Require Import String Ascii List Bool ZArith Lia.
From Verif Require Import GoStr InModel InSpec InProofs.
Import ListNotations.
Local Open Scope string_scope.
Local Open Scope list_scope.

Lemma append_nil_r a : (a ++ "")%string = a. Proof. induction a; cbn; congruence. Qed.
Lemma append_assoc a b c : ((a ++ b) ++ c)%string = (a ++ (b ++ c))%string. Proof. induction a; cbn; congruence. Qed.

(* Removing things never makes Verify succeed. *)
Definition sub (f g : fs) : Prop := forall q, f q = g q \/ f q = None.
Lemma verify_sub digest settings_ok p f g n : sub f g -> runner_Verify digest settings_ok p f = Some n -> runner_Verify digest settings_ok p g = Some n.
Proof.
  intros H. unfold runner_Verify. destruct (f (with_ext p ".sha1")) as [[s|]|] eqn:E1; try discriminate.
  destruct (H (with_ext p ".sha1")) as [X|X]; [|congruence]. rewrite <- X, E1. destruct (stored_hashes _ _ _) as [m|]; [|discriminate].
  assert (C : forall z k, check_hashes digest f m z = Some k -> check_hashes digest g m z = Some k).
  { induction m as [|[q h] m IH]; intros z k; cbn; [auto|]. destruct (f q) as [[c|]|] eqn:E; try discriminate.
    destruct (H q) as [Y|Y]; [|congruence]. rewrite <- Y, E. destruct (digest c =? h); [auto|discriminate]. }
  destruct (check_hashes digest f m 0) as [k|] eqn:EC; [|discriminate]. rewrite (C _ _ EC).
  destruct (f (p ++ ["settings.json"])) as [[c|]|] eqn:E; try discriminate. destruct (H (p ++ ["settings.json"])) as [Y|Y]; [|congruence]. rewrite <- Y, E. auto.
Qed.

Section Runner.
Variable digest : string -> string.
Variable settings_ok : string -> bool.
Variable d : path.
Variable n : string.
Notation p := (d ++ [n]).
Notation tmp := (d ++ [(n ++ ".tmp")%string]).
Notation sha := (d ++ [(n ++ ".sha1")%string]).

Definition absent (f : fs) : Prop := forall r, f (p ++ r) = None.
Definition text (es : list entry) : string :=
  fold_right (fun e t => match e with EDir _ => t | EFile name c => (sha1_line digest p name c ++ t)%string end) "" es.
Lemma text_app a b : text (a ++ b) = (text a ++ text b)%string.
Proof. unfold text. induction a as [|[x|x c] a IH]; cbn; auto. rewrite IH, append_assoc. auto. Qed.

Lemma ext_inj a b x y : d ++ a :: x = d ++ b :: y -> a = b /\ x = y.
Proof. intros E. apply app_inv_head in E. injection E. auto. Qed.
Lemma snoc_app (a : string) r : (d ++ [a]) ++ r = d ++ a :: r. Proof. rewrite <- app_assoc. auto. Qed.
Lemma n_tmp : n <> (n ++ ".tmp")%string. Proof. apply append_ext_neq. discriminate. Qed.
Lemma n_sha : n <> (n ++ ".sha1")%string. Proof. apply append_ext_neq. discriminate. Qed.
Lemma sha_tmp : (n ++ ".sha1")%string <> (n ++ ".tmp")%string. Proof. intros E. apply append_inj in E. discriminate. Qed.
Lemma p_sha r : p ++ r <> sha. Proof. rewrite snoc_app. intros E. apply ext_inj in E. apply n_sha, E. Qed.
Lemma p_tmp r r' : p ++ r <> tmp ++ r'. Proof. rewrite !snoc_app. intros E. apply ext_inj in E. apply n_tmp, E. Qed.
Lemma tmp_sha r : tmp ++ r <> sha. Proof. rewrite snoc_app. intros E. apply ext_inj in E. apply sha_tmp. symmetry. apply E. Qed.
Lemma prefix_disjoint a b r r' : a <> b -> ~ exists z, (d ++ [a]) ++ r = ((d ++ [b]) ++ r') ++ z.
Proof. intros H (z & E). rewrite !snoc_app, <- app_assoc in E. cbn in E. apply ext_inj in E. tauto. Qed.

(* The state of the directories while extracting: done were extracted. *)
Record extracted (done : list entry) (f : fs) : Prop := {
  x_absent : absent f;
  x_sha : f sha = Some (File (text done));
  x_tmp : f tmp = Some Dir;
  x_files : forall r c, f (tmp ++ r) = Some (File c) <-> content done r = Some c
}.

Lemma extract_safe al (C : fs -> Prop) (F : answer -> fs -> Prop) ok fail : (forall f, absent f -> C f) -> (forall f, absent f -> safe al fail f C F) ->
  forall es done size f, (forall e, In e es -> inside (name_of e)) -> extracted done f ->
  (forall f, extracted (done ++ es) f -> safe al (ok (size + total_size es)%Z) f C F) ->
  safe al (extract digest p es size ok fail) f C F.
Proof.
  intros HC HF. induction es as [|e es IH]; intros done size f HI HX HO.
  - cbn. replace size with (size + total_size [])%Z by (cbn; lia). apply HO. rewrite app_nil_r. auto.
  - assert (HI' : forall e, In e es -> inside (name_of e)) by (intros; apply HI; right; auto).
    assert (HE : inside (name_of e)) by (apply HI; left; auto).
    destruct e as [name|name c]; cbn [extract name_of] in *; rewrite with_ext_snoc, (path_join_inside _ _ HE).
    + (* directory *)
      apply safe_atom; [auto|apply HC, HX| |intros _; apply HF, HX].
      intros f' E. apply mkdir_spec in E. destruct E as (E1 & E2 & E3).
      apply (IH (done ++ [EDir name])); [auto| |].
      * constructor.
        -- intros r. rewrite E2; [apply (x_absent _ _ HX)|]. apply prefix_disjoint. intros X. apply n_tmp. auto.
        -- rewrite E2; [rewrite (x_sha _ _ HX), text_app; cbn; rewrite append_nil_r; auto|]. rewrite <- (app_nil_r sha). apply prefix_disjoint. intros X. apply sha_tmp. auto.
        -- apply E1. exists (rel name). auto.
        -- intros r c. rewrite E3, (x_files _ _ HX), content_snoc. tauto.
      * intros f1 H1. rewrite <- app_assoc in H1. apply (HO f1 H1).
    + (* file *)
      apply safe_atom; [auto|apply HC, HX| |intros _; apply HF, HX].
      intros f1 E. cbn [negb]. assert (A1 : extracted done f1).
      { apply mkdir_spec in E. destruct E as (E1 & E2 & E3).
        assert (PR : forall q, (exists z, removelast (tmp ++ rel name) = q ++ z) -> exists z, tmp ++ rel name = q ++ z).
        { intros q (z & Ez). destruct (exists_last (l := tmp ++ rel name)) as (l & x & El).
          - intros X. apply app_eq_nil in X. destruct X as [X _]. apply app_eq_nil in X. destruct X as [_ X]. discriminate.
          - rewrite El in *. rewrite removelast_last in Ez. rewrite Ez, <- app_assoc. eauto. }
        constructor.
        - intros r. rewrite E2; [apply (x_absent _ _ HX)|]. intros X. apply PR in X. revert X. apply prefix_disjoint. intros X. apply n_tmp. auto.
        - rewrite E2; [apply (x_sha _ _ HX)|]. intros X. apply PR in X. revert X. rewrite <- (app_nil_r sha). apply prefix_disjoint. intros X. apply sha_tmp. auto.
        - destruct (f1 tmp) as [[c'|]|] eqn:ET; auto.
          + apply E3 in ET. rewrite (x_tmp _ _ HX) in ET. discriminate.
          + assert (ND : ~ exists z, removelast (tmp ++ rel name) = tmp ++ z) by (intros X; apply E1 in X; congruence). apply E2 in ND. rewrite ET, (x_tmp _ _ HX) in ND. discriminate.
        - intros r c'. rewrite E3. apply (x_files _ _ HX). }
      clear E f HX. apply safe_atom; [auto|apply HC, A1| |intros _; apply HF, A1].
      intros f2 E. cbn [negb]. apply create_spec in E. destruct E as (E1 & E2 & E3 & _).
      assert (QT : tmp <> tmp ++ rel name). { intros X. rewrite <- X, (x_tmp _ _ A1) in E3. congruence. }
      assert (AB : forall f', agree f' f2 (tmp ++ rel name) -> absent f').
      { intros f' H r. rewrite (H (p ++ r) (p_tmp _ _)), (E2 _ (p_tmp _ _)). apply (x_absent _ _ A1). }
      apply (safe_write al _ _ _ _ C F f2 ""); [auto| |].
      { intros f' t Hq Ha. split; [apply HC; auto|intros _; apply HF; auto]. }
      cbn [append]. intros f3 H3 Ha3.
      assert (S3 : f3 sha = Some (File (text done))). { rewrite Ha3 by (intros X; apply (tmp_sha _ (eq_sym X))). rewrite E2 by (intros X; apply (tmp_sha _ (eq_sym X))). apply (x_sha _ _ A1). }
      assert (G3 : forall f', agree f' f3 sha -> absent f').
      { intros f' H r. rewrite (H (p ++ r) (p_sha _)). apply AB. auto. }
      rewrite with_ext_snoc. apply (safe_write al _ _ _ _ C F f3 _ S3).
      { intros f' t Hq Ha. split; [apply HC, G3; auto|intros _; apply HF, G3; auto]. }
      intros f4 H4 Ha4. apply (IH (done ++ [EFile name c])); [auto| |].
      * constructor.
        -- apply G3. auto.
        -- rewrite H4, text_app. cbn. rewrite append_nil_r. auto.
        -- rewrite Ha4 by (rewrite <- (app_nil_r tmp); apply tmp_sha). rewrite Ha3 by auto. rewrite E2 by auto. apply (x_tmp _ _ A1).
        -- intros r c'. rewrite Ha4 by apply tmp_sha. rewrite content_snoc. destruct (path_eqb (rel name) r) eqn:ER.
           ++ apply path_eqb_spec in ER. subst r. rewrite H3. split; congruence.
           ++ apply path_eqb_neq in ER. rewrite Ha3, E2 by (intros X; apply app_inv_head in X; congruence). apply (x_files _ _ A1).
      * intros f' H'. rewrite <- app_assoc in H'. replace (size + Z.of_nat (String.length c) + total_size es)%Z with (size + total_size (EFile name c :: es))%Z by (cbn [total_size]; lia). apply (HO f' H').
Qed.

(* After a successful extraction and renaming. *)
Record persisted (es : list entry) (f : fs) : Prop := {
  z_stored : stored f p es;
  z_sha : f sha = Some (File (text es));
  z_settings : exists c, f (p ++ ["settings.json"]) = Some (File c) /\ settings_ok c = true
}.

Definition gone (f : fs) : Prop := absent f /\ f sha = None /\ (forall r, f (tmp ++ r) = None).

Lemma remove_tmp_absent f f' : apply (RemoveAll tmp) f = Some f' -> absent f -> absent f'.
Proof. cbn. intros E H. injection E as <-. intros r. cbn. destruct (strip tmp (p ++ r)); auto. Qed.
Lemma partly_tmp_absent f kept : absent f -> absent (partly (RemoveAll tmp) kept f).
Proof. intros H r. cbn. destruct (strip tmp (p ++ r)); auto. destruct (kept (p ++ r)); auto. Qed.
Lemma remove_tmp_persisted es f f' : (forall q, ~ below tmp q -> f' q = f q) -> persisted es f -> persisted es f'.
Proof.
  intros H HZ. assert (PB : forall r, ~ below tmp (p ++ r)) by (intros r (z & E); apply (p_tmp _ _ E)).
  assert (SB : ~ below tmp sha) by (intros (z & E); apply (tmp_sha z); auto). destruct HZ as [Z1 Z2 (c & Z3 & Z4)]. constructor.
  - intros r c'. rewrite H; auto.
  - rewrite H; auto.
  - exists c. rewrite H; auto.
Qed.

Lemma persist_safe al stream readable es clean streamHash f : (forall e, In e es -> inside (name_of e)) -> gone f ->
  safe al (persist_tar digest settings_ok p stream readable es clean streamHash) f
    (fun f' => absent f' \/ persisted es f')
    (fun r f' => match r with
                 | Err => absent f'
                 | Nil s => s = Some (total_size es) /\ persisted es f' /\ streamHash = digest stream /\ readable = true /\ clean = true
                 end).
Proof.
  intros HI (HA & HS & HT). unfold persist_tar. rewrite !with_ext_snoc.
  set (C := fun f' => absent f' \/ persisted es f').
  set (F := fun r f' => match r with Err => absent f' | Nil s => s = Some (total_size es) /\ persisted es f' /\ streamHash = digest stream /\ readable = true /\ clean = true end).
  assert (FAIL : forall f, absent f -> safe al (Do (RemoveAll tmp) (fun _ => Ret Err)) f C F).
  { intros g Hg. apply safe_do; [left; auto|intros kept; left; apply partly_tmp_absent; auto| |].
    - intros g' E. apply safe_ret. eapply remove_tmp_absent; eauto.
    - intros _. apply safe_ret. auto. }
  apply safe_atom; [auto|left; auto| |].
  2: { intros _. cbn [negb]. apply safe_ret. exact HA. }
  intros f1 E. cbn [negb]. apply mkdir_spec in E. destruct E as (E1 & E2 & E3).
  assert (A1 : absent f1). { intros r. rewrite E2; [apply HA|]. intros X. revert X. rewrite <- (app_nil_r tmp). apply prefix_disjoint. intros X. apply n_tmp. auto. }
  assert (S1 : f1 sha = None). { rewrite E2; [auto|]. intros X. revert X. rewrite <- (app_nil_r tmp), <- (app_nil_r sha). apply prefix_disjoint. intros X. apply sha_tmp. auto. }
  assert (T1 : f1 tmp = Some Dir). { apply E1. exists []. rewrite app_nil_r. auto. }
  assert (T2 : forall r c, f1 (tmp ++ r) <> Some (File c)). { intros r c X. apply E3 in X. rewrite HT in X. discriminate. }
  destruct readable; cbn [negb]; [|apply FAIL; auto].
  apply safe_atom; [auto|left; auto| |].
  2: { intros _. cbn [negb]. apply FAIL. auto. }
  intros f2 E. cbn [negb]. apply create_spec in E. destruct E as (F1 & F2 & _ & _).
  apply (extract_safe al C F) with (done := []); [intros g Hg; left; auto|auto|auto| |].
  { constructor.
    - intros r. rewrite F2 by apply p_sha. auto.
    - rewrite F1. auto.
    - rewrite F2; [auto|]. rewrite <- (app_nil_r tmp). apply tmp_sha.
    - intros r c. rewrite F2 by apply tmp_sha. cbn. split; [intros X; elim (T2 _ _ X)|discriminate]. }
  cbn [app]. intros f3 H3. assert (A3 := x_absent _ _ H3).
  destruct clean; cbn [negb]; [|apply FAIL; auto].
  destruct (String.eqb_spec streamHash (digest stream)) as [ES|]; cbn [negb]; [|apply FAIL; auto].
  apply safe_look. destruct (f3 (tmp ++ ["settings.json"])) as [[c|]|] eqn:E5; try (apply FAIL; auto; fail).
  destruct (settings_ok c) eqn:EOK; [|apply FAIL; auto].
  apply safe_atom; [auto|left; auto| |].
  2: { intros _. cbn [negb]. apply FAIL. auto. }
  intros f4 E. cbn [negb]. cbn [apply] in E. rewrite (x_tmp _ _ H3) in E.
  destruct (is_dir f3 (removelast p)); cbn [andb] in E; [|discriminate].
  assert (PN : f3 p = None) by (specialize (A3 []); rewrite app_nil_r in A3; auto). rewrite PN in E.
  assert (Z : persisted es f4).
  { injection E as <-.
    assert (SP : forall r, strip p (p ++ r) = Some r) by (intros r; apply strip_spec; auto).
    constructor.
    - intros r c'. rewrite SP. apply (x_files _ _ H3).
    - assert (X : strip p sha = None) by (apply strip_none; intros (r & X); apply (p_sha r); auto). rewrite X.
      assert (Y : strip tmp sha = None) by (apply strip_none; intros (r & Y); apply (tmp_sha r); auto). rewrite Y. apply (x_sha _ _ H3).
    - exists c. rewrite SP. auto. }
  clear E. apply safe_do; [right; auto| | |].
  - intros kept. right. eapply remove_tmp_persisted; [|exact Z]. intros q Hq. cbn. apply strip_none in Hq. rewrite Hq. auto.
  - intros f5 E. apply safe_ret. split; [reflexivity|]. split; [|auto]. eapply remove_tmp_persisted; [|exact Z]. intros q Hq. injection E as <-. apply strip_none in Hq. rewrite Hq. auto.
  - intros _. apply safe_ret. split; [reflexivity|auto].
Qed.

Lemma absent_verify f : absent f -> runner_Verify digest settings_ok p f = None.
Proof.
  intros H. unfold runner_Verify. destruct (f (with_ext p ".sha1")) as [[s|]|]; auto. destruct (stored_hashes _ _ _); auto. destruct (check_hashes _ _ _ _); auto.
  rewrite H. auto.
Qed.

(* Delete, when no removal is refused. *)
Lemma delete_exec k os f : ~ In Fails (firstn 3 os) ->
  (exists f', exec (runner_Delete p k) os f = Crashed f' /\ sub f' f /\ (f' sha = None \/ forall r, f' (p ++ r) = f (p ++ r))) \/
  (exists os' f', exec (runner_Delete p k) os f = exec k os' f' /\ gone f' /\ (In Fails os' -> In Fails os)).
Proof.
  intros H. unfold runner_Delete. rewrite !with_ext_snoc.
  assert (NT : forall r, strip tmp (p ++ r) = None) by (intros r; apply strip_none; intros (z & E); apply (p_tmp _ _ E)).
  assert (NS : forall r, strip sha (p ++ r) = None). { intros r. apply strip_none. intros (z & E). rewrite !snoc_app in E. apply ext_inj in E. apply n_sha, E. }
  assert (TS : strip tmp sha = None) by (apply strip_none; intros (r & Y); apply (tmp_sha r); auto).
  assert (SS : strip sha sha = Some []) by (apply strip_spec; rewrite app_nil_r; auto).
  destruct os as [|[| |kept] os]; cbn [exec].
  - left. exists f. split; [auto|]. split; [intros q; auto|auto].
  - cbn [apply]. set (f1 := fun q => match strip tmp q with Some _ => None | None => f q end).
    assert (U1 : sub f1 f) by (intros q; unfold f1; destruct (strip tmp q); auto).
    assert (P1 : forall r, f1 (p ++ r) = f (p ++ r)) by (intros r; unfold f1; rewrite NT; auto).
    destruct os as [|[| |kept] os]; cbn [exec].
    + left. exists f1. auto.
    + cbn [apply]. set (f2 := fun q => match strip sha q with Some _ => None | None => f1 q end).
      assert (U2 : sub f2 f). { intros q. unfold f2. destruct (strip sha q); auto. }
      assert (S2 : f2 sha = None) by (unfold f2; rewrite SS; auto).
      destruct os as [|[| |kept] os]; cbn [exec].
      * left. exists f2. auto.
      * right. cbn [apply]. eexists _, _. split; [reflexivity|]. split; [|cbn; auto]. split; [|split].
        -- intros r. cbn. assert (X : strip p (p ++ r) = Some r) by (apply strip_spec; auto). rewrite X. auto.
        -- cbn beta. destruct (strip p sha); [auto|exact S2].
        -- intros r. cbn beta. destruct (strip p (tmp ++ r)); auto. unfold f2. destruct (strip sha (tmp ++ r)); auto. unfold f1.
           assert (X : strip tmp (tmp ++ r) = Some r) by (apply strip_spec; auto). rewrite X. auto.
      * elim H. cbn. auto.
      * left. eexists. split; [reflexivity|]. cbn [partly]. split.
        -- intros q. destruct (strip p q); [destruct (kept q); [apply U2|auto]|apply U2].
        -- left. cbn beta. destruct (strip p sha); [destruct (kept sha); [exact S2|auto]|exact S2].
    + elim H. cbn. auto.
    + left. eexists. split; [reflexivity|]. cbn [partly]. split.
      * intros q. destruct (strip sha q); [destruct (kept q); [apply U1|auto]|apply U1].
      * right. intros r. rewrite NS. auto.
  - elim H. left. auto.
  - left. eexists. split; [reflexivity|]. cbn [partly]. split.
    + intros q. destruct (strip tmp q); auto. destruct (kept q); auto.
    + right. intros r. rewrite NT. auto.
Qed.

(* What persist_tar touches. *)
Definition untouched (f f' : fs) : Prop := forall q, ~ below tmp q -> ~ below p q -> q <> sha -> ~ (exists r, p = q ++ r) -> f' q = f q.
Lemma untouched_refl f : untouched f f. Proof. intros q _ _ _ _. auto. Qed.
Lemma untouched_trans f g h : untouched f g -> untouched g h -> untouched f h.
Proof. intros A B q H1 H2 H3 H4. rewrite B, A; auto. Qed.
Lemma prefix_cases r q : (exists z, tmp ++ r = q ++ z) -> below tmp q \/ exists z, p = q ++ z.
Proof.
  intros (z & E). rewrite snoc_app in E. destruct (le_lt_dec (length q) (length d)) as [L|L].
  - right. assert (X : exists y, d = q ++ y).
    { clear - E L. revert d E L. induction q as [|a q IH]; intros d' E L; [exists d'; auto|]. destruct d' as [|b d']; [cbn in L; lia|]. cbn in E. injection E as <- E.
      destruct (IH d' E) as (y & ->); [cbn in L; lia|]. exists y. auto. }
    destruct X as (y & ->). exists (y ++ [n]). rewrite <- app_assoc. auto.
  - left. assert (X : exists y, q = d ++ (n ++ ".tmp")%string :: y).
    { clear - E L. revert d E L. induction q as [|a q IH]; intros d' E L; [cbn in L; lia|]. destruct d' as [|b d'].
      - cbn in E. injection E as <- E. exists q. auto.
      - cbn in E. injection E as <- E. destruct (IH d' E) as (y & ->); [cbn in L; lia|]. exists y. auto. }
    destruct X as (y & ->). exists y. rewrite snoc_app. auto.
Qed.
Lemma mkdir_untouched r q f f' : (forall x, (exists z, q = x ++ z) -> exists z, tmp ++ r = x ++ z) -> apply (MkdirAll q) f = Some f' -> untouched f f'.
Proof.
  intros HP E. apply mkdir_spec in E. destruct E as (_ & E2 & _). intros x H1 H2 H3 H4. apply E2. intros X. apply HP in X. apply prefix_cases in X. tauto.
Qed.
Lemma agree_untouched q f f' : below tmp q \/ q = sha -> agree f' f q -> untouched f f'.
Proof. intros HQ H x H1 H2 H3 _. apply H. intros ->. tauto. Qed.
Lemma removelast_prefix r x : (exists z, removelast (tmp ++ r) = x ++ z) -> exists z, tmp ++ r = x ++ z.
Proof.
  intros (z & Ez). destruct (exists_last (l := tmp ++ r)) as (l & y & El).
  - intros X. apply app_eq_nil in X. destruct X as [X _]. apply app_eq_nil in X. destruct X as [_ X]. discriminate.
  - rewrite El in *. rewrite removelast_last in Ez. rewrite Ez, <- app_assoc. eauto.
Qed.

Lemma extract_untouched f0 al ok fail : (forall f, untouched f0 f -> safe al fail f (untouched f0) (fun _ => untouched f0)) ->
  forall es size f, (forall e, In e es -> inside (name_of e)) -> untouched f0 f ->
  (forall f s, untouched f0 f -> safe al (ok s) f (untouched f0) (fun _ => untouched f0)) ->
  safe al (extract digest p es size ok fail) f (untouched f0) (fun _ => untouched f0).
Proof.
  intros HF. induction es as [|e es IH]; intros size f HI HU HO; [apply HO; auto|].
  assert (HI' : forall e, In e es -> inside (name_of e)) by (intros; apply HI; right; auto).
  assert (HE : inside (name_of e)) by (apply HI; left; auto).
  destruct e as [name|name c]; cbn [extract name_of] in *; rewrite with_ext_snoc, (path_join_inside _ _ HE).
  - apply safe_atom; [auto|auto| |auto]. intros f' E. apply IH; auto. eapply untouched_trans; [exact HU|]. eapply (mkdir_untouched (rel name)); [|exact E]. auto.
  - apply safe_atom; [auto|auto| |auto]. intros f1 E. cbn [negb].
    assert (U1 : untouched f0 f1). { eapply untouched_trans; [exact HU|]. eapply mkdir_untouched; [|exact E]. apply removelast_prefix. }
    apply safe_atom; [auto|auto| |auto]. intros f2 E2. cbn [negb]. apply create_spec in E2. destruct E2 as (E21 & E22 & _).
    assert (U2 : untouched f0 f2). { eapply untouched_trans; [exact U1|]. eapply agree_untouched; [|exact E22]. left. exists (rel name). auto. }
    assert (UW : forall f', agree f' f2 (tmp ++ rel name) -> untouched f0 f').
    { intros f' Ha. eapply untouched_trans; [exact U2|]. eapply agree_untouched; [|exact Ha]. left. exists (rel name). auto. }
    apply (safe_write al _ _ _ _ _ _ f2 "" E21); [intros f' t _ Ha; auto|]. intros f3 _ Ha3. apply UW in Ha3.
    rewrite with_ext_snoc.
    (* the .sha1 file may have been replaced by anything: case on it *)
    destruct (f3 sha) as [[s0|]|] eqn:ES.
    + apply (safe_write al _ _ _ _ _ _ f3 s0 ES).
      * intros f' t _ Ha. assert (X : untouched f0 f') by (eapply untouched_trans; [exact Ha3|]; eapply agree_untouched; [|exact Ha]; auto). auto.
      * intros f' _ Ha. apply IH; auto. eapply untouched_trans; [exact Ha3|]. eapply agree_untouched; [|exact Ha]. auto.
    + assert (X : sha1_line digest p name c <> ""). { unfold sha1_line. destruct (digest c); discriminate. }
      destruct (sha1_line digest p name c) as [|a l]; [congruence|]. cbn [write]. apply safe_atom; auto. intros f' E'. cbn in E'. rewrite ES in E'. discriminate.
    + assert (X : sha1_line digest p name c <> ""). { unfold sha1_line. destruct (digest c); discriminate. }
      destruct (sha1_line digest p name c) as [|a l]; [congruence|]. cbn [write]. apply safe_atom; auto. intros f' E'. cbn in E'. rewrite ES in E'. discriminate.
Qed.

Lemma persist_untouched al stream readable es clean streamHash f : (forall e, In e es -> inside (name_of e)) ->
  safe al (persist_tar digest settings_ok p stream readable es clean streamHash) f (untouched f) (fun _ => untouched f).
Proof.
  intros HI. unfold persist_tar. rewrite !with_ext_snoc.
  assert (RT : forall g g', apply (RemoveAll tmp) g = Some g' -> untouched f g -> untouched f g').
  { intros g g' E H. eapply untouched_trans; [exact H|]. injection E as <-. intros q H1 _ _ _. apply strip_none in H1. rewrite H1. auto. }
  assert (PT : forall g kept, untouched f g -> untouched f (partly (RemoveAll tmp) kept g)).
  { intros g kept H. eapply untouched_trans; [exact H|]. intros q H1 _ _ _. cbn. apply strip_none in H1. rewrite H1. auto. }
  assert (FAIL : forall g r, untouched f g -> safe al (Do (RemoveAll tmp) (fun _ => Ret r)) g (untouched f) (fun _ => untouched f)).
  { intros g r Hg. apply safe_do; [auto|auto| |].
    - intros g' E. apply safe_ret. eapply RT; eauto.
    - intros _. apply safe_ret. auto. }
  assert (U0 : untouched f f) by apply untouched_refl.
  apply safe_atom; [auto|auto| |intros _; cbn [negb]; apply safe_ret; auto].
  intros f1 E. cbn [negb]. assert (U1 : untouched f f1). { eapply (mkdir_untouched []); [|exact E]. intros x Hx. rewrite app_nil_r. auto. }
  destruct readable; cbn [negb]; [|apply FAIL; auto].
  apply safe_atom; [auto|auto| |intros _; cbn [negb]; apply FAIL; auto].
  intros f2 E2. cbn [negb]. apply create_spec in E2. destruct E2 as (_ & E2 & _).
  assert (U2 : untouched f f2). { eapply untouched_trans; [exact U1|]. eapply agree_untouched; [|exact E2]. auto. }
  apply extract_untouched; [intros; apply FAIL; auto|auto|auto|].
  intros f3 s U3. destruct clean; cbn [negb]; [|apply FAIL; auto].
  destruct (String.eqb_spec streamHash (digest stream)); cbn [negb]; [|apply FAIL; auto].
  apply safe_look. destruct (f3 (tmp ++ ["settings.json"])) as [[c|]|]; try (apply FAIL; auto; fail).
  destruct (settings_ok c); [|apply FAIL; auto].
  apply safe_atom; [auto|auto| |intros _; cbn [negb]; apply FAIL; auto].
  intros f4 E4. cbn [negb]. apply FAIL. eapply untouched_trans; [exact U3|]. cbn [apply] in E4.
  intros q H1 H2 H3 H4. destruct (f3 tmp) as [[c'|]|]; [| |discriminate].
  - destruct (is_dir f3 (removelast p) && negb (is_dir f3 p)); [|discriminate]. injection E4 as <-.
    rewrite set_other, set_other; [auto| |]; intros ->; [apply H1|apply H2]; exists []; rewrite app_nil_r; auto.
  - destruct (is_dir f3 (removelast p) && _); [|discriminate]. injection E4 as <-. apply strip_none in H1, H2. rewrite H1, H2. auto.
Qed.
End Runner.

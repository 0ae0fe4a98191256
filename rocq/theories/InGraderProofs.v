(* The grader's inputs on disk. *)
From Coq Require Import String Ascii List Bool ZArith Lia.
From Verif Require Import GoStr InModel InSpec InProofs InRunnerProofs InReload.
Import ListNotations.
Local Open Scope string_scope.
Local Open Scope list_scope.

Lemma safe_write_ignoring al q s k C F : forall f s0, f q = Some (File s0) ->
  (forall f' t u, s = (t ++ u)%string -> f' q = Some (File (s0 ++ t)%string) -> agree f' f q -> C f' /\ (al = true -> safe al k f' C F)) ->
  (forall f', f' q = Some (File (s0 ++ s)%string) -> agree f' f q -> safe al k f' C F) ->
  safe al (write_ignoring q s k) f C F.
Proof.
  induction s as [|c s IH]; intros f s0 H0 H1 H2; cbn [write_ignoring].
  - apply H2; [rewrite append_nil_r; auto|intros r _; auto].
  - assert (X : C f /\ (al = true -> safe al k f C F)) by (apply (H1 f "" (String c s)); [auto|rewrite append_nil_r; auto|intros r _; auto]).
    apply safe_atom; [auto|apply X| |].
    + intros f' E. cbn [apply] in E. rewrite H0 in E. injection E as <-.
      apply (IH _ (s0 ++ String c "")%string).
      * apply set_same.
      * intros f' t u -> Hq Ha. apply (H1 f' (String c t) u); auto.
        -- rewrite Hq, append_assoc. auto.
        -- intros r Hr. rewrite (Ha r Hr). apply set_other. auto.
      * intros f' Hq Ha. apply H2.
        -- rewrite Hq, append_assoc. auto.
        -- intros r Hr. rewrite (Ha r Hr). apply set_other. auto.
    + intros [E|E]; [apply X; auto|]. cbn [apply] in E. rewrite H0 in E. discriminate.
Qed.

Lemma safe_write_prefix al q s k fail C F : forall f s0, f q = Some (File s0) ->
  (forall f' t u, s = (t ++ u)%string -> f' q = Some (File (s0 ++ t)%string) -> agree f' f q -> C f' /\ (al = true -> safe al fail f' C F)) ->
  (forall f', f' q = Some (File (s0 ++ s)%string) -> agree f' f q -> safe al k f' C F) ->
  safe al (write q s k fail) f C F.
Proof.
  induction s as [|c s IH]; intros f s0 H0 H1 H2; cbn [write].
  - apply H2; [rewrite append_nil_r; auto|intros r _; auto].
  - assert (X : C f /\ (al = true -> safe al fail f C F)) by (apply (H1 f "" (String c s)); [auto|rewrite append_nil_r; auto|intros r _; auto]).
    apply safe_atom; [auto|apply X| |].
    + intros f' E. cbn [apply] in E. rewrite H0 in E. injection E as <-.
      apply (IH _ (s0 ++ String c "")%string).
      * apply set_same.
      * intros f' t u -> Hq Ha. apply (H1 f' (String c t) u); auto.
        -- rewrite Hq, append_assoc. auto.
        -- intros r Hr. rewrite (Ha r Hr). apply set_other. auto.
      * intros f' Hq Ha. apply H2.
        -- rewrite Hq, append_assoc. auto.
        -- intros r Hr. rewrite (Ha r Hr). apply set_other. auto.
    + intros [E|E]; [apply X; auto|]. cbn [apply] in E. rewrite H0 in E. discriminate.
Qed.

Lemma grader_verify_sub digest a f g x : sub f g -> grader_Verify digest a f = Some x -> grader_Verify digest a g = Some x.
Proof.
  intros H. unfold grader_Verify. destruct (f a) as [[c|]|] eqn:E1; try discriminate. destruct (H a) as [X|X]; [|congruence]. rewrite <- X, E1.
  destruct (f (with_ext a ".sha1")) as [[s|]|] eqn:E2; try discriminate. destruct (H (with_ext a ".sha1")) as [Y|Y]; [|congruence]. rewrite <- Y, E2.
  destruct (first_word s) as [w|]; [|discriminate]. destruct (w =? digest c); [|discriminate].
  destruct (f (with_ext a ".len")) as [[l|]|] eqn:E3; try discriminate. destruct (H (with_ext a ".len")) as [Z|Z]; [|congruence]. rewrite <- Z, E3. auto.
Qed.

Lemma remove_exec q k os f : ~ In Fails (firstn 1 os) ->
  exec (Do (Remove q) (fun _ => k)) os f = Crashed f \/
  exists os' f', exec (Do (Remove q) (fun _ => k)) os f = exec k os' f' /\ sub f' f /\ (forall c, f' q <> Some (File c)) /\ os = Works :: os'.
Proof.
  intros H. destruct os as [|[| |kept] os]; cbn [exec].
  - auto.
  - right. cbn [apply]. destruct (f q) as [[c|]|] eqn:E.
    + exists os, (set f q None). split; [auto|]. split; [|split; [|auto]].
      * intros r. unfold set. destruct (path_eqb q r); auto.
      * intros c'. rewrite set_same. discriminate.
    + exists os, f. split; [auto|]. split; [intros r; auto|]. split; [congruence|auto].
    + exists os, f. split; [auto|]. split; [intros r; auto|]. split; [congruence|auto].
  - elim H. left. auto.
  - auto.
Qed.
Lemma sub_refl f : sub f f. Proof. intros q. auto. Qed.
Lemma sub_trans f g h : sub f g -> sub g h -> sub f h.
Proof. intros A B q. destruct (A q) as [->|]; auto. Qed.
Lemma sub_nofile f g q : sub f g -> (forall c, g q <> Some (File c)) -> forall c, f q <> Some (File c).
Proof. intros A B c. destruct (A q) as [->| ->]; [apply B|discriminate]. Qed.

Lemma grader_delete_exec a k os f : ~ In Fails (firstn 4 os) ->
  (exists f', exec (grader_Delete a k) os f = Crashed f' /\ sub f' f) \/
  (exists os' f', exec (grader_Delete a k) os f = exec k os' f' /\ (In Fails os' -> In Fails os) /\
     (forall c, f' a <> Some (File c)) /\ (forall c, f' (with_ext a ".sha1") <> Some (File c)) /\ (forall c, f' (with_ext a ".len") <> Some (File c))).
Proof.
  intros H. unfold grader_Delete.
  match goal with |- context [exec (Do (Remove ?q) (fun _ => ?k)) os f] => destruct (remove_exec q k os f) as [E|(o1 & f1 & E & S1 & _ & ->)] end.
  { intros X. apply H. destruct os; [auto|]. cbn in X. destruct X as [->|[]]. left. auto. }
  { left. exists f. split; [exact E|apply sub_refl]. }
  rewrite E. clear E. assert (H1 : ~ In Fails (firstn 3 o1)) by (intros X; apply H; right; auto).
  match goal with |- context [exec (Do (Remove ?q) (fun _ => ?k)) o1 f1] => destruct (remove_exec q k o1 f1) as [E|(o2 & f2 & E & S2 & N2 & ->)] end.
  { intros X. apply H1. destruct o1; [auto|]. cbn in X. destruct X as [->|[]]. left. auto. }
  { left. exists f1. auto. }
  rewrite E. clear E. assert (H2 : ~ In Fails (firstn 2 o2)) by (intros X; apply H1; right; auto).
  match goal with |- context [exec (Do (Remove ?q) (fun _ => ?k)) o2 f2] => destruct (remove_exec q k o2 f2) as [E|(o3 & f3 & E & S3 & N3 & ->)] end.
  { intros X. apply H2. destruct o2; [auto|]. cbn in X. destruct X as [->|[]]. left. auto. }
  { left. exists f2. split; [auto|]. eapply sub_trans; eauto. }
  rewrite E. clear E. assert (H3 : ~ In Fails (firstn 1 o3)) by (intros X; apply H2; right; auto).
  match goal with |- context [exec (Do (Remove ?q) (fun _ => ?k)) o3 f3] => destruct (remove_exec q k o3 f3) as [E|(o4 & f4 & E & S4 & N4 & ->)] end.
  { auto. }
  { left. exists f3. split; [auto|]. eapply sub_trans; [|eapply sub_trans]; eauto. }
  right. exists o4, f4. split; [auto|]. split; [intros X; cbn; tauto|]. split; [auto|].
  split; [eapply sub_nofile; [|exact N2]; eapply sub_trans; eauto|eapply sub_nofile; [|exact N3]; auto].
Qed.

Lemma first_word_app digest c r : hex_digest digest -> first_word (digest c ++ String " " r)%string = Some (digest c).
Proof.
  intros HD. destruct (HD c) as [HL HX]. unfold first_word.
  assert (T : forall h, (forall x, In x (list_ascii_of_string h) -> is_hex x = true) -> take_word (h ++ String " " r)%string = h).
  { induction h as [|x h IH]; intros H; cbn [append take_word]; [auto|]. rewrite (hex_not_space x) by (apply H; left; auto). rewrite IH; [auto|]. intros; apply H; right; auto. }
  assert (S : skip_space (digest c ++ String " " r)%string = (digest c ++ String " " r)%string).
  { destruct (digest c) as [|x h]; [discriminate|]. cbn [append skip_space]. rewrite (hex_not_space x); [auto|]. apply HX. left. auto. }
  rewrite S. destruct (digest c ++ String " " r)%string as [|x h] eqn:E; [destruct (digest c); discriminate|]. rewrite <- E. rewrite T; auto.
Qed.
Lemma first_line_app s t : ~ contains LF s -> ~ contains CR s -> first_line (s ++ String LF t)%string = Some s.
Proof.
  intros H1 H2. unfold first_line, scan_lines. rewrite split_app by auto. destruct (split_cons LF t) as (h & l & ->). cbn [drop_empty_last].
  destruct l; cbn [drop_empty_last]; [destruct (h =? "")|]; cbn [map]; rewrite strip_cr_id by auto; auto.
Qed.
Lemma first_line_plain s : s <> "" -> ~ contains LF s -> ~ contains CR s -> first_line s = Some s.
Proof.
  intros H H1 H2. unfold first_line, scan_lines. rewrite split_single by auto. cbn [drop_empty_last]. destruct (String.eqb_spec s ""); [congruence|]. cbn [map]. rewrite strip_cr_id by auto. auto.
Qed.
Lemma fmt_int_plain z : fmt_int z <> "" /\ ~ contains LF (fmt_int z) /\ ~ contains CR (fmt_int z).
Proof.
  split; [|split].
  - unfold fmt_int. destruct (Z.to_int z) as [u|u]; cbn; [destruct u|]; discriminate.
  - intros X. apply fmt_int_chars in X. destruct X as [X|X]; [unfold is_digit in X; cbn in X; lia|discriminate].
  - intros X. apply fmt_int_chars in X. destruct X as [X|X]; [unfold is_digit in X; cbn in X; lia|discriminate].
Qed.

Section Grader.
Variable digest : string -> string.
Variable d : path.
Variable n : string.
Variables body trailer : string.
Variable total : Z.
Variable walk_ok : bool.
Notation a := (d ++ [n]).
Notation tmp := (d ++ [(n ++ ".tmp")%string]).
Notation sha := (d ++ [(n ++ ".sha1")%string]).
Notation len := (d ++ [(n ++ ".len")%string]).

Definition noa (f : fs) : Prop := forall c, f a <> Some (File c).
Record good (al : bool) (c : string) (f : fs) : Prop := {
  g_walk : walk_ok = true;
  g_content : exists t u, trailer = (t ++ u)%string /\ c = (body ++ t)%string /\ (al = false -> t = trailer);
  g_a : f a = Some (File c);
  g_sha : f sha = Some (File (digest c ++ " *" ++ n ++ lf)%string);
  g_len : f len = Some (File (fmt_int total ++ lf)%string)
}.
Lemma ext_neq x y : x <> y -> d ++ [x] <> d ++ [y].
Proof. intros H E. apply app_inv_head in E. congruence. Qed.
Lemma a_tmp : a <> tmp. Proof. apply ext_neq, append_ext_neq. discriminate. Qed.
Lemma a_sha : a <> sha. Proof. apply ext_neq, append_ext_neq. discriminate. Qed.
Lemma a_len : a <> len. Proof. apply ext_neq, append_ext_neq. discriminate. Qed.
Lemma t_s : tmp <> sha. Proof. apply ext_neq. intros E. apply append_inj in E. discriminate. Qed.
Lemma t_l : tmp <> len. Proof. apply ext_neq. intros E. apply append_inj in E. discriminate. Qed.
Lemma s_l : sha <> len. Proof. apply ext_neq. intros E. apply append_inj in E. discriminate. Qed.

Lemma noa_agree q f g : agree g f q -> a <> q -> noa f -> noa g.
Proof. intros H N A c. rewrite H by auto. apply A. Qed.

Lemma grader_persist_safe al f : noa f ->
  safe al (grader_Persist digest a body trailer total walk_ok) f
    (fun f' => noa f' \/ exists c, good al c f')
    (fun r f' => match r with Err => noa f' | Nil s => exists c, good al c f' /\ s = Some (Z.of_nat (String.length c)) end).
Proof.
  intros HA. unfold grader_Persist. rewrite !with_ext_snoc, last_last.
  set (C := fun f' => noa f' \/ exists c, good al c f').
  set (F := fun r f' => match r with Err => noa f' | Nil s => exists c, good al c f' /\ s = Some (Z.of_nat (String.length c)) end).
  assert (FAIL : forall f, noa f -> safe al (Do (Remove tmp) (fun _ => Ret Err)) f C F).
  { intros g Hg. apply safe_atom; [auto|left; auto| |].
    - intros g' E. apply safe_ret. cbn. cbn [apply] in E. destruct (g tmp) as [[c|]|]; try discriminate. injection E as <-.
      intros c'. rewrite set_other by apply a_tmp. apply Hg.
    - intros _. apply safe_ret. exact Hg. }
  apply safe_atom; [auto|left; auto| |intros _; apply safe_ret; exact HA].
  intros f1 E. cbn [negb]. assert (A1 : noa f1). { intros c. rewrite (proj2 (proj2 (mkdir_spec _ _ _ E))). apply HA. }
  clear E f HA. apply safe_atom; [auto|left; auto| |intros _; apply FAIL; auto].
  intros f2 E. cbn [negb]. apply create_spec in E. destruct E as (T2 & G2 & _).
  assert (A2 : noa f2) by (eapply noa_agree; [exact G2|apply a_tmp|auto]). clear f1 A1 G2.
  apply (safe_write al _ _ _ _ C F f2 "" T2).
  { intros f' t Ht Ha. assert (A : noa f') by (eapply noa_agree; [exact Ha|apply a_tmp|auto]). split; [left; auto|]. intros _.
    apply (safe_write_ignoring al _ _ _ C F f' _ Ht).
    - intros f3 t3 u3 _ _ H3. assert (A3 : noa f3) by (eapply noa_agree; [exact H3|apply a_tmp|auto]). split; [left; auto|intros _; apply FAIL; auto].
    - intros f3 _ H3. apply FAIL. eapply noa_agree; [exact H3|apply a_tmp|auto]. }
  cbn [append]. intros f3 T3 G3. assert (A3 : noa f3) by (eapply noa_agree; [exact G3|apply a_tmp|auto]). clear f2 T2 A2 G3.
  (* the rest, whatever part of the trailer was written *)
  assert (REST : forall f c, noa f -> f tmp = Some (File c) -> (exists t u, trailer = (t ++ u)%string /\ c = (body ++ t)%string /\ (al = false -> t = trailer)) ->
    safe al (if negb walk_ok then Do (Remove tmp) (fun _ => Ret Err) else
       Look (fun f => match f tmp with
         | Some (File c) =>
             Do (Create sha) (fun b => if negb b then Do (Remove tmp) (fun _ => Ret Err) else
             write sha (digest c ++ " *" ++ n ++ lf)
               (Do (Create len) (fun b => if negb b then Do (Remove tmp) (fun _ => Ret Err) else
                write len (fmt_int total ++ lf)
                  (Do (Rename tmp a) (fun b => if negb b then Do (Remove tmp) (fun _ => Ret Err) else
                   Do (Remove tmp) (fun _ => Ret (Nil (Some (Z.of_nat (String.length c))))))) (Do (Remove tmp) (fun _ => Ret Err)))) (Do (Remove tmp) (fun _ => Ret Err)))
         | _ => Do (Remove tmp) (fun _ => Ret Err) end)) f C F).
  { clear f3 T3 A3. intros f3 c A3 T3 HC. destruct walk_ok eqn:HW; cbn [negb]; [|apply FAIL; auto].
    apply safe_look. rewrite T3. apply safe_atom; [auto|left; auto| |intros _; apply FAIL; auto].
    intros f4 E. cbn [negb]. apply create_spec in E. destruct E as (S4 & G4 & _).
    assert (A4 : noa f4) by (eapply noa_agree; [exact G4|apply a_sha|auto]).
    assert (T4 : f4 tmp = Some (File c)) by (rewrite G4; [auto|apply t_s]). clear f3 A3 T3 G4.
    apply (safe_write al _ _ _ _ C F f4 "" S4).
    { intros f' t _ H'. assert (A' : noa f') by (eapply noa_agree; [exact H'|apply a_sha|auto]). split; [left; auto|intros _; apply FAIL; auto]. }
    cbn [append]. intros f5 S5 G5. assert (A5 : noa f5) by (eapply noa_agree; [exact G5|apply a_sha|auto]).
    assert (T5 : f5 tmp = Some (File c)) by (rewrite G5; [auto|apply t_s]). clear f4 A4 T4 G5 S4.
    apply safe_atom; [auto|left; auto| |intros _; apply FAIL; auto].
    intros f6 E. cbn [negb]. apply create_spec in E. destruct E as (L6 & G6 & _).
    assert (A6 : noa f6) by (eapply noa_agree; [exact G6|apply a_len|auto]).
    assert (T6 : f6 tmp = Some (File c)) by (rewrite G6; [auto|apply t_l]).
    assert (S6 : f6 sha = f5 sha) by (rewrite G6; [auto|apply s_l]). rewrite S5 in S6. clear f5 A5 T5 G6 S5.
    apply (safe_write al _ _ _ _ C F f6 "" L6).
    { intros f' t _ H'. assert (A' : noa f') by (eapply noa_agree; [exact H'|apply a_len|auto]). split; [left; auto|intros _; apply FAIL; auto]. }
    cbn [append]. intros f7 L7 G7. assert (A7 : noa f7) by (eapply noa_agree; [exact G7|apply a_len|auto]).
    assert (T7 : f7 tmp = Some (File c)) by (rewrite G7; [auto|apply t_l]).
    assert (S7 : f7 sha = f6 sha) by (rewrite G7; [auto|apply s_l]). rewrite S6 in S7. clear f6 A6 T6 G7 S6 L6.
    apply safe_atom; [auto|left; auto| |intros _; apply FAIL; auto].
    intros f8 E. cbn [negb]. cbn [apply] in E. rewrite T7 in E. destruct (is_dir f7 (removelast a) && negb (is_dir f7 a)); [|discriminate].
    injection E as <-. assert (Z : good al c (set (set f7 tmp None) a (Some (File c)))).
    { constructor; auto.
      - apply set_same.
      - rewrite set_other by (intros X; apply a_sha; auto). rewrite set_other by (intros X; apply t_s; auto). auto.
      - rewrite set_other by (intros X; apply a_len; auto). rewrite set_other by (intros X; apply t_l; auto). auto. }
    apply safe_atom; [auto|right; eauto| |].
    - intros f9 E. cbn [apply] in E. rewrite set_other in E by (intros X; apply a_tmp; auto). rewrite set_same in E. discriminate.
    - intros _. apply safe_ret. exists c. auto. }
  apply (safe_write_ignoring al _ _ _ C F f3 _ T3).
  - intros f' t u Et Ht Ha. assert (A : noa f') by (eapply noa_agree; [exact Ha|apply a_tmp|auto]). split; [left; auto|]. intros Eal.
    apply (REST f' (body ++ t)%string); auto. exists t, u. split; [auto|]. split; [auto|]. congruence.
  - intros f' Ht Ha. assert (A : noa f') by (eapply noa_agree; [exact Ha|apply a_tmp|auto]).
    apply (REST f' (body ++ trailer)%string); auto. exists trailer, "". rewrite append_nil_r. auto.
Qed.

Lemma noa_verify f : noa f -> grader_Verify digest a f = None.
Proof. intros H. unfold grader_Verify. specialize (H). destruct (f a) as [[c|]|] eqn:E; auto. elim (H c). auto. Qed.
Lemma good_verify al c f : hex_digest digest -> (0 <= total < 2 ^ 63)%Z -> good al c f ->
  grader_Verify digest a f = Some (Z.of_nat (String.length c), digest c, total).
Proof.
  intros HD HT [_ _ HA HS HL]. unfold grader_Verify. rewrite !with_ext_snoc, HA, HS, HL.
  cbn [append]. rewrite first_word_app by auto. rewrite String.eqb_refl.
  destruct (fmt_int_plain total) as (_ & P1 & P2). unfold lf. rewrite first_line_app by auto. rewrite ParseInt_fmt by lia. auto.
Qed.

(* An in-memory input, persisted for the grader. *)
Variables hash tarfile : string.
Record gliteral (f : fs) : Prop := {
  l_a : f a = Some (File tarfile);
  l_sha : f sha = Some (File (hash ++ " *" ++ n ++ ".tar.gz" ++ lf)%string);
  l_len : f len = Some (File (fmt_int total))
}.
Definition nosha (f : fs) : Prop := forall c, f sha <> Some (File c).
Definition data (f : fs) : Prop := f a = Some (File tarfile) /\ f len = Some (File (fmt_int total)).

Lemma literal_grader_safe al f : nosha f ->
  safe al (literal_grader_Persist a hash tarfile total) f
    (fun f' => nosha f' \/ data f')
    (fun r f' => match r with
                 | Nil (Some s) => gliteral f' /\ s = Z.of_nat (String.length tarfile)
                 | _ => nosha f' \/ data f'
                 end).
Proof.
  intros H0. unfold literal_grader_Persist. rewrite !with_ext_snoc, last_last.
  set (C := fun f' => nosha f' \/ data f').
  set (F := fun r f' => match r with Nil (Some s) => gliteral f' /\ s = Z.of_nat (String.length tarfile) | _ => nosha f' \/ data f' end).
  assert (NS : forall q f g, agree g f q -> sha <> q -> nosha f -> nosha g) by (intros q g h H N A c; rewrite H by auto; apply A).
  assert (FAIL : forall f, C f -> safe al (Ret (Nil None)) f C F) by (intros g Hg; apply safe_ret; exact Hg).
  apply safe_atom; [auto|left; auto| |intros _; apply safe_ret; left; auto].
  intros f1 E. cbn [negb]. assert (N1 : nosha f1). { intros c. rewrite (proj2 (proj2 (mkdir_spec _ _ _ E))). apply H0. } clear f H0 E.
  apply safe_atom; [auto|left; auto| |intros _; apply FAIL; left; auto].
  intros f2 E. cbn [negb]. apply create_spec in E. destruct E as (T2 & G2 & _).
  assert (N2 : nosha f2) by (eapply NS; [exact G2|intros X; apply a_sha with (1 := eq_sym X)|auto]). clear f1 N1 G2.
  apply (safe_write al _ _ _ _ C F f2 "" T2).
  { intros f' t _ Ha. assert (N : nosha f') by (eapply NS; [exact Ha|intros X; apply a_sha with (1 := eq_sym X)|auto]). split; [left; auto|intros _; apply FAIL; left; auto]. }
  cbn [append]. intros f3 T3 G3. assert (N3 : nosha f3) by (eapply NS; [exact G3|intros X; apply a_sha with (1 := eq_sym X)|auto]). clear f2 T2 N2 G3.
  apply safe_atom; [auto|left; auto| |intros _; apply FAIL; left; auto].
  intros f4 E. cbn [negb]. apply create_spec in E. destruct E as (L4 & G4 & _).
  assert (N4 : nosha f4) by (eapply NS; [exact G4|apply s_l|auto]). assert (T4 : f4 a = Some (File tarfile)) by (rewrite G4; [auto|apply a_len]). clear f3 T3 N3 G4.
  apply (safe_write al _ _ _ _ C F f4 "" L4).
  { intros f' t _ Ha. assert (N : nosha f') by (eapply NS; [exact Ha|apply s_l|auto]). split; [left; auto|intros _; apply FAIL; left; auto]. }
  cbn [append]. intros f5 L5 G5. assert (N5 : nosha f5) by (eapply NS; [exact G5|apply s_l|auto]).
  assert (T5 : f5 a = Some (File tarfile)) by (rewrite G5; [auto|apply a_len]). clear f4 L4 N4 T4 G5.
  assert (D5 : data f5) by (split; auto).
  assert (DA : forall f g, agree g f sha -> data f -> data g).
  { intros g h H [A B]. split; [rewrite H; [auto|apply a_sha]|rewrite H; [auto|intros X; apply s_l with (1 := eq_sym X)]]. }
  apply safe_atom; [auto|left; auto| |intros _; apply FAIL; left; auto].
  intros f6 E. cbn [negb]. apply create_spec in E. destruct E as (S6 & G6 & _). assert (D6 : data f6) by (eapply DA; [exact G6|auto]).
  apply (safe_write al _ _ _ _ C F f6 "" S6).
  { intros f' t _ Ha. assert (D : data f') by (eapply DA; [exact Ha|auto]). split; [right; auto|intros _; apply FAIL; right; auto]. }
  cbn [append]. intros f7 S7 G7. assert (D7 : data f7) by (eapply DA; [exact G7|auto]). apply safe_ret. split; [|auto].
  destruct D7. constructor; auto.
Qed.
Lemma nosha_verify f : nosha f -> grader_Verify digest a f = None.
Proof. intros H. unfold grader_Verify. rewrite !with_ext_snoc. destruct (f a) as [[c|]|]; auto. destruct (f sha) as [[c'|]|] eqn:E; auto. elim (H c'). auto. Qed.
Lemma data_verify f s h l : (0 <= total < 2 ^ 63)%Z -> data f -> grader_Verify digest a f = Some (s, h, l) ->
  s = Z.of_nat (String.length tarfile) /\ h = digest tarfile /\ l = total.
Proof.
  intros HT [A B]. unfold grader_Verify. rewrite !with_ext_snoc, A, B. destruct (f sha) as [[c|]|]; try discriminate. destruct (first_word c) as [w|]; [|discriminate].
  destruct (String.eqb_spec w (digest tarfile)) as [->|]; [|discriminate]. destruct (fmt_int_plain total) as (P0 & P1 & P2). rewrite first_line_plain by auto.
  rewrite ParseInt_fmt by lia. intros E. injection E as <- <- <-. auto.
Qed.
Lemma gliteral_verify f : hex_digest digest -> hash = digest tarfile -> (0 <= total < 2 ^ 63)%Z -> gliteral f ->
  grader_Verify digest a f = Some (Z.of_nat (String.length tarfile), digest tarfile, total).
Proof.
  intros HD HH HT [A B C]. unfold grader_Verify. rewrite !with_ext_snoc, A, B, C, HH. cbn [append]. rewrite first_word_app by auto. rewrite String.eqb_refl.
  destruct (fmt_int_plain total) as (P0 & P1 & P2). rewrite first_line_plain by auto. rewrite ParseInt_fmt by lia. auto.
Qed.
End Grader.

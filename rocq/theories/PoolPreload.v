(* C32: PreloadInputs. *)
From Coq Require Import String Ascii List Bool ZArith Lia.
From Verif Require Import GoStr InModel InSpec InProofs InRunnerProofs InReload InGraderProofs PoolModel PoolProps InProps.
Import ListNotations.
Local Open Scope string_scope.
Local Open Scope list_scope.

Lemma safe_bind al p k f (C : fs -> Prop) (F1 F2 : answer -> fs -> Prop) : safe al p f C F1 ->
  (forall r f', F1 r f' -> safe al (k r) f' C F2) -> safe al (bind p k) f C F2.
Proof.
  intros H HK. revert f H. induction p as [r|o q IH|q IH]; intros f H; cbn [bind].
  - apply HK. apply (H []). intros _ [].
  - apply safe_do.
    + apply (H []). intros _ [].
    + intros kept. apply (H [Crashes kept]). intros _ [X|[]]; discriminate.
    + intros f' E. apply IH. intros os Ho. specialize (H (Works :: os)). cbn in H. rewrite E in H. apply H. intros A [X|X]; [discriminate|]. apply (Ho A X).
    + intros X. apply IH. intros os Ho. destruct X as [->|X].
      * apply (H (Fails :: os)). discriminate.
      * specialize (H (Works :: os)). cbn in H. rewrite X in H. apply H. intros A [Y|Y]; [discriminate|]. apply (Ho A Y).
  - apply safe_look. apply IH. intros os Ho. apply (H os Ho).
Qed.

(* p and what belongs to it is removed. *)
Definition cut (p : path) (f g : fs) : Prop := (forall q, area p q -> g q = None) /\ (forall q, ~ area p q -> g q = f q).
Lemma area_dec p q : {area p q} + {~ area p q}.
Proof.
  unfold area. assert (D : forall x, {below x q} + {~ below x q}).
  { intros x. destruct (strip x q) as [r|] eqn:E; [left; apply strip_spec in E; exists r; auto|right; apply strip_none; auto]. }
  destruct (D p), (D (with_ext p ".tmp")), (D (with_ext p ".sha1")); tauto.
Qed.

Section Runner.
Variable digest : string -> string.
Variable settings_ok : string -> bool.
Notation Verify := (runner_Verify digest settings_ok).

Lemma preload_one_safe p k f (F : answer -> fs -> Prop) :
  (Verify p f <> None -> safe false k f (fun _ => True) F) ->
  (forall g, Verify p f = None -> cut p f g -> safe false k g (fun _ => True) F) ->
  safe false (preload_one p (cached_add digest settings_ok p) k) f (fun _ => True) F.
Proof.
  intros HS HN. unfold preload_one, cached_add, add. cbn [bind]. apply safe_look. destruct (Verify p f) as [z|] eqn:EV; cbn [bind].
  - apply HS. discriminate.
  - unfold runner_Delete. cbn [bind].
    assert (RM : forall x k g, (forall g', (forall q, g' q = match strip x q with Some _ => None | None => g q end) -> safe false k g' (fun _ => True) F) -> safe false (Do (RemoveAll x) (fun _ => k)) g (fun _ => True) F).
    { intros x k0 g H. apply safe_do; auto; [|intros [X|X]; discriminate]. intros g' E. injection E as <-. apply H. auto. }
    apply RM. intros g1 H1. apply RM. intros g2 H2. apply RM. intros g3 H3. apply RM. intros g4 H4. apply HN; [auto|].
    assert (X : forall x q r, strip x q = Some r -> below x q) by (intros x q r E; apply strip_spec in E; exists r; auto).
    assert (Y : forall x q, below x q -> exists r, strip x q = Some r) by (intros x q (r & ->); exists r; apply strip_spec; auto). split.
    + intros q HQ. rewrite H4. destruct (strip p q) eqn:E; [auto|]. rewrite H3, E, H2. destruct (strip (with_ext p ".sha1") q) eqn:E2; [auto|]. rewrite H1. destruct (strip (with_ext p ".tmp") q) eqn:E3; [auto|].
      destruct HQ as [Q|[Q|Q]]; apply Y in Q; destruct Q; congruence.
    + intros q HQ. rewrite H4. destruct (strip p q) eqn:E; [elim HQ; left; eauto|]. rewrite H3, E, H2. destruct (strip (with_ext p ".sha1") q) eqn:E2; [elim HQ; right; right; eauto|]. rewrite H1.
      destruct (strip (with_ext p ".tmp") q) eqn:E3; [elim HQ; right; left; eauto|]. auto.
Qed.

Definition path_of (x : path * string) : path := fst x ++ [snd x].
(* What Verify of x reads is not of y. *)
Definition apart (x y : path * string) : Prop := forall q, area (path_of y) q -> prefix (path_text (path_of x)) (path_text q) = false.

Lemma preload_safe f0 entries : (forall x y, In x entries -> In y entries -> x <> y -> Verify (path_of x) f0 <> None -> apart x y) ->
  forall es done f, (forall x, In x es -> In x entries) -> (forall x, In x done -> In x entries) ->
  (forall x, In x done -> Verify (path_of x) f0 = None -> forall q, area (path_of x) q -> f q = None) ->
  (forall q, (forall x, In x done -> area (path_of x) q -> Verify (path_of x) f0 <> None) -> f q = f0 q) -> sub f f0 ->
  safe false (runner_preload digest settings_ok es) f (fun _ => True) (fun _ g =>
    (forall x, In x done \/ In x es -> Verify (path_of x) f0 = None -> forall q, area (path_of x) q -> g q = None) /\
    (forall q, (forall x, In x done \/ In x es -> area (path_of x) q -> Verify (path_of x) f0 <> None) -> g q = f0 q)).
Proof.
  intros AP. induction es as [|[d n] es IH]; intros done f HE HD H1 H2 HS; cbn [runner_preload].
  - apply safe_ret. split.
    + intros x [X|[]]. exact (H1 x X).
    + intros q HQ. apply H2. intros x X. apply (HQ x (or_introl X)).
  - set (x := (d, n)). change (d ++ [n]) with (path_of x).
    assert (HX : In x entries) by (apply HE; left; auto).
    assert (NEXT : forall g, (Verify (path_of x) f0 = None -> forall q, area (path_of x) q -> g q = None) -> (Verify (path_of x) f0 <> None -> forall q, g q = f q) -> (forall q, ~ area (path_of x) q -> g q = f q) -> sub g f ->
       safe false (runner_preload digest settings_ok es) g (fun _ => True) (fun _ g =>
    (forall y, In y done \/ In y (x :: es) -> Verify (path_of y) f0 = None -> forall q, area (path_of y) q -> g q = None) /\
    (forall q, (forall y, In y done \/ In y (x :: es) -> area (path_of y) q -> Verify (path_of y) f0 <> None) -> g q = f0 q))).
    { intros g G1 G2 G3 G4. eapply safe_weaken; [intros h Hh; exact Hh| |apply (IH (x :: done) g)].
      - intros r h [A B]. split.
        + intros y Hy. apply A. cbn in *. tauto.
        + intros q HQ. apply B. intros y Hy. apply HQ. cbn in *. tauto.
      - intros y Hy. apply HE. right. auto.
      - intros y [<-|Hy]; auto.
      - intros y [<-|Hy] V q HQ; [auto|]. destruct (G4 q) as [-> |]; [|auto]. apply (H1 y); auto.
      - intros q HQ. assert (FQ : f q = f0 q) by (apply H2; intros y Hy; apply HQ; right; auto).
        destruct (area_dec (path_of x) q) as [Ax|Ax]; [|rewrite G3; auto]. rewrite G2; auto. apply (HQ x); [left; auto|auto].
      - intros q. destruct (G4 q) as [-> |]; auto. }
    apply preload_one_safe.
    + intros V. assert (V0 : Verify (path_of x) f0 <> None).
      { intros V0. apply V. destruct (Verify (path_of x) f) as [z|] eqn:EV; [|auto]. apply (verify_sub _ _ _ _ _ _ HS) in EV. congruence. }
      apply NEXT; try congruence; auto. apply sub_refl.
    + intros g V [C1 C2]. apply NEXT; auto.
      * intros V0. exfalso. apply V0. rewrite <- V. apply (C34_verify_reads digest settings_ok d n). intros q HP.
        (* nothing that Verify reads was removed *)
        symmetry. apply H2. intros y Hy Ay. destruct (string_dec (snd x) (snd y)) as [E1|E1]; [destruct (path_eq_dec (fst x) (fst y)) as [E2|E2]|].
        -- replace y with x by (destruct y; cbn in *; unfold x; congruence). auto.
        -- assert (NE : x <> y) by congruence. assert (Z := AP x y HX (HD y Hy) NE V0 q Ay). unfold x, path_of in Z. cbn [fst snd] in Z. congruence.
        -- assert (NE : x <> y) by congruence. assert (Z := AP x y HX (HD y Hy) NE V0 q Ay). unfold x, path_of in Z. cbn [fst snd] in Z. congruence.
      * intros q. destruct (area_dec (path_of x) q); auto.
Qed.
End Runner.

(* ---- When names are apart ---- *)
Lemma prefix_app_inv a b s : prefix a (b ++ s)%string = true -> (exists r, a = (b ++ r)%string /\ prefix r s = true) \/ (exists c r, b = (a ++ String c r)%string).
Proof.
  revert b. induction a as [|x a IH]; intros b H.
  - destruct b as [|y b]; [left; exists ""; auto|right; exists y, b; auto].
  - destruct b as [|y b]; [left; exists (String x a); auto|]. cbn in H. destruct (ascii_dec x y) as [->|]; [|discriminate].
    destruct (IH b H) as [(r & -> & P)|(c & r & ->)]; [left; exists r; auto|right; exists c, r; auto].
Qed.
Lemma prefix_trans_app a b s : prefix a b = true -> prefix a (b ++ s)%string = true.
Proof. revert b. induction a as [|x a IH]; intros b H; [destruct (b ++ s)%string; auto|]. destruct b as [|y b]; [discriminate|]. cbn in *. destruct (ascii_dec x y); auto. Qed.
Lemma prefix_slash a b s t : ~ contains "/" a -> ~ contains "/" b -> prefix (a ++ String "/" s) (b ++ String "/" t) = true -> a = b /\ prefix s t = true.
Proof.
  revert b. induction a as [|x a IH]; intros [|y b] Ha Hb H; cbn [append] in H.
  - cbn [prefix append] in H. destruct (ascii_dec "/" "/"); [auto|congruence].
  - cbn [prefix append] in H. destruct (ascii_dec "/" y) as [<-|]; [|discriminate]. elim Hb. left. auto.
  - cbn [prefix append] in H. destruct (ascii_dec x "/") as [->|]; [|discriminate]. elim Ha. left. auto.
  - cbn [prefix append] in H. destruct (ascii_dec x y) as [->|]; [|discriminate]. rewrite contains_cons in Ha, Hb. destruct (IH b) as [-> P]; auto; tauto.
Qed.
Lemma prefix_seg n x r : ~ contains "/" n -> prefix n (x ++ String "/" r) = true -> prefix n x = true.
Proof.
  revert x. induction n as [|c n IH]; intros x H P; [destruct x; auto|]. rewrite contains_cons in H. destruct x as [|y x]; cbn [prefix append] in *.
  - destruct (ascii_dec c "/") as [->|]; [tauto|discriminate].
  - destruct (ascii_dec c y); [|discriminate]. apply IH; tauto.
Qed.
Lemma prefix_path d n d' x r : Forall (fun s => ~ contains "/" s) d -> Forall (fun s => ~ contains "/" s) d' -> ~ contains "/" n -> length d = length d' ->
  prefix (path_text (d ++ [n])) (path_text (d' ++ x :: r)) = true -> d = d' /\ prefix n x = true.
Proof.
  intros H1 H2 H3 HL. unfold path_text. cbn [append prefix]. destruct (ascii_dec "/" "/"); [|congruence]. cbn [prefix].
  revert d' H2 HL. induction H1 as [|a d HA H1 IH]; intros d' H2 HL P; (destruct d' as [|b d']; [try discriminate|try discriminate]).
  - cbn [app] in P. split; [auto|]. change (join "/" [n]) with n in P. destruct r as [|y r]; [exact P|]. rewrite join_cons in P by discriminate. eapply prefix_seg; eauto.
  - cbn [app] in P. rewrite !join_cons in P by (destruct d, d'; discriminate). inversion H2; subst. apply prefix_slash in P; auto. destruct P as [-> P]. destruct (IH d') as [-> Q]; auto.
Qed.

(* Preloading a runner's cache: what Verify rejects is removed, with its .sha1
   file and .tmp directory; nothing else is touched; what it accepts stays. *)
Theorem C32_preload_runner : forall digest settings_ok entries os f r g,
  (forall d n, In (d, n) entries -> ~ contains "/" n /\ Forall (fun s => ~ contains "/" s) d) ->
  (forall d n d' n', In (d, n) entries -> In (d', n') entries -> length d = length d') ->
  (forall d n n', In (d, n) entries -> In (d, n') entries -> n <> n' -> runner_Verify digest settings_ok (d ++ [n]) f <> None ->
     prefix n (n' ++ ".tmp") = false /\ prefix n (n' ++ ".sha1") = false) ->
  ~ In Fails os -> exec (runner_preload digest settings_ok entries) os f = Finished r g ->
  (forall d n, In (d, n) entries -> runner_Verify digest settings_ok (d ++ [n]) f = None -> forall q, area (d ++ [n]) q -> g q = None) /\
  (forall q, (forall d n, In (d, n) entries -> area (d ++ [n]) q -> runner_Verify digest settings_ok (d ++ [n]) f <> None) -> g q = f q) /\
  (forall d n, In (d, n) entries -> runner_Verify digest settings_ok (d ++ [n]) g = runner_Verify digest settings_ok (d ++ [n]) f).
Proof.
  intros digest settings_ok entries os f r g HS HD HP HO HE.
  assert (AP : forall x y, In x entries -> In y entries -> x <> y -> runner_Verify digest settings_ok (path_of x) f <> None -> apart x y).
  { intros [d n] [d' n'] Hx Hy NE V q Q. unfold path_of in *. cbn [fst snd] in *. destruct (prefix (path_text (d ++ [n])) (path_text q)) eqn:P; [|auto]. exfalso.
    assert (E : exists e z, q = d' ++ (n' ++ e)%string :: z /\ (e = "" \/ e = ".tmp" \/ e = ".sha1")).
    { unfold area in Q. rewrite !with_ext_snoc in Q. destruct Q as [(z & ->)|[(z & ->)|(z & ->)]]; [exists "", z|exists ".tmp", z|exists ".sha1", z]; rewrite ?append_nil_r, <- app_assoc; auto. }
    destruct E as (e & z & -> & HEe). apply prefix_path in P; [|apply (HS d n)|apply (HS d' n')|apply (HS d n)|eapply HD]; eauto. destruct P as [<- P].
    assert (Nn : n <> n') by congruence. destruct (HP d n n' Hx Hy Nn V) as [P1 P2]. destruct HEe as [-> |[-> | ->]]; [|congruence|congruence].
    rewrite append_nil_r in P. rewrite (prefix_trans_app _ _ ".tmp" P) in P1. discriminate. }
  pose proof (preload_safe digest settings_ok f entries AP entries [] f (fun x H => H) (fun x (H : In x []) => match H with end)) as X.
  specialize (X (fun x (H : In x []) => match H with end) (fun q _ => eq_refl) (sub_refl f) os (fun _ => HO)). rewrite HE in X. destruct X as [A B].
  assert (A' : forall d n, In (d, n) entries -> runner_Verify digest settings_ok (d ++ [n]) f = None -> forall q, area (d ++ [n]) q -> g q = None).
  { intros d n Hx. apply (A (d, n)). auto. }
  assert (B' : forall q, (forall d n, In (d, n) entries -> area (d ++ [n]) q -> runner_Verify digest settings_ok (d ++ [n]) f <> None) -> g q = f q).
  { intros q HQ. apply B. intros [d n] [[]|Hx]. apply (HQ d n Hx). }
  split; [exact A'|]. split; [exact B'|]. intros d n Hx. destruct (runner_Verify digest settings_ok (d ++ [n]) f) as [z|] eqn:V.
  - rewrite <- V. apply C34_verify_reads. intros q P. apply B'. intros d' n' Hy Ay V'.
    assert (NE : (d, n) <> (d', n')) by congruence. assert (W : runner_Verify digest settings_ok (path_of (d, n)) f <> None) by (unfold path_of; cbn; congruence).
    assert (Z := AP _ _ Hx Hy NE W q Ay). unfold path_of in Z. cbn [fst snd] in Z. congruence.
  - apply absent_verify. intros q. apply (A' d n Hx V). left. exists q. auto.
Qed.
Print Assumptions C32_preload_runner.

(* ---- The grader ---- *)
Definition garea (a q : path) : Prop := below a q \/ q = with_ext a ".tmp" \/ q = with_ext a ".sha1" \/ q = with_ext a ".len".
Lemma garea_dec a q : {garea a q} + {~ garea a q}.
Proof.
  unfold garea. destruct (strip a q) as [r|] eqn:E; [left; left; apply strip_spec in E; exists r; auto|]. apply strip_none in E.
  destruct (path_eq_dec q (with_ext a ".tmp")), (path_eq_dec q (with_ext a ".sha1")), (path_eq_dec q (with_ext a ".len")); tauto.
Qed.
Section Grader.
Variable digest : string -> string.
Notation Verify := (grader_Verify digest).
Lemma grader_one_safe a k f (F : answer -> fs -> Prop) :
  (Verify a f <> None -> safe false k f (fun _ => True) F) ->
  (forall g, Verify a f = None -> (forall q, below a q -> g q = None) -> (forall q, ~ garea a q -> g q = f q) -> sub g f -> safe false k g (fun _ => True) F) ->
  safe false (preload_one a (grader_cached_add digest a) k) f (fun _ => True) F.
Proof.
  intros HS HN. unfold preload_one, grader_cached_add, add. cbn [bind]. apply safe_look. destruct (Verify a f) as [[[z h] l]|] eqn:EV; cbn [bind].
  - apply HS. discriminate.
  - unfold grader_Delete. cbn [bind].
    assert (RM : forall x k g, (forall g', (forall q, q <> x -> g' q = g q) -> sub g' g -> safe false k g' (fun _ => True) F) -> safe false (Do (Remove x) (fun _ => k)) g (fun _ => True) F).
    { intros x k0 g H. apply safe_do; auto.
      - intros g' E. cbn in E. destruct (g x) as [[c|]|] eqn:EX; try discriminate. injection E as <-. apply H; [intros q Hq; apply set_other; auto|].
        intros q. unfold set. destruct (path_eqb x q); auto.
      - intros _. apply H; auto. apply sub_refl. }
    apply RM. intros g1 H1 U1. apply RM. intros g2 H2 U2. apply RM. intros g3 H3 U3. apply RM. intros g4 H4 U4.
    apply safe_do; auto; [|intros [X|X]; discriminate]. intros g5 E. injection E as <-. apply HN; [auto| | |].
    + intros q (r & ->). assert (X : strip a (a ++ r) = Some r) by (apply strip_spec; auto). rewrite X. auto.
    + intros q HQ. destruct (strip a q) as [r|] eqn:E; [apply strip_spec in E; elim HQ; left; exists r; auto|].
      unfold garea in HQ. assert (q <> a) by (intros ->; apply HQ; left; exists []; rewrite app_nil_r; auto). rewrite H4, H3, H2, H1; tauto.
    + intros q. destruct (strip a q); [auto|]. revert q. fold (sub g4 f). exact (sub_trans _ _ _ U4 (sub_trans _ _ _ U3 (sub_trans _ _ _ U2 U1))).
Qed.
Definition reads_of (a q : path) : Prop := q = a \/ q = with_ext a ".sha1" \/ q = with_ext a ".len".
Lemma gverify_reads a f g : (forall q, reads_of a q -> f q = g q) -> Verify a f = Verify a g.
Proof. intros H. unfold grader_Verify. rewrite (H a), (H (with_ext a ".sha1")), (H (with_ext a ".len")) by (unfold reads_of; auto). auto. Qed.
Lemma grader_preload_safe f0 entries : (forall x y, In x entries -> In y entries -> x <> y -> forall q, garea y q -> ~ reads_of x q) ->
  forall es done f, (forall x, In x es -> In x entries) -> (forall x, In x done -> In x entries) ->
  (forall x, In x done -> Verify x f0 = None -> forall q, below x q -> f q = None) ->
  (forall q, (forall x, In x done -> garea x q -> Verify x f0 <> None) -> f q = f0 q) -> sub f f0 ->
  safe false (grader_preload digest es) f (fun _ => True) (fun _ g =>
    (forall x, In x done \/ In x es -> Verify x f0 = None -> forall q, below x q -> g q = None) /\
    (forall q, (forall x, In x done \/ In x es -> garea x q -> Verify x f0 <> None) -> g q = f0 q)).
Proof.
  intros AP. induction es as [|x es IH]; intros done f HE HD H1 H2 HS; cbn [grader_preload].
  - apply safe_ret. split.
    + intros x [X|[]]. exact (H1 x X).
    + intros q HQ. apply H2. intros x X. apply (HQ x (or_introl X)).
  - assert (HX : In x entries) by (apply HE; left; auto).
    assert (NEXT : forall g, (Verify x f0 = None -> forall q, below x q -> g q = None) -> (Verify x f0 <> None -> forall q, g q = f q) -> (forall q, ~ garea x q -> g q = f q) -> sub g f ->
       safe false (grader_preload digest es) g (fun _ => True) (fun _ g =>
    (forall y, In y done \/ In y (x :: es) -> Verify y f0 = None -> forall q, below y q -> g q = None) /\
    (forall q, (forall y, In y done \/ In y (x :: es) -> garea y q -> Verify y f0 <> None) -> g q = f0 q))).
    { intros g G1 G2 G3 G4. eapply safe_weaken; [intros h Hh; exact Hh| |apply (IH (x :: done) g)].
      - intros r h [A B]. split.
        + intros y Hy. apply A. cbn in *. tauto.
        + intros q HQ. apply B. intros y Hy. apply HQ. cbn in *. tauto.
      - intros y Hy. apply HE. right. auto.
      - intros y [<-|Hy]; auto.
      - intros y [<-|Hy] V q HQ; [auto|]. destruct (G4 q) as [-> |]; [|auto]. apply (H1 y); auto.
      - intros q HQ. assert (FQ : f q = f0 q) by (apply H2; intros y Hy; apply HQ; right; auto).
        destruct (garea_dec x q) as [Ax|Ax]; [|rewrite G3; auto]. rewrite G2; auto. apply (HQ x); [left; auto|auto].
      - intros q. destruct (G4 q) as [-> |]; auto. }
    assert (EQV : Verify x f = None -> Verify x f0 = None).
    { intros V. destruct (Verify x f0) as [z0|] eqn:V00; [|auto]. assert (V0 : Verify x f0 <> None) by congruence. rewrite <- V00, <- V. apply gverify_reads. intros q HQ. symmetry. apply H2. intros y Hy Ay. destruct (path_eq_dec x y) as [<-|NE].
      - exact V0.
      - elim (AP x y HX (HD y Hy) NE q Ay HQ). }
    apply grader_one_safe.
    + intros V. assert (V0 : Verify x f0 <> None).
      { intros V0. apply V. destruct (Verify x f) as [z|] eqn:EV; [|auto]. apply (grader_verify_sub _ _ _ _ _ HS) in EV. congruence. }
      apply NEXT; try congruence; auto. apply sub_refl.
    + intros g V C1 C2 C3. apply NEXT; auto.
Qed.
End Grader.

Fixpoint last_char (s : string) : option ascii :=
  match s with "" => None | String c "" => Some c | String _ s => last_char s end.
Lemma last_char_app a b : b <> "" -> last_char (a ++ b) = last_char b.
Proof. intros H. induction a as [|x a IH]; [auto|]. cbn [append last_char]. rewrite IH. destruct (a ++ b)%string eqn:E; [|auto]. destruct a, b; try discriminate; congruence. Qed.
Lemma append_inj_r a b e : (a ++ e)%string = (b ++ e)%string -> a = b.
Proof.
  assert (LA : forall s t, String.length (s ++ t)%string = String.length s + String.length t) by (induction s; cbn; intros; auto).
  revert b. induction a as [|x a IH]; intros [|y b] E; cbn in E; auto.
  - exfalso. assert (X := f_equal String.length E). cbn in X. rewrite LA in X. lia.
  - exfalso. assert (X := f_equal String.length E). cbn in X. rewrite LA in X. lia.
  - injection E as -> E. f_equal. auto.
Qed.

(* Preloading the grader's cache. *)
Theorem C32_preload_grader : forall digest entries os f r g,
  (forall a, In a entries -> exists d n, a = d ++ [(n ++ ".tar.gz")%string]) ->
  (forall a b, In a entries -> In b entries -> length a = length b) ->
  ~ In Fails os -> exec (grader_preload digest entries) os f = Finished r g ->
  (forall a, In a entries -> grader_Verify digest a f = None -> forall q, below a q -> g q = None) /\
  (forall q, (forall a, In a entries -> garea a q -> grader_Verify digest a f <> None) -> g q = f q) /\
  (forall a, In a entries -> grader_Verify digest a g = grader_Verify digest a f).
Proof.
  intros digest entries os f r g HS HL HO HE.
  assert (AP : forall x y, In x entries -> In y entries -> x <> y -> forall q, garea y q -> ~ reads_of x q).
  { intros x y Hx Hy NE q Q R. destruct (HS x Hx) as (d & n & ->), (HS y Hy) as (d' & n' & ->). assert (LE := HL _ _ Hx Hy). rewrite !app_length in LE. cbn in LE.
    unfold garea, reads_of in *. rewrite !with_ext_snoc in *.
    assert (EQ : exists e, In e [""; ".tmp"; ".sha1"; ".len"] /\ q = d' ++ [((n' ++ ".tar.gz") ++ e)%string]).
    { destruct Q as [(z & ->)|[-> |[-> | ->]]]; [|exists ".tmp"|exists ".sha1"|exists ".len"]; [|cbn; auto 6|cbn; auto 6|cbn; auto 6].
      exists "". rewrite append_nil_r. split; [left; auto|].
      assert (LZ : length z = 0). { destruct R as [R|[R|R]]; apply (f_equal (@length _)) in R; rewrite !app_length in R; cbn in R; lia. }
      destruct z; [rewrite app_nil_r; auto|discriminate]. }
    assert (ER : exists e, In e [""; ".sha1"; ".len"] /\ q = d ++ [((n ++ ".tar.gz") ++ e)%string]).
    { destruct R as [-> |[-> | ->]]; [exists ""; rewrite append_nil_r|exists ".sha1"|exists ".len"]; cbn; auto 6. }
    destruct EQ as (e & He & ->), ER as (e' & He' & E). apply app_inj_tail in E. destruct E as [<- E].
    destruct (string_dec e e') as [<-|NEe]; [apply append_inj_r in E; apply NE; rewrite E; auto|].
    apply (f_equal last_char) in E. rewrite !append_assoc, (last_char_app n'), (last_char_app n) in E by discriminate.
    cbn in He, He'. destruct He as [<-|[<-|[<-|[<-|[]]]]], He' as [<-|[<-|[<-|[]]]]; try congruence; cbn in E; discriminate. }
  pose proof (grader_preload_safe digest f entries AP entries [] f (fun x H => H) (fun x (H : In x []) => match H with end)) as X.
  specialize (X (fun x (H : In x []) => match H with end) (fun q _ => eq_refl) (sub_refl f) os (fun _ => HO)). rewrite HE in X. destruct X as [A B].
  assert (A' : forall a, In a entries -> grader_Verify digest a f = None -> forall q, below a q -> g q = None) by (intros a Ha; apply (A a); auto).
  assert (B' : forall q, (forall a, In a entries -> garea a q -> grader_Verify digest a f <> None) -> g q = f q).
  { intros q HQ. apply B. intros a [[]|Ha]. apply (HQ a Ha). }
  split; [exact A'|]. split; [exact B'|]. intros a Ha. destruct (grader_Verify digest a f) as [z|] eqn:V.
  - rewrite <- V. apply gverify_reads. intros q R. apply B'. intros b Hb G V'. assert (NE : a <> b) by congruence. apply (AP a b Ha Hb NE q G R).
  - assert (N : g a = None) by (apply (A' a Ha V); exists []; rewrite app_nil_r; auto). unfold grader_Verify. rewrite N. auto.
Qed.
Print Assumptions C32_preload_grader.

(* ---- Cases that meet the hypotheses ---- *)
(* "aa/bb" is intact, "aa/cc" is not: it has no .sha1 file. *)
Definition pre_disk : fs := fun q =>
  match ex_run ex_digest 200 (runner_add ex_digest ex_ok ["aa"; "bb"] "tgz" true ex_es true (ex_digest "tgz")) (disk ex_start) with
  | (_, f) => match q with ["aa"; "cc"] => Some Dir | ["aa"; "cc"; "in"] => Some (File "y") | _ => f q end
  end.
Definition pre_entries : list (path * string) := [(["aa"], "bb"); (["aa"], "cc")].
Example ex_preload :
  (forall d n, In (d, n) pre_entries -> ~ contains "/" n /\ Forall (fun s => ~ contains "/" s) d) /\
  (forall d n n', In (d, n) pre_entries -> In (d, n') pre_entries -> n <> n' -> prefix n (n' ++ ".tmp") = false /\ prefix n (n' ++ ".sha1") = false) /\
  match exec (runner_preload ex_digest ex_ok pre_entries) (repeat Works 30) pre_disk with
  | Finished _ g => runner_Verify ex_digest ex_ok ["aa"; "bb"] pre_disk <> None /\ runner_Verify ex_digest ex_ok ["aa"; "cc"] pre_disk = None /\ g ["aa"; "cc"] = None /\ g ["aa"; "cc"; "in"] = None
  | _ => False
  end.
Proof.
  split; [|split].
  - intros d n H. cbn in H. destruct H as [X|[X|[]]]; injection X as <- <-; (split; [|constructor; [|constructor]]); vm_compute; intuition discriminate.
  - intros d n n' H1 H2 NE. cbn in *. destruct H1 as [X|[X|[]]]; injection X as <- <-; destruct H2 as [X|[X|[]]]; injection X as <-; try congruence; vm_compute; auto.
  - vm_compute. repeat split; discriminate.
Qed.

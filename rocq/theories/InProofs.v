From Coq Require Import String Ascii List Bool ZArith Lia.
From Verif Require Import GoStr InModel InSpec.
Import ListNotations.
Local Open Scope string_scope.
Local Open Scope list_scope.

(* ---- Paths ---- *)
Lemma path_eqb_spec p q : path_eqb p q = true <-> p = q.
Proof.
  revert q. induction p as [|a p IH]; intros [|b q]; cbn; try (split; [discriminate|congruence]); [tauto|].
  rewrite andb_true_iff, String.eqb_eq, IH. split; [intros [-> ->]; auto|intros E; injection E; auto].
Qed.
Lemma path_eqb_refl p : path_eqb p p = true. Proof. apply path_eqb_spec. auto. Qed.
Lemma path_eqb_neq p q : path_eqb p q = false <-> p <> q.
Proof. rewrite <- path_eqb_spec. destruct (path_eqb p q); split; congruence. Qed.
Lemma path_eq_dec (p q : path) : {p = q} + {p <> q}.
Proof. destruct (path_eqb p q) eqn:E; [left; apply path_eqb_spec; auto|right; apply path_eqb_neq; auto]. Qed.
Lemma strip_spec p q r : strip p q = Some r <-> q = p ++ r.
Proof.
  revert q. induction p as [|a p IH]; intros q; cbn.
  - split; congruence.
  - destruct q as [|b q]; [split; discriminate|]. destruct (String.eqb_spec a b) as [->|N].
    + rewrite IH. split; [intros ->; auto|intros E; injection E; auto].
    + split; [discriminate|intros E; injection E; intros; congruence].
Qed.
Lemma strip_none p q : strip p q = None <-> ~ below p q.
Proof.
  split.
  - intros H (r & ->). assert (strip p (p ++ r) = Some r) by (apply strip_spec; auto). congruence.
  - intros H. destruct (strip p q) as [r|] eqn:E; [|auto]. apply strip_spec in E. elim H. exists r. auto.
Qed.
Lemma in_prefixes p q : In q (prefixes p) <-> exists r, p = q ++ r.
Proof.
  revert q. induction p as [|a p IH]; intros q; cbn.
  - split.
    + intros [<-|[]]. exists []. auto.
    + intros (r & E). destruct q; [auto|discriminate].
  - rewrite in_map_iff. split.
    + intros [<-|(x & <- & Hx)]; [exists (a :: p); auto|]. apply IH in Hx. destruct Hx as (r & ->). exists r. auto.
    + intros (r & E). destruct q as [|b q]; [auto|]. injection E as <- ->. right. exists q. split; [auto|]. apply IH. exists r. auto.
Qed.
Lemma existsb_prefixes p q : existsb (path_eqb q) (prefixes p) = true <-> exists r, p = q ++ r.
Proof.
  rewrite existsb_exists. rewrite <- in_prefixes. split.
  - intros (x & Hx & E). apply path_eqb_spec in E. subst. auto.
  - intros H. exists q. split; [auto|apply path_eqb_refl].
Qed.
Lemma with_ext_snoc d n e : with_ext (d ++ [n]) e = d ++ [(n ++ e)%string].
Proof. unfold with_ext. rewrite removelast_last, last_last. auto. Qed.
Lemma append_ext_neq n e : e <> "" -> n <> (n ++ e)%string.
Proof. intros H. induction n as [|c n IH]; cbn; [auto|]. intros E. injection E. auto. Qed.
Lemma append_inj a b c : (a ++ b)%string = (a ++ c)%string -> b = c.
Proof. induction a as [|x a IH]; cbn; [auto|]. intros E. injection E. auto. Qed.

(* join *)
Lemma path_join_inside p name : inside name -> path_join p name = p ++ rel name.
Proof.
  unfold inside, path_join, rel. generalize (split "/" name). intros l. revert p. induction l as [|s l IH]; intros p H; cbn.
  - rewrite app_nil_r. auto.
  - unfold join_seg at 2. destruct (String.eqb_spec s "") as [->|N1]; cbn; [apply IH; intros X; apply H; right; auto|].
    destruct (String.eqb_spec s ".") as [->|N2]; cbn; [apply IH; intros X; apply H; right; auto|].
    destruct (String.eqb_spec s "..") as [->|N3]; [elim H; left; auto|].
    rewrite IH by (intros X; apply H; right; auto). rewrite <- app_assoc. auto.
Qed.

(* ---- Filesystem ---- *)
Lemma set_same f p n : set f p n p = n. Proof. unfold set. rewrite path_eqb_refl. auto. Qed.
Lemma set_other f p n q : q <> p -> set f p n q = f q.
Proof. intros H. unfold set. destruct (path_eqb p q) eqn:E; [apply path_eqb_spec in E; congruence|auto]. Qed.

(* ---- Executions ---- *)
Definition safe (allow : bool) (p : prog) (f : fs) (C : fs -> Prop) (F : answer -> fs -> Prop) : Prop :=
  forall os, (allow = false -> ~ In Fails os) -> match exec p os f with Crashed f' => C f' | Finished r f' => F r f' end.
Lemma safe_ret al r f C (F : answer -> fs -> Prop) : F r f -> safe al (Ret r) f C F.
Proof. intros H os _. exact H. Qed.
Lemma safe_look al k f C F : safe al (k f) f C F -> safe al (Look k) f C F.
Proof. intros H os Ho. apply H. auto. Qed.
Lemma safe_do al o k f (C : fs -> Prop) F : C f -> (forall kept, C (partly o kept f)) ->
  (forall f', apply o f = Some f' -> safe al (k true) f' C F) ->
  (al = true \/ apply o f = None -> safe al (k false) f C F) -> safe al (Do o k) f C F.
Proof.
  intros H1 H2 H3 H4 os Ho. destruct os as [|[| |kept] os]; cbn.
  - exact H1.
  - assert (Ho' : al = false -> ~ In Fails os) by (intros A B; apply (Ho A); right; auto).
    destruct (apply o f) as [f'|] eqn:E; [apply H3; auto|apply H4; auto].
  - destruct al; [|elim (Ho eq_refl); left; auto]. apply H4; [auto|discriminate].
  - apply H2.
Qed.
(* Atomic operations. *)
Lemma safe_atom al o k f (C : fs -> Prop) F : (forall kept, partly o kept f = f) -> C f ->
  (forall f', apply o f = Some f' -> safe al (k true) f' C F) ->
  (al = true \/ apply o f = None -> safe al (k false) f C F) -> safe al (Do o k) f C F.
Proof. intros HP HC. apply safe_do; auto. intros kept. rewrite HP. auto. Qed.
Lemma safe_weaken al p f (C C' : fs -> Prop) (F F' : answer -> fs -> Prop) : (forall f, C f -> C' f) -> (forall r f, F r f -> F' r f) ->
  safe al p f C F -> safe al p f C' F'.
Proof. intros H1 H2 H os Ho. specialize (H os Ho). destruct (exec p os f); auto. Qed.

Definition agree (f g : fs) (q : path) : Prop := forall r, r <> q -> f r = g r.
Lemma safe_write al q s ok fail C F : forall f s0, f q = Some (File s0) ->
  (forall f' t, f' q = Some (File (s0 ++ t)%string) -> agree f' f q -> C f' /\ (al = true -> safe al fail f' C F)) ->
  (forall f', f' q = Some (File (s0 ++ s)%string) -> agree f' f q -> safe al ok f' C F) ->
  safe al (write q s ok fail) f C F.
Proof.
  assert (AN : forall a, (a ++ "")%string = a) by (induction a; cbn; congruence).
  assert (AA : forall a b c, ((a ++ b) ++ c)%string = (a ++ (b ++ c))%string) by (induction a; cbn; congruence).
  induction s as [|c s IH]; intros f s0 H0 H1 H2; cbn [write].
  - apply H2; [rewrite AN; auto|intros r _; auto].
  - assert (X : C f /\ (al = true -> safe al fail f C F)) by (apply (H1 f ""); [rewrite AN; auto|intros r _; auto]).
    apply safe_atom; [auto|apply X| |].
    + intros f' E. cbn [apply] in E. rewrite H0 in E. injection E as <-.
      apply (IH _ (s0 ++ String c "")%string).
      * apply set_same.
      * intros f' t Hq Ha. apply (H1 f' (String c t)).
        -- rewrite Hq, AA. auto.
        -- intros r Hr. rewrite (Ha r Hr). apply set_other. auto.
      * intros f' Hq Ha. apply H2.
        -- rewrite Hq, AA. auto.
        -- intros r Hr. rewrite (Ha r Hr). apply set_other. auto.
    + intros [E|E]; [apply X; auto|]. cbn [apply] in E. rewrite H0 in E. discriminate.
Qed.

(* MkdirAll changes no file. *)
Lemma mkdir_spec p f f' : apply (MkdirAll p) f = Some f' ->
  (forall q, (exists r, p = q ++ r) -> f' q = Some Dir) /\ (forall q, ~ (exists r, p = q ++ r) -> f' q = f q) /\
  (forall q c, f' q = Some (File c) <-> f q = Some (File c)).
Proof.
  cbn. destruct (forallb _ _) eqn:E; [|discriminate]. intros H. injection H as <-. rewrite forallb_forall in E.
  assert (A : forall q, existsb (path_eqb q) (prefixes p) = true <-> exists r, p = q ++ r) by (intros; apply existsb_prefixes).
  split; [|split].
  - intros q Hq. apply A in Hq. rewrite Hq. auto.
  - intros q Hq. destruct (existsb (path_eqb q) (prefixes p)) eqn:E2; [|auto]. elim Hq. apply A. auto.
  - intros q c. destruct (existsb (path_eqb q) (prefixes p)) eqn:E2; [|tauto]. apply A, in_prefixes, E in E2.
    split; [discriminate|]. intros X. rewrite X in E2. discriminate.
Qed.
Lemma create_spec p f f' : apply (Create p) f = Some f' ->
  f' p = Some (File "") /\ agree f' f p /\ f p <> Some Dir /\ f (removelast p) = Some Dir.
Proof.
  cbn. unfold is_dir. destruct (f (removelast p)) as [[|]|] eqn:E1; cbn; try discriminate.
  destruct (f p) as [[|]|] eqn:E2; cbn; try discriminate; intros H; injection H as <-;
    (split; [apply set_same|split; [intros r Hr; apply set_other; auto|split; congruence]]).
Qed.

(* ---- Archives ---- *)
Lemma content_snoc es e r : content (es ++ [e]) r =
  match e with EDir _ => content es r | EFile n c => if path_eqb (rel n) r then Some c else content es r end.
Proof.
  induction es as [|x es IH]; cbn [app content].
  - destruct e as [n|n c]; cbn; auto.
  - destruct x as [n|n c]; [auto|]. rewrite IH. destruct e as [n'|n' c']; [auto|]. destruct (path_eqb (rel n') r); auto.
Qed.
Lemma content_app_file es1 es2 r : content (es1 ++ es2) r = match content es2 r with Some c => Some c | None => content es1 r end.
Proof.
  induction es1 as [|x es1 IH]; cbn [app content]; [destruct (content es2 r); auto|].
  destruct x as [n|n c]; rewrite IH; [auto|]. destruct (content es2 r); auto.
Qed.

(* C32: an input of the grader that is added among others gets what it would get
   if it were added alone. *)
From Coq Require Import String Ascii List Bool ZArith Lia Permutation.
From Verif Require Import GoStr InModel InSpec InProofs InRunnerProofs InReload InGraderProofs PoolModel PoolProps GPoolModel GPoolProps.
Import ListNotations.
Local Open Scope string_scope.
Local Open Scope list_scope.

(* ---- A part of an execution ---- *)
Inductive run_to : prog -> list outcome -> fs -> prog -> fs -> Prop :=
| rt_nil : forall p f, run_to p [] f p f
| rt_works : forall o k os f f1 p f', apply o f = Some f1 -> run_to (k true) os f1 p f' -> run_to (Do o k) (Works :: os) f p f'
| rt_fails : forall o k os f p f', run_to (k false) os f p f' -> run_to (Do o k) (Fails :: os) f p f'
| rt_look : forall k os f p f', run_to (k f) os f p f' -> run_to (Look k) os f p f'.
Lemma run_to_snoc p os f p1 f1 p2 f2 : run_to p os f p1 f1 -> op_step p1 f1 p2 f2 -> exists os', run_to p os' f p2 f2.
Proof.
  induction 1 as [p f|o k os f f0 p f' E H IH|o k os f p f' H IH|k os f p f' H IH]; intros S.
  - destruct S as [k f|o k f f' E|o k f]; [exists []|exists [Works]|exists [Fails]]; repeat (econstructor; eauto).
  - destruct (IH S) as (os' & X). exists (Works :: os'). econstructor; eauto.
  - destruct (IH S) as (os' & X). exists (Fails :: os'). econstructor; eauto.
  - destruct (IH S) as (os' & X). exists os'. econstructor; eauto.
Qed.
Lemma run_to_exec p os f r f' : run_to p os f (Ret r) f' -> exec p os f = Finished r f' /\ forall kept, ~ In (Crashes kept) os.
Proof.
  remember (Ret r) as q eqn:Eq. intros H. revert Eq. induction H as [p f|o k os f f0 p f' E H IH|o k os f p f' H IH|k os f p f' H IH]; intros ->.
  - split; [reflexivity|intros ? []].
  - destruct (IH eq_refl) as [X Y]. split; [cbn; rewrite E; auto|]. intros kept [Z|Z]; [discriminate|apply (Y kept Z)].
  - destruct (IH eq_refl) as [X Y]. split; [cbn; auto|]. intros kept [Z|Z]; [discriminate|apply (Y kept Z)].
  - destruct (IH eq_refl) as [X Y]. split; cbn; auto.
Qed.

(* ---- What a program depends on ---- *)
Section Alone.
Variable a : path.
Hypothesis HA : exists d n, a = d ++ [n].
Fixpoint local (p : prog) : Prop :=
  match p with
  | Ret _ => True
  | Do o k => gallowed a o /\ local (k true) /\ local (k false)
  | Look k => (forall f g, (forall q, belongs a q -> f q = g q) -> k f = k g) /\ forall f, local (k f)
  end.
Lemma parent_cases q : belongs a q -> belongs a (removelast q) \/ below (removelast q) a.
Proof.
  destruct HA as (d & n & ->). unfold belongs. rewrite !with_ext_snoc.
  assert (X : forall x, below (d ++ [x]) q -> below (d ++ [x]) (removelast q) \/ below (removelast q) (d ++ [n])).
  { intros x (r & ->). destruct (exists_last (l := [x] ++ r)) as (r' & y & E); [discriminate|]. rewrite <- app_assoc, E, app_assoc, removelast_last.
    destruct r' as [|z r']; [right; exists [n]; rewrite app_nil_r; auto|]. left. cbn in E. injection E as <- E. exists r'. rewrite <- app_assoc. auto. }
  intros [H|[H|[H|H]]]; apply X in H; tauto.
Qed.
(* Directories that appear above. *)
Definition rel (extra : path -> bool) (V W : fs) : Prop :=
  (forall q, belongs a q -> W q = V q) /\ (forall q, below q a -> ~ belongs a q -> W q = if extra q then Some Dir else V q) /\
  (forall q, below q a -> ~ belongs a q -> extra q = true -> V q = None \/ V q = Some Dir).
Lemma anc_step o f f' q : gallowed a o -> apply o f = Some f' -> ~ belongs a q -> f' q = f q \/ (f q = None /\ f' q = Some Dir).
Proof.
  intros G HE H1. destruct o as [p|p|p c|p|p|p r]; cbn [gallowed] in G; cbn [apply] in HE.
  - fold (apply (MkdirAll p) f) in HE. apply mkdir_spec in HE. destruct HE as (A & B & C). destruct (strip q p) as [r|] eqn:E.
    + apply strip_spec in E. assert (f' q = Some Dir) by (apply A; eauto). destruct (f q) as [[c|]|] eqn:F; auto. apply C in F. congruence.
    + left. apply B. intros (r & ->). eapply strip_none in E. apply E. exists r. auto.
  - destruct (_ && _); [|discriminate]. injection HE as <-. left. apply set_other. intros ->. auto.
  - destruct (f p) as [[|]|]; try discriminate. injection HE as <-. left. apply set_other. intros ->. auto.
  - destruct (f p) as [[|]|]; try discriminate. injection HE as <-. left. apply set_other. intros ->. auto.
  - injection HE as <-. left. destruct (strip p q) as [r|] eqn:E; [|auto]. apply strip_spec in E. subst q. elim H1. apply belongs_app. auto.
  - left. destruct G as [A1 A2]. destruct (f p) as [[c|]|]; try discriminate.
    + destruct (_ && _); [|discriminate]. injection HE as <-. rewrite !set_other; auto; intros ->; auto.
    + destruct (_ && _); [|discriminate]. injection HE as <-. destruct (strip r q) as [t|] eqn:E.
      * apply strip_spec in E. subst q. elim H1. apply belongs_app. auto.
      * destruct (strip p q) as [t|] eqn:E2; [|auto]. apply strip_spec in E2. subst q. elim H1. apply belongs_app. auto.
Qed.
Lemma belongs_dec q : {belongs a q} + {~ belongs a q}.
Proof.
  unfold belongs. assert (D : forall x, {below x q} + {~ below x q}).
  { intros x. destruct (strip x q) as [r|] eqn:E; [left; apply strip_spec in E; exists r; auto|right; apply strip_none; auto]. }
  destruct (D a), (D (with_ext a ".tmp")), (D (with_ext a ".sha1")), (D (with_ext a ".len")); tauto.
Qed.
Lemma rel_parent extra V W q : rel extra V W -> belongs a q -> is_dir V (removelast q) = true -> is_dir W (removelast q) = true.
Proof.
  intros (R1 & R2 & _) B H. unfold is_dir in *. destruct (belongs_dec (removelast q)) as [X|X]; [rewrite R1; auto|].
  destruct (parent_cases q B) as [Y|Y]; [contradiction|]. rewrite R2; auto. destruct (extra _); auto.
Qed.
Lemma apply_rel extra o V V1 W : gallowed a o -> rel extra V W -> apply o V = Some V1 -> exists W1, apply o W = Some W1 /\ rel extra V1 W1.
Proof.
  intros G R E. assert (KEEP : forall W1, apply o W = Some W1 -> (forall q, belongs a q -> W1 q = V1 q) ->
     (forall q, below q a -> ~ belongs a q -> W1 q = if extra q then Some Dir else V1 q) -> exists W1, apply o W = Some W1 /\ rel extra V1 W1).
  { intros W1 EW K1 K2. exists W1. split; [auto|]. split; [auto|]. split; [auto|]. intros q B NB X. destruct R as (_ & _ & R3). specialize (R3 q B NB X).
    destruct (anc_step o V V1 q G E NB) as [-> |[_ ->]]; auto. }
  assert (FR : (forall q, ~ belongs a q -> V1 q = V q) -> forall W1, apply o W = Some W1 -> (forall q, ~ belongs a q -> W1 q = W q) -> forall q, below q a -> ~ belongs a q -> W1 q = if extra q then Some Dir else V1 q).
  { intros A W1 EW B q C D. rewrite B, A by auto. apply R; auto. }
  destruct o as [p|p|p c|p|p|p r]; cbn [gallowed] in G.
  - assert (EW : exists W1, apply (MkdirAll p) W = Some W1).
    { cbn [apply] in *. destruct (forallb _ (prefixes p)) eqn:F in E; [|discriminate]. rewrite forallb_forall in F.
      assert (F' : forallb (fun q => match W q with Some (File _) => false | _ => true end) (prefixes p) = true).
      { apply forallb_forall. intros q Hq. specialize (F q Hq). assert (P : exists r, p = q ++ r) by (apply existsb_prefixes, existsb_exists; exists q; split; [auto|apply path_eqb_refl]).
        assert (Q : below q a) by (destruct P as (r & ->), G as (z & ->); exists (r ++ z); rewrite app_assoc; auto).
        destruct (belongs_dec q) as [B|B]; [destruct R as (R1 & _); rewrite R1; auto|]. destruct R as (_ & R2 & _). rewrite R2; auto. destruct (extra q); auto. }
      rewrite F'. eauto. }
    destruct EW as (W1 & EW). apply (KEEP W1 EW).
    + intros q B. apply mkdir_spec in E, EW. destruct E as (A1 & A2 & _), EW as (B1 & B2 & _). destruct (strip q p) as [t|] eqn:S.
      * apply strip_spec in S. rewrite A1, B1 by eauto. auto.
      * assert (N : ~ exists t, p = q ++ t) by (intros (t & X); apply strip_none in S; apply S; exists t; auto). rewrite A2, B2 by auto. apply R. auto.
    + intros q C D. apply mkdir_spec in E, EW. destruct E as (A1 & A2 & _), EW as (B1 & B2 & _). destruct (strip q p) as [t|] eqn:S.
      * apply strip_spec in S. rewrite A1, B1 by eauto. destruct (extra q); auto.
      * assert (N : ~ exists t, p = q ++ t) by (intros (t & X); apply strip_none in S; apply S; exists t; auto). rewrite A2, B2 by auto. apply R; auto.
  - cbn [apply] in *. destruct (is_dir V (removelast p)) eqn:P1; [|discriminate]. destruct (is_dir V p) eqn:P2; [discriminate|]. injection E as <-.
    assert (Q1 := rel_parent _ _ _ _ R G P1). assert (Q2 : is_dir W p = false) by (unfold is_dir in *; destruct R as (R1 & _); rewrite R1; auto).
    rewrite Q1, Q2 in *. cbn in *. eapply KEEP; [reflexivity| |].
    + intros q B. destruct R as (R1 & _). unfold set. rewrite R1; auto.
    + eapply FR; [|reflexivity|]; intros q B; apply set_other; intros ->; auto.
  - cbn [apply] in *. destruct R as (R1 & R2 & R3). rewrite (R1 p G) in *. destruct (V p) as [[s|]|] eqn:P; try discriminate. injection E as <-. eapply KEEP; [reflexivity| |].
    + intros q B. unfold set. rewrite R1; auto.
    + eapply FR; [|reflexivity|]; intros q B; apply set_other; intros ->; auto.
  - cbn [apply] in *. destruct R as (R1 & R2 & R3). rewrite (R1 p G) in *. destruct (V p) as [[s|]|] eqn:P; try discriminate. injection E as <-. eapply KEEP; [reflexivity| |].
    + intros q B. unfold set. rewrite R1; auto.
    + eapply FR; [|reflexivity|]; intros q B; apply set_other; intros ->; auto.
  - cbn [apply] in *. injection E as <-. assert (NS : forall q r, ~ belongs a q -> strip p q = Some r -> False).
    { intros q r B S. apply strip_spec in S. subst q. apply B, belongs_app. auto. }
    eapply KEEP; [reflexivity| |].
    + intros q B. cbv beta. destruct (strip p q); auto. apply R. auto.
    + eapply FR; [|reflexivity|]; intros q B; cbv beta; destruct (strip p q) eqn:S; auto; elim (NS _ _ B S).
  - destruct G as [G1 G2]. cbn [apply] in *. assert (Rp : W p = V p) by (apply R; auto). assert (Rr : W r = V r) by (apply R; auto).
    assert (NS : forall x q t, belongs a x -> ~ belongs a q -> strip x q = Some t -> False).
    { intros x q t X B S. apply strip_spec in S. subst q. apply B, belongs_app. auto. }
    rewrite Rp in *. destruct (V p) as [[s|]|] eqn:P; try discriminate.
    + destruct (is_dir V (removelast r)) eqn:P1; [|discriminate]. destruct (is_dir V r) eqn:P2; [discriminate|]. injection E as <-.
      assert (Q1 := rel_parent _ _ _ _ R G2 P1). assert (Q2 : is_dir W r = false) by (unfold is_dir in *; rewrite Rr; auto). rewrite Q1, Q2 in *. cbn in *. eapply KEEP; [reflexivity| |].
      * intros q B. destruct R as (R1 & _). unfold set. rewrite R1; auto.
      * eapply FR; [|reflexivity|]; intros q B; rewrite !set_other; auto; intros ->; auto.
    + destruct (is_dir V (removelast r)) eqn:P1; [|discriminate]. assert (Q1 := rel_parent _ _ _ _ R G2 P1). rewrite Q1, Rr in *. destruct (V r) eqn:P2; [discriminate|]. cbn in *. injection E as <-. eapply KEEP; [reflexivity| |].
      * intros q B. destruct R as (R1 & _). cbv beta. destruct (strip r q) as [t|]; [apply R1, belongs_app; auto|]. destruct (strip p q); auto.
      * eapply FR; [|reflexivity|]; intros q B; cbv beta; (destruct (strip r q) eqn:S1; [elim (NS _ _ _ G2 B S1)|]); (destruct (strip p q) eqn:S2; [elim (NS _ _ _ G1 B S2)|]); auto.
Qed.
Lemma run_to_rel extra p os V p' V' : run_to p os V p' V' -> local p -> forall W, rel extra V W -> exists W', run_to p os W p' W' /\ rel extra V' W'.
Proof.
  induction 1 as [p f|o k os f f0 p f' E H IH|o k os f p f' H IH|k os f p f' H IH]; intros HL W R; cbn [local] in HL.
  - exists W. split; [constructor|auto].
  - destruct HL as (G & H1 & _). destruct (apply_rel extra o f f0 W G R E) as (W1 & EW & R1). destruct (IH H1 W1 R1) as (W' & X & Y). exists W'. split; [econstructor; eauto|auto].
  - destruct HL as (_ & _ & H1). destruct (IH H1 W R) as (W' & X & Y). exists W'. split; [econstructor; eauto|auto].
  - destruct HL as (L1 & L2). assert (EQ : k f = k W) by (apply L1; intros q B; destruct R as (R1 & _); rewrite R1; auto).
    destruct (IH (L2 f) W R) as (W' & X & Y). exists W'. split; [constructor; rewrite <- EQ; auto|auto].
Qed.
Lemma run_to_anc p os V p' V' q : run_to p os V p' V' -> local p -> ~ belongs a q -> V' q = V q \/ (V q = None /\ V' q = Some Dir).
Proof.
  induction 1 as [p f|o k os f f0 p f' E H IH|o k os f p f' H IH|k os f p f' H IH]; intros HL NB; cbn [local] in HL; auto.
  - destruct HL as (G & H1 & _). destruct (anc_step o f f0 q G E NB) as [X|[X Y]], (IH H1 NB) as [Z|[Z Z']]; intuition congruence.
  - apply IH; tauto.
  - apply IH; auto. apply HL.
Qed.
End Alone.

Section Programs.
Variable digest : string -> string.
Variable a : path.
Lemma lwrite q s ok fail : belongs a q -> local a ok -> local a fail -> local a (write q s ok fail).
Proof. intros A B C. induction s as [|c s IH]; cbn [write local]; auto. Qed.
Lemma lwrite_ign q s k : belongs a q -> local a k -> local a (write_ignoring q s k).
Proof. intros A B. induction s as [|c s IH]; cbn [write_ignoring local]; auto. Qed.
Hint Resolve belongs_a belongs_tmp belongs_sha belongs_len removelast_below : core.
Lemma ldelete k : local a k -> local a (grader_Delete a k).
Proof. intros H. unfold grader_Delete. cbn [local gallowed]. auto 20. Qed.
Lemma verify_local f g : (forall q, belongs a q -> f q = g q) -> grader_Verify digest a f = grader_Verify digest a g.
Proof. intros H. unfold grader_Verify. rewrite (H a), (H (with_ext a ".sha1")), (H (with_ext a ".len")) by auto. auto. Qed.
Lemma lpersist body trailer total ok : local a (grader_Persist digest a body trailer total ok).
Proof.
  assert (F : local a (Do (Remove (with_ext a ".tmp")) (fun _ => Ret Err))) by (cbn; auto).
  unfold grader_Persist. cbn [local gallowed negb]. split; [auto|]. split; [|auto]. split; [auto|]. split; [|apply F].
  apply lwrite; [auto| |apply lwrite_ign; auto; apply F].
  apply lwrite_ign; [auto|]. destruct ok; cbn [negb]; [|apply F]. cbn [local]. split; [intros f g H; rewrite (H (with_ext a ".tmp")) by auto; auto|].
  intros f. destruct (f _) as [[c|]|]; try apply F.
  cbn [local gallowed negb]. split; [auto|]. split; [|apply F]. apply lwrite; [auto| |apply F].
  cbn [local gallowed negb]. split; [auto|]. split; [|apply F]. apply lwrite; [auto| |apply F].
  cbn [local gallowed negb]. auto 10.
Qed.
Lemma lliteral h t total : local a (literal_grader_Persist a h t total).
Proof.
  unfold literal_grader_Persist. cbn [local gallowed negb]. split; [auto|]. split; [|auto]. split; [auto|]. split; [|auto].
  apply lwrite; [auto| |cbn; auto]. cbn [local gallowed negb]. split; [auto|]. split; [|auto].
  apply lwrite; [auto| |cbn; auto]. cbn [local gallowed negb]. split; [auto|]. split; [|auto].
  apply lwrite; cbn; auto.
Qed.
Lemma lsource s : local a (gsource_add digest a s).
Proof.
  destruct s as [body trailer total ok| |h t total]; cbn [gsource_add].
  - unfold grader_add, add. cbn [local]. split; [intros f g H; rewrite (verify_local f g H); auto|]. intros f. destruct (grader_Verify _ _ _) as [[[z h] l]|]; [cbn; auto|]. apply ldelete, lpersist.
  - unfold grader_cached_add, add. cbn [local]. split; [intros f g H; rewrite (verify_local f g H); auto|]. intros f. destruct (grader_Verify _ _ _) as [[[z h] l]|]; [cbn; auto|]. apply ldelete. cbn. auto.
  - unfold literal_grader_add, add. cbn [local]. split; [auto|]. intros _. apply ldelete, lliteral.
Qed.
End Programs.

(* ---- Among the others ---- *)
Section Among.
Variable digest : string -> string.
Variable root : path.
Variable L : nat.
Hypothesis HL : 2 <= L.
Variable h : string.
Hypothesis Hh : String.length h = L.
Notation a := (archive_path root h).
Lemma a_snoc : exists d n, a = d ++ [n].
Proof. destruct (archive_path_split root h) as (x & n & -> & _); [lia|]. eauto. Qed.
(* What the program of h has done is what it would have done alone, on V0. *)
Definition track (D1 : fs) (p0 : prog) (s : sys) : Prop := exists p os V0 V, In (h, p) (running s) /\ local a p /\ (forall q, belongs a q -> V0 q = D1 q) /\
  run_to p0 os V0 p V /\ (forall q, belongs a q \/ below q a -> V q = disk s q).
Definition over (e : gevent) : Prop := match e with GGet k _ | GDone k => k = h | _ => False end.
Lemma unique_running s p p' : ginv root L s -> In (h, p) (running s) -> In (h, p') (running s) -> p = p'.
Proof.
  intros [ND _ _] A B. revert ND A B. generalize (map fst (cache s)) as c. induction (running s) as [|[k v] l IH]; cbn; [tauto|]. intros c ND A B. inversion ND as [|? ? NI ND']; subst.
  assert (X : forall z, In (h, z) l -> k = h -> False).
  { intros z Hz ->. apply NI, in_app_iff. left. apply in_map_iff. exists (h, z). auto. }
  destruct A as [A|A], B as [B|B]; try (injection A as -> ->); try (injection B as -> ->); auto; try (elim (X _ A eq_refl)); try (elim (X _ B eq_refl)); try congruence. eapply IH; eauto.
Qed.
Lemma update_other {A} (l : list (string * A)) k x p : k <> h -> In (h, p) l -> In (h, p) (update l k x).
Proof.
  intros N. induction l as [|[k' v] l IH]; cbn; [tauto|]. intros [E|E].
  - injection E as -> ->. destruct (String.eqb_spec h k); [congruence|]. left. auto.
  - destruct (k' =? k); [destruct x; [right; auto|auto]|right; auto].
Qed.
Lemma update_same {A} (l : list (string * A)) x p : In (h, p) l -> In (h, x) (update l h (Some x)).
Proof.
  induction l as [|[k' v] l IH]; cbn; [tauto|]. intros [E|E].
  - injection E as -> ->. rewrite String.eqb_refl. left. auto.
  - destruct (String.eqb_spec k' h) as [->|]; [left; auto|right; auto].
Qed.
Lemma track_step D1 p0 s e s' : local a p0 -> ginv root L s -> gstep digest root s e s' -> track D1 p0 s -> ~ over e -> track D1 p0 s'.
Proof.
  intros L0 I HS (p & os & V0 & V & HI & LP & H0 & HR & HV) NO.
  destruct HS as [s k id l HRf HF|s k src HRf HB|s k q0 p' f' HI' HO|s k id z HI' HRf HF|s k HI'|s k id l HRf HI'|s k HRf]; unfold over in NO; cbn [disk running cache] in *;
    try (exists p, os, V0, V; cbn [running disk]; split; [first [assumption|right; assumption|apply update_other; assumption]|auto]; fail).
  destruct (string_dec k h) as [->|NK].
  - rewrite <- (unique_running s p q0 I HI HI') in *. clear HI'.
    assert (S : exists V', op_step p V p' V' /\ local a p' /\ forall q, belongs a q \/ below q a -> V' q = f' q).
    { destruct HO as [c f|o c f f' E|o c f]; cbn [local] in LP.
      - exists V. destruct LP as [L1 L2]. rewrite (L1 f V) by (intros; symmetry; auto). split; [constructor|auto].
      - destruct LP as (G & L1 & _). destruct (apply_rel a a_snoc (fun _ => false) o f f' V G) as (V' & EV & R1 & R2 & _); auto.
        + split; [intros q B; apply HV; auto|]. split; [intros q B _; apply HV; auto|discriminate].
        + exists V'. split; [constructor; auto|]. split; [auto|]. intros q [B|B]; [auto|]. destruct (belongs_dec a q); auto.
      - exists V. split; [constructor|]. split; [tauto|auto]. }
    destruct S as (V' & S1 & S2 & S3). destruct (run_to_snoc _ _ _ _ _ _ _ HR S1) as (os' & X). exists p', os', V0, V'. cbn [running disk].
    split; [eapply update_same; eauto|]. auto.
  - assert (LK : String.length k = L) by (apply (g_len _ _ _ I), in_app_iff; left; apply in_map_iff; exists (k, q0); auto).
    assert (SAME : forall q, belongs a q -> f' q = disk s q).
    { intros q B. assert (NA : ~ belongs (archive_path root k) q) by (intros X; apply NK; eapply belongs_disjoint; [| |exact X|exact B]; lia).
      assert (NB : ~ below q (archive_path root k)) by (apply (belongs_not_above root h k q); auto; lia).
      exact (proj2 (gstep_frame _ _ _ _ _ q (g_conf _ _ _ I _ _ HI') HO) NA NB). }
    assert (ANC : forall q, below q a -> ~ belongs a q -> f' q = disk s q \/ (disk s q = None /\ f' q = Some Dir)).
    { intros q B NB. assert (NA : ~ belongs (archive_path root k) q) by (intros X; apply (belongs_not_above root k h q) in B; auto; lia).
      assert (C := g_conf _ _ _ I _ _ HI'). inversion HO; subst; auto. cbn [gconfined] in C. eapply anc_step; [apply C|eauto|auto]. }
    set (extra := fun q => match disk s q, f' q with None, Some Dir => true | _, _ => false end).
    set (W0 := fun q => if extra q then Some Dir else V0 q).
    assert (EB : forall q, belongs a q -> extra q = false) by (intros q B; unfold extra; rewrite (SAME q B); destruct (disk s q) as [[|]|]; auto).
    assert (R0 : rel a extra V0 W0).
    { split; [intros q B; unfold W0; rewrite EB; auto|]. split; [auto|]. intros q B NB X. left.
      assert (VN : V q = None) by (rewrite HV by auto; unfold extra in X; destruct (disk s q); [discriminate|auto]).
      destruct (run_to_anc a _ _ _ _ _ q HR L0 NB) as [Y|[Y _]]; congruence. }
    destruct (run_to_rel a a_snoc extra _ _ _ _ _ HR L0 W0 R0) as (W & HW & R1 & R2 & _).
    exists p, os, W0, W. cbn [running disk]. split; [apply update_other; auto|]. split; [auto|]. split; [intros q B; unfold W0; rewrite EB; auto|]. split; [auto|].
    intros q Q. destruct (belongs_dec a q) as [B|NB]; [rewrite R1, SAME, HV; auto|]. destruct Q as [B|B]; [contradiction|]. rewrite R2 by auto. unfold extra.
    destruct (ANC q B NB) as [X|[X Y]].
    + rewrite X. rewrite HV by auto. destruct (disk s q) as [[|]|]; auto.
    + rewrite X, Y. auto.
Qed.
End Among.

(* An input that is added among any others, which are added, fail, are released
   and evicted meanwhile, in any interleaving: what it leaves on the disk and the
   error that is returned are those of an execution of its addition alone, without
   a crash, from the files it found when it began. *)
Theorem C32_alone_grader : forall digest root L s0 evs1 s1 hash src s2 evs2 s3 r, 2 <= L ->
  running s0 = [] -> cache s0 = [] -> (forall k x, In (GBegin k x) (evs1 ++ GBegin hash src :: evs2) -> String.length k = L) ->
  gsteps digest root s0 evs1 s1 -> gstep digest root s1 (GBegin hash src) s2 -> gsteps digest root s2 evs2 s3 ->
  (forall id, ~ In (GGet hash id) evs2) -> ~ In (GDone hash) evs2 -> In (hash, Ret r) (running s3) ->
  exists f os g, (forall q, belongs (archive_path root hash) q -> f q = disk s1 q) /\ (forall kept, ~ In (Crashes kept) os) /\
    exec (gsource_add digest (archive_path root hash) src) os f = Finished r g /\
    (forall q, belongs (archive_path root hash) q -> g q = disk s3 q).
Proof.
  intros digest root L s0 evs1 s1 hash src s2 evs2 s3 r HL R0 C0 HF S1 SB S2 NG ND HI.
  assert (Hh : String.length hash = L) by (eapply HF, in_app_iff; right; left; reflexivity).
  assert (FE : forall es, (forall e, In e es -> In e (evs1 ++ GBegin hash src :: evs2)) -> Forall (gfine_event L) es).
  { intros es X. apply Forall_forall. intros e He. destruct e; cbn; auto. eapply HF. apply X. exact He. }
  assert (INV : forall es s s', Forall (gfine_event L) es -> gsteps digest root s es s' -> ginv root L s -> ginv root L s').
  { intros es s s' F H. induction H as [s|s e x es s' H HS IH]; [auto|]. inversion F; subst. intros I. apply IH; auto. eapply gstep_inv; eauto. }
  assert (I0 : ginv root L s0) by (constructor; rewrite R0, ?C0; cbn; [constructor|tauto|tauto]).
  assert (I1 : ginv root L s1) by (eapply INV; [|exact S1|exact I0]; apply FE; intros; apply in_app_iff; auto).
  assert (I2 : ginv root L s2) by (eapply gstep_inv; [exact I1| |exact SB]; exact Hh).
  set (p0 := gsource_add digest (archive_path root hash) src).
  assert (T : track root hash (disk s1) p0 s2).
  { inversion SB; subst. exists p0, [], (disk s1), (disk s1). cbn [running disk]. split; [left; auto|]. split; [apply lsource|]. split; [auto|]. split; [constructor|auto]. }
  assert (T3 : track root hash (disk s1) p0 s3 /\ ginv root L s3).
  { assert (F2 : Forall (gfine_event L) evs2) by (apply FE; intros; apply in_app_iff; right; right; auto). clear - HL Hh S2 NG ND I2 T F2.
    induction S2 as [s|s e x es s' H HS IH]; [auto|]. assert (Fe := Forall_inv F2). apply Forall_inv_tail in F2.
    assert (N1 : forall id, ~ In (GGet hash id) es) by (intros id X; apply (NG id); right; auto). assert (N2 : ~ In (GDone hash) es) by (intros X; apply ND; right; auto).
    assert (J : ginv root L x) by (eapply gstep_inv; eauto).
    assert (T' : track root hash (disk s1) p0 x).
    { assert (L0 : local (archive_path root hash) p0) by apply lsource. assert (NO : ~ over hash e) by (destruct e; cbn; auto; intros ->; [eapply NG|apply ND]; left; reflexivity).
      eapply (track_step digest root L) with (s := s); eauto. }
    auto. }
  destruct T3 as ((p & os & V0 & V & HIp & LP & H0 & HR & HV) & I3).
  assert (EP : p = Ret r) by (eapply (unique_running digest); eauto). rewrite EP in HR. apply run_to_exec in HR. destruct HR as [HE HC].
  exists V0, os, V. split; [exact H0|]. split; [exact HC|]. split; [exact HE|]. intros q B. apply HV. auto.
Qed.
Print Assumptions C32_alone_grader.

(* ---- A case that meets the hypotheses ---- *)
(* After seven operations of the addition of "aabb", "aacc" is looked up, rejected
   and removed; then "aabb" goes on to its end. *)
Example gex_alone : exists s1 s2 evs2 s3 z, gsteps ex_sha1 [] ex_start [] s1 /\ gstep ex_sha1 [] s1 (GBegin "aabb" gex_git) s2 /\ gsteps ex_sha1 [] s2 evs2 s3 /\
  (forall k x, In (GBegin k x) ([] ++ GBegin "aabb" gex_git :: evs2) -> String.length k = 4) /\ (forall id, ~ In (GGet "aabb" id) evs2) /\ ~ In (GDone "aabb") evs2 /\
  In ("aabb", Ret (Nil z)) (running s3) /\ In (GDone "aacc") evs2 /\ disk s3 ["aa"; "bb.tar.gz"] = Some (File "bodyend").
Proof.
  destruct (ex_run_gsteps ex_sha1 [] "aabb" 7 (gsource_add ex_sha1 (archive_path [] "aabb") gex_git) (disk ex_start) [] []) as (m & H).
  set (r := ex_run ex_sha1 7 _ _) in H.
  destruct (ex_run_gsteps ex_sha1 [] "aacc" 60 (gsource_add ex_sha1 (archive_path [] "aacc") CachedArchive) (snd r) [("aabb", fst r)] []) as (m' & H').
  set (r' := ex_run ex_sha1 60 _ (snd r)) in H'. assert (R' : fst r' = Ret Err) by (vm_compute; reflexivity). rewrite R' in H'.
  destruct (ex_run_gsteps ex_sha1 [] "aabb" 90 (fst r) (snd r') [] []) as (m2 & H2).
  set (r2 := ex_run ex_sha1 90 (fst r) (snd r')) in H2. assert (R2 : exists z, fst r2 = Ret (Nil z)) by (eexists; vm_compute; reflexivity). destruct R2 as (z & R2). rewrite R2 in H2.
  eexists ex_start, _, (repeat (GOp "aabb") m ++ ((GBegin "aacc" CachedArchive :: repeat (GOp "aacc") m') ++ [GDone "aacc"]) ++ repeat (GOp "aabb") m2), _, z.
  assert (RO : forall h k x, In x (repeat (GOp h) k) -> x = GOp h) by (intros h k x X; apply repeat_spec in X; auto).
  split; [constructor|]. split; [apply gstep_miss; [reflexivity|intros (p & [])]|]. split.
  { eapply gsteps_app; [exact H|]. eapply gsteps_app; [|exact H2]. eapply gsteps_app; [eapply gsteps_cons; [apply gstep_miss; [reflexivity|]|exact H']|].
    - intros (p & [X|[]]). discriminate.
    - eapply gsteps_cons; [eapply gstep_failed; left; reflexivity|]. constructor. }
  split; [|split; [|split; [|split; [|split]]]].
  - intros k x X. cbn [app] in X. destruct X as [X|X]; [injection X as <- <-; reflexivity|]. rewrite !in_app_iff in X. cbn [In] in X.
    repeat match goal with Q : _ \/ _ |- _ => destruct Q as [Q|Q] | Q : In _ (_ ++ _) |- _ => apply in_app_iff in Q | Q : In _ [_] |- _ => destruct Q as [Q|[]] end; try discriminate; try contradiction; try (apply RO in X; discriminate); try (injection X as <- <-; reflexivity).
  - intros id X. rewrite !in_app_iff in X. cbn [In] in X.
    repeat match goal with Q : _ \/ _ |- _ => destruct Q as [Q|Q] | Q : In _ (_ ++ _) |- _ => apply in_app_iff in Q | Q : In _ [_] |- _ => destruct Q as [Q|[]] end; try discriminate; try contradiction; apply RO in X; discriminate.
  - intros X. rewrite !in_app_iff in X. cbn [In] in X.
    repeat match goal with Q : _ \/ _ |- _ => destruct Q as [Q|Q] | Q : In _ (_ ++ _) |- _ => apply in_app_iff in Q | Q : In _ [_] |- _ => destruct Q as [Q|[]] end; try discriminate; try contradiction; apply RO in X; discriminate.
  - left. reflexivity.
  - rewrite !in_app_iff. right. left. right. left. auto.
  - vm_compute. reflexivity.
Qed.

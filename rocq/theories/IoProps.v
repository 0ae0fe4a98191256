(* C78: the I/O lock of the runner, and preloading. *)
From Coq Require Import String Ascii List Arith Bool ZArith Lia.
From Verif Require Import GoStr InModel InSpec InProofs InRunnerProofs PoolModel PoolProps IoModel IoSpec IoProofs.
Import ListNotations.
Local Open Scope string_scope.

(* What a runner does with inputs of which the hashes have length n and in which no name climbs. *)
Definition runner_execution digest settings_ok root (n : nat) (f : fs) : list (nat * event) -> state -> Prop :=
  execution (runner_code digest settings_ok root (hash_of_length n) inside_source (listed_name n)) (runner_delete root) f.
Definition grader_execution digest archive (f : fs) : list (nat * event) -> state -> Prop :=
  execution (grader_code digest archive) (grader_delete archive) f.

Lemma releases_wf root n : forall k, wf root n (Some 0) k -> forall m, wf root n (Some m) (releases m k).
Proof. intros k W m. induction m; cbn; [auto|constructor; auto]. Qed.
Lemma how_confined digest settings_ok root h src : 2 <= String.length h -> inside_source src -> confined (input_path root h) (runner_how digest settings_ok root h src).
Proof. intros L S. unfold runner_how. destruct (input_path_split root h L) as (a & b & -> & _). apply source_confined. auto. Qed.
Lemma delete_ok root h : 2 <= String.length h -> confined (input_path root h) (runner_delete root h).
Proof. intros L. unfold runner_delete. destruct (input_path_split root h L) as (a & b & -> & _). apply (delete_confined (fun x => x) (fun _ => true)). cbn. auto. Qed.
Lemma unlock_wf root n : wf root n (Some 0) (Unlock ioLock Stop). Proof. repeat constructor. Qed.
Lemma runner_wf digest settings_ok root n c : 2 <= n -> runner_code digest settings_ok root (hash_of_length n) inside_source (listed_name n) c -> wf root n None c.
Proof.
  intros HL [hash src HH HS|cases HC|hashes HF].
  - assert (HN : listed_name n hash) by (left; auto). constructor. constructor; auto; [|repeat constructor|left; apply unlock_wf]. apply how_confined; [|auto]. unfold hash_of_length in HH. lia.
  - constructor. assert (G : forall m, wf root n (Some m) (benchmark_cases m (map (fun c => (fst c, runner_how digest settings_ok root (fst c) (snd c))) cases))); [|apply G].
    induction cases as [|[h src] cases IH]; intros m; cbn; [apply releases_wf, unlock_wf|]. destruct (HC h src) as [HH HS]; [left; auto|]. constructor; [left; auto| | |].
    + apply how_confined; [unfold hash_of_length in HH; lia|auto].
    + constructor; [apply IH; intros; apply HC; right; auto|]. apply (releases_wf root n _ (unlock_wf root n) (S m)).
    + left. apply releases_wf, unlock_wf.
  - induction hashes as [|h hashes IH]; cbn [map PreloadInputs]; [constructor|]. inversion HF as [|? ? LN HF']; subst. constructor. constructor; auto.
    + apply how_confined; [|cbn; auto]. eapply listed_len; eauto.
    + constructor. constructor. auto.
    + right. eexists. split; [reflexivity|]. constructor. auto.
Qed.

(* While a goroutine holds the lock the others do nothing: neither with inputs, nor
   anything else that is done with them. *)
Theorem C78_alone : forall digest settings_ok root n f tr1 i tr2 s, 2 <= n -> runner_execution digest settings_ok root n f (tr1 ++ (i, Locks ioLock) :: tr2) s ->
  ~ In (i, Unlocks ioLock) tr2 -> forall j e, In (j, e) tr2 -> j = i \/ exists c, e = Starts c.
Proof.
  intros digest settings_ok root n f tr1 i tr2 s HL. revert s. induction tr2 as [|[j e] tr2 IH] using rev_ind; intros s E NI; [intros ? ? []|].
  intros j' e' HI. apply in_app_iff in HI. rewrite in_app_iff in NI.
  change (tr1 ++ (i, Locks ioLock) :: tr2 ++ [(j, e)])%list with (tr1 ++ ((i, Locks ioLock) :: tr2) ++ [(j, e)])%list in E. rewrite app_assoc in E. inversion E as [X|tr s0 i0 e0 s1 E0 S A X]; [destruct ((tr1 ++ (i, Locks ioLock) :: tr2)%list); discriminate|].
  apply app_inj_tail in X. destruct X as [-> X]. injection X as -> ->. subst s1. destruct HI as [HI|[HI|[]]]; [eapply IH; eauto|]. injection HI as <- <-.
  assert (I := exec_inv root (runner_delete root) n HL (delete_ok root) _ (fun c => runner_wf _ _ _ _ c HL) _ _ _ E0).
  assert (EL : locked_by s0 ioLock = Some i) by (apply (exec_inside root (runner_delete root) n HL (delete_ok root) _ (fun c => runner_wf _ _ _ _ c HL) _ _ _ _ E0); exists tr1, tr2; auto).
  destruct (holder root (runner_delete root) n _ _ _ _ I S) as [(c & ->)|[[_ X]|X]]; [right; eauto|congruence|left; congruence].
Qed.
(* Everything is done with the lock held. *)
Theorem C78_inside : forall digest settings_ok root n f tr i e s, 2 <= n -> runner_execution digest settings_ok root n f (tr ++ [(i, e)]) s ->
  (exists c, e = Starts c) \/ e = Locks ioLock \/ inside ioLock i tr.
Proof.
  intros digest settings_ok root n f tr i e s HL E. inversion E as [X|tr' s0 i0 e0 s1 E0 S A X]; [destruct tr; discriminate|]. apply app_inj_tail in X. destruct X as [-> X]. injection X as -> ->. subst s1.
  assert (I := exec_inv root (runner_delete root) n HL (delete_ok root) _ (fun c => runner_wf _ _ _ _ c HL) _ _ _ E0).
  rewrite (exec_inside root (runner_delete root) n HL (delete_ok root) _ (fun c => runner_wf _ _ _ _ c HL) _ _ _ _ E0).
  destruct (holder root (runner_delete root) n _ _ _ _ I S) as [X|[[X _]|X]]; auto.
Qed.
(* A reference is given back before the lock is. *)
Theorem C78_released : forall digest settings_ok root n f tr s i hash id, 2 <= n -> runner_execution digest settings_ok root n f tr s ->
  holds i hash id tr -> inside ioLock i tr.
Proof.
  intros digest settings_ok root n f tr s i hash id HL E HO. rewrite (exec_inside root (runner_delete root) n HL (delete_ok root) _ (fun c => runner_wf _ _ _ _ c HL) _ _ _ _ E).
  apply (exec_held root (runner_delete root) n HL (delete_ok root) _ (fun c => runner_wf _ _ _ _ c HL) _ _ _ _ _ _ E HO).
Qed.
Lemma execution_goes allowed delete f tr s tr' s' : execution allowed delete f tr s -> goes allowed delete s tr' s' -> execution allowed delete f (tr ++ tr') s'.
Proof. intros E. induction 1; [rewrite app_nil_r; auto|]. rewrite app_assoc. econstructor; eauto. Qed.
(* As long as a reference is held nothing changes the input's files. *)
Theorem C78_held : forall digest settings_ok root n f tr s tr' s' i hash id q, 2 <= n ->
  runner_execution digest settings_ok root n f tr s -> goes (runner_code digest settings_ok root (hash_of_length n) inside_source (listed_name n)) (runner_delete root) s tr' s' ->
  holds i hash id tr -> ~ In (i, Releases hash id) tr' -> hash_of_length n hash -> files_of root hash q -> disk s' q = disk s q.
Proof.
  intros digest settings_ok root n f tr s tr' s' i hash id q HL E G HO NI HN F. induction G as [|tr' s1 j e s2 G IH S A]; [auto|].
  rewrite in_app_iff in NI. rewrite <- IH by auto. assert (E1 := execution_goes _ _ _ _ _ _ _ E G).
  assert (I := exec_inv root (runner_delete root) n HL (delete_ok root) _ (fun c => runner_wf _ _ _ _ c HL) _ _ _ E1).
  assert (HO1 : holds i hash id (tr ++ tr')).
  { destruct HO as (t1 & t2 & -> & X). exists t1, (t2 ++ tr')%list. split; [rewrite <- app_assoc; auto|]. rewrite in_app_iff. tauto. }
  destruct (exec_held root (runner_delete root) n HL (delete_ok root) _ (fun c => runner_wf _ _ _ _ c HL) _ _ _ _ _ _ E1 HO1) as (_ & l & ER & IL).
  assert (NE : e <> Evicts hash). { intros ->. inversion S; subst. assert (l = []) by congruence. subst. destruct IL. }
  apply (step_intact root (runner_delete root) n HL s1 j e s2 hash); auto. unfold in_cache. apply in_map_iff. exists (hash, l). split; [auto|apply IoProofs.refs_in; auto].
Qed.
(* Nor as long as it is not evicted: a cached input stays as it was when it was added. *)
Theorem C78_kept : forall digest settings_ok root n f tr s tr' s' hash q, 2 <= n ->
  runner_execution digest settings_ok root n f tr s -> goes (runner_code digest settings_ok root (hash_of_length n) inside_source (listed_name n)) (runner_delete root) s tr' s' ->
  IoModel.refs s hash <> None -> (forall i, ~ In (i, Evicts hash) tr') -> hash_of_length n hash -> files_of root hash q -> disk s' q = disk s q /\ IoModel.refs s' hash <> None.
Proof.
  intros digest settings_ok root n f tr s tr' s' hash q HL E G HO NI HN F. induction G as [|tr' s1 j e s2 G IH S A]; [auto|].
  destruct IH as [IH1 IH2]; [intros i X; apply (NI i), in_app_iff; auto|]. assert (E1 := execution_goes _ _ _ _ _ _ _ E G).
  assert (I := exec_inv root (runner_delete root) n HL (delete_ok root) _ (fun c => runner_wf _ _ _ _ c HL) _ _ _ E1).
  destruct (step_intact root (runner_delete root) n HL s1 j e s2 hash) as [X Y]; auto.
  - destruct (IoModel.refs s1 hash) as [l|] eqn:ER; [|congruence]. apply in_map_iff. exists (hash, l). split; [auto|apply IoProofs.refs_in; auto].
  - intros ->. apply (NI j), in_app_iff. right. left. auto.
  - split; [rewrite X; auto|]. intros Z. apply refs_none in Z. auto.
Qed.
(* No deadlock: unless everything has ended something can go on. *)
Theorem C78_not_stuck : forall digest settings_ok root n f tr s, 2 <= n -> runner_execution digest settings_ok root n f tr s -> ~ all_ended s ->
  exists i e s', step (runner_delete root) s i e s' /\ forall c, e <> Starts c.
Proof.
  intros digest settings_ok root n f tr s HL E NE.
  assert (I := exec_inv root (runner_delete root) n HL (delete_ok root) _ (fun c => runner_wf _ _ _ _ c HL) _ _ _ E).
  destruct (not_stuck root (runner_delete root) n HL s I NE) as (s' & i & e & S & NS). exists i, e, s'. split; [auto|]. intros c ->. apply NS. exists c. auto.
Qed.
(* And nothing goes on for ever: what has been started ends, however it is scheduled. *)
Theorem C78_ends : forall digest settings_ok root n f tr s, 2 <= n -> runner_execution digest settings_ok root n f tr s ->
  forall g : nat -> state, g 0 = s -> ~ (forall k, exists i e, step (runner_delete root) (g k) i e (g (S k)) /\ forall c, e <> Starts c).
Proof.
  intros digest settings_ok root n f tr s HL E g G0 H.
  assert (I := exec_inv root (runner_delete root) n HL (delete_ok root) _ (fun c => runner_wf _ _ _ _ c HL) _ _ _ E).
  assert (AC := ends root (runner_delete root) n HL (delete_ok root) s I).
  assert (X : forall s, Acc (next (runner_delete root)) s -> forall k, g k <> s).
  { clear - H. intros s A. induction A as [s _ IH]. intros k EK. destruct (H k) as (i & e & ST & NS). apply (IH (g (S k))) with (k := S k); [|auto]. exists i, e. rewrite EK in ST. split; [auto|]. intros (c & ->). apply (NS c). auto. }
  apply (X s AC 0 G0).
Qed.
(* Then every reference has been given back, and the lock. *)
Theorem C78_all_back : forall digest settings_ok root n f tr s, 2 <= n -> runner_execution digest settings_ok root n f tr s -> all_ended s ->
  (forall i hash id, ~ holds i hash id tr) /\ (forall i, ~ inside ioLock i tr) /\ forall hash l, IoModel.refs s hash = Some l -> l = [].
Proof.
  intros digest settings_ok root n f tr s HL E AE.
  assert (I := exec_inv root (runner_delete root) n HL (delete_ok root) _ (fun c => runner_wf _ _ _ _ c HL) _ _ _ E).
  assert (EX := fun i => exec_inside root (runner_delete root) n HL (delete_ok root) _ (fun c => runner_wf _ _ _ _ c HL) _ _ _ i E).
  assert (V := v_lock _ _ _ I). destruct (locked_by s ioLock) as [i|] eqn:EL.
  - exfalso. destruct V as (t & N & _ & _ & D). destruct (AE i t N) as (A & B & C). unfold doing_ok in D. rewrite C, A in D. destruct D as [D|(h & k & D & _)]; [inversion D|discriminate].
  - split; [|split].
    + intros i h id HO. destruct (exec_held root (runner_delete root) n HL (delete_ok root) _ (fun c => runner_wf _ _ _ _ c HL) _ _ _ _ _ _ E HO). congruence.
    + intros i X. apply EX in X. congruence.
    + intros h l R. apply IoProofs.refs_in in R. eauto.
Qed.

(* ---- cases ---- *)
Lemma creates allowed delete n : forall p s i c h hash, nth_error (threads s) i = Some {| now := c; held := h; busy_with := Creating hash p |} ->
  exists tr s', goes allowed delete s tr s' /\ Forall (fun x => x = (i, Operates)) tr /\ disk s' = snd (ex_run (fun x => x) n p (disk s)) /\ IoModel.cache s' = IoModel.cache s /\ locked_by s' = locked_by s /\
    threads s' = put i {| now := c; held := h; busy_with := Creating hash (fst (ex_run (fun x => x) n p (disk s))) |} (threads s).
Proof.
  assert (PP : forall A i (a b : A) l, put i a (put i b l) = put i a l) by (clear; intros A i; induction i as [|i IH]; intros a b [|x l]; cbn; auto; f_equal; auto).
  assert (PS : forall A i (a : A) l, nth_error l i = Some a -> put i a l = l) by (clear; intros A i; induction i as [|i IH]; intros a [|x l]; cbn; intros; try discriminate; f_equal; auto; congruence).
  assert (CONS : forall s i e s1 tr s2, step delete s i e s1 -> (forall c, e <> Starts c) -> goes allowed delete s1 tr s2 -> goes allowed delete s ((i, e) :: tr) s2).
  { clear. intros s i e s1 tr s2 S N. induction 1 as [|tr s3 j e' s4 G IH S' A']; [apply (goes_snoc _ _ _ [] s); [constructor|auto|intros c X; elim (N c X)]|]. change ((i, e) :: tr ++ [(j, e')])%list with (((i, e) :: tr) ++ [(j, e')])%list. econstructor; eauto. }
  induction n as [|n IH]; intros p s i c h hash N; [exists [], s; cbn; rewrite PS by auto; repeat split; auto; constructor|].
  destruct p as [r|o k|k]; cbn [ex_run].
  - exists [], s. cbn. rewrite PS by auto. repeat split; auto. constructor.
  - destruct (apply o (disk s)) as [f'|] eqn:EA.
    + destruct (IH (k true) (thread_does s i {| now := c; held := h; busy_with := Creating hash (k true) |} f' (IoModel.cache s) (locked_by s)) i c h hash) as (tr & s' & G & F & D & C & LK & T); [cbn; eapply put_same; eauto|].
      exists ((i, Operates) :: tr), s'. split; [eapply CONS; [eapply does_create; [exact N|apply op_works; exact EA]|discriminate|exact G]|]. split; [constructor; auto|]. cbn in *. rewrite PP in T. auto.
    + destruct (IH (k false) (thread_does s i {| now := c; held := h; busy_with := Creating hash (k false) |} (disk s) (IoModel.cache s) (locked_by s)) i c h hash) as (tr & s' & G & F & D & C & LK & T); [cbn; eapply put_same; eauto|].
      exists ((i, Operates) :: tr), s'. split; [eapply CONS; [eapply does_create; [exact N|apply op_fails]|discriminate|exact G]|]. split; [constructor; auto|]. cbn in *. rewrite PP in T. auto.
  - destruct (IH (k (disk s)) (thread_does s i {| now := c; held := h; busy_with := Creating hash (k (disk s)) |} (disk s) (IoModel.cache s) (locked_by s)) i c h hash) as (tr & s' & G & F & D & C & LK & T); [cbn; eapply put_same; eauto|].
    exists ((i, Operates) :: tr), s'. split; [eapply CONS; [eapply does_create; [exact N|apply op_look]|discriminate|exact G]|]. split; [constructor; auto|]. cbn in *. rewrite PP in T. auto.
Qed.
Lemma goes_one allowed delete s tr s1 i e s2 : goes allowed delete s tr s1 -> step delete s1 i e s2 -> (forall c, e = Starts c -> allowed c) -> goes allowed delete s (tr ++ [(i, e)]) s2.
Proof. intros. econstructor; eauto. Qed.
Lemma goes_app allowed delete s tr1 s1 tr2 s2 : goes allowed delete s tr1 s1 -> goes allowed delete s1 tr2 s2 -> goes allowed delete s (tr1 ++ tr2) s2.
Proof. intros G. induction 1; [rewrite app_nil_r; auto|]. rewrite app_assoc. econstructor; eauto. Qed.
Lemma goes_start allowed delete f tr s : goes allowed delete (start f) tr s -> execution allowed delete f tr s.
Proof. induction 1; [constructor|]. econstructor; eauto. Qed.

(* The same is not so in the grader, where the preloading does not share a lock with the
   others: an archive that somebody has just made and uses is removed. *)
Definition io_archive (hash : string) : path := ["cache"; hash].
Definition io_disk : fs := fun q => match q with [] => Some Dir | _ => if list_eq_dec string_dec q ["cache"] then Some Dir else None end.
Definition io_run1 := ex_run (fun x => x) 60 (grader_cached_add (fun x => x) (io_archive "a.tar.gz")) io_disk.
Definition io_run2 := ex_run (fun x => x) 90 (grader_add (fun x => x) (io_archive "a.tar.gz") "b" "t" 1%Z true) (snd io_run1).
Lemma io_1 : fst io_run1 = Ret Err. Proof. vm_compute. reflexivity. Qed.
Lemma io_2 : fst io_run2 = Ret (Nil (Some 2%Z)). Proof. vm_compute. reflexivity. Qed.
Lemma io_3 : snd io_run2 (io_archive "a.tar.gz") = Some (File "bt"). Proof. vm_compute. reflexivity. Qed.
Lemma removes s i p k : nth_error (threads s) i = Some {| now := RemoveEntry p k; held := []; busy_with := Nothing |} -> forall delete,
  step delete s i (Removes p) (thread_does s i {| now := k; held := []; busy_with := Nothing |} (fun q => match strip p q with Some _ => None | None => disk s q end) (IoModel.cache s) (locked_by s)).
Proof. intros N delete. apply does_remove; [auto|]. intros q. destruct (strip p q) eqn:E; [right; split; [congruence|auto]|auto]. Qed.
Theorem C78_preload_refuted : ~ (forall digest archive f tr s tr' s' i hash id,
  grader_execution digest archive f tr s -> goes (grader_code digest archive) (grader_delete archive) s tr' s' ->
  holds i hash id tr -> ~ In (i, Releases hash id) tr' -> disk s' (archive hash) = disk s (archive hash)).
Proof.
  intros H.
  pose (dg := fun x : string => x). set (h := "a.tar.gz").
  set (pre := PreloadInputs 1 [(h, grader_cached_add dg (io_archive h), io_archive h)]).
  set (use := Add h (grader_add dg (io_archive h) "b" "t" 1%Z true) (Work (IoModel.Release Stop) (IoModel.Release Stop)) Stop).
  assert (AP : grader_code dg io_archive pre) by (apply (is_grader_preload dg io_archive [h])).
  assert (AU : grader_code dg io_archive use) by apply is_use.
  set (al := grader_code dg io_archive). set (del := grader_delete io_archive).
  (* the preloading starts, and finds nothing it can use *)
  assert (G := goes_nil al del (start io_disk)).
  eapply goes_one in G; [|apply (does_start del _ pre)|intros c X; injection X as <-; exact AP]. cbn in G.
  eapply goes_one in G; [|eapply (does_lock del _ 0); [reflexivity|reflexivity]|discriminate]. cbn in G.
  eapply goes_one in G; [|eapply (does_miss del _ 0); [reflexivity|reflexivity|]|discriminate].
  2: { intros (j & t & p & N & B). destruct j as [|[|j]]; cbn in N; try discriminate. injection N as <-. cbn in B. destruct B; discriminate. }
  unfold thread_does in G. cbn [app threads put disk IoModel.cache locked_by] in G.
  match type of G with goes _ _ _ _ ?s => destruct (creates al del 60 (grader_cached_add dg (io_archive h)) s 0 _ _ _ eq_refl) as (tr1 & s1 & G1 & F1 & D1 & C1 & L1 & T1) end.
  cbn [disk] in D1, T1. cbn [threads put] in T1. cbn [IoModel.cache] in C1. cbn [locked_by] in L1.
  change (fst (ex_run (fun x => x) 60 _ io_disk)) with (fst io_run1) in T1. rewrite io_1 in T1.
  change (snd (ex_run (fun x => x) 60 _ io_disk)) with (snd io_run1) in D1.
  assert (G2 := goes_app _ _ _ _ _ _ _ G G1). clear G G1.
  eapply goes_one in G2; [|eapply (does_fail del _ 0); rewrite T1; reflexivity|discriminate].
  unfold thread_does in G2. rewrite T1, C1, D1 in G2. cbn [put] in G2.
  (* somebody else makes it *)
  eapply goes_one in G2; [|apply (does_start del _ use)|intros c X; injection X as <-; exact AU].
  cbn [app threads disk IoModel.cache locked_by Datatypes.length] in G2.
  eapply goes_one in G2; [|eapply (does_miss del _ 1); [reflexivity|reflexivity|]|discriminate].
  2: { intros (j & t & p & N & B). destruct j as [|[|j]]; cbn in N; [| |destruct j; discriminate]; injection N as <-; cbn in B; destruct B; discriminate. }
  unfold thread_does in G2. cbn [app threads disk IoModel.cache locked_by put] in G2.
  match type of G2 with goes _ _ _ _ ?s => destruct (creates al del 90 (grader_add dg (io_archive h) "b" "t" 1%Z true) s 1 _ _ _ eq_refl) as (tr2 & s2 & G3 & F2 & D2 & C2 & L2 & T2) end.
  cbn [disk] in D2, T2. cbn [threads put] in T2. cbn [IoModel.cache] in C2.
  change (fst (ex_run (fun x => x) 90 _ (snd io_run1))) with (fst io_run2) in T2. rewrite io_2 in T2.
  change (snd (ex_run (fun x => x) 90 _ (snd io_run1))) with (snd io_run2) in D2. assert (R3 := io_3). rewrite <- D2 in R3.
  assert (G4 := goes_app _ _ _ _ _ _ _ G2 G3). clear G2 G3.
  eapply goes_one in G4; [|eapply (does_add del _ 1 _ _ _ _ _ 7); [rewrite T2; reflexivity|unfold IoModel.refs; rewrite C2; reflexivity|unfold unused; rewrite C2; intros ? ? []]|discriminate].
  unfold thread_does in G4. rewrite T2, C2 in G4. cbn [put] in G4.
  (* and the preloading removes it *)
  match type of G4 with goes _ _ _ ?tr ?s => assert (G5 : goes al del s [(0, Removes (io_archive h))] (thread_does s 0 {| now := Unlock 1 Stop; held := []; busy_with := Nothing |} (fun q => match strip (io_archive h) q with Some _ => None | None => disk s q end) (IoModel.cache s) (locked_by s))) by (apply (goes_snoc _ _ _ [] s); [constructor|apply removes; reflexivity|discriminate]);
    assert (X := H dg io_archive io_disk tr s _ _ 1 h 7 (goes_start _ _ _ _ _ G4) G5) end.
  match type of X with ?P -> _ => assert (HP : P) by (eexists; exists []; split; [reflexivity|intros []]) end. specialize (X HP).
  match type of X with ?P -> _ => assert (HQ : P) by (intros [Q|[]]; discriminate) end. specialize (X HQ).
  unfold thread_does in X. cbn [disk] in X. subst h. rewrite R3 in X. assert (E : strip (io_archive "a.tar.gz") (io_archive "a.tar.gz") = Some []) by reflexivity. rewrite E in X. discriminate.
Qed.
(* A run of a runner: the input is made and held; then the preloading of that input and of
   what is left of another is started, and has to wait while the run is judged. *)
Definition io_src := InMemory [("in", "x")].
Definition io_run3 := ex_run (fun x => x) 60 (runner_how ex_sha1 ex_ok [] "aabb" io_src) io_disk.
Lemma io_4 : fst io_run3 = Ret (Nil (Some 10%Z)). Proof. vm_compute. reflexivity. Qed.
Lemma io_5 : snd io_run3 ["aa"; "bb"; "in"] = Some (File "x"). Proof. vm_compute. reflexivity. Qed.
Example io_case : exists tr s tr' s', runner_execution ex_sha1 ex_ok [] 4 io_disk tr s /\
  goes (runner_code ex_sha1 ex_ok [] (hash_of_length 4) inside_source (listed_name 4)) (runner_delete []) s tr' s' /\
  holds 0 "aabb" 7 tr /\ ~ In (0, Releases "aabb" 7) tr' /\ In (0, Works true) tr' /\ ~ all_ended s' /\ files_of [] "aabb" ["aa"; "bb"; "in"] /\ disk s' ["aa"; "bb"; "in"] = Some (File "x").
Proof.
  set (al := runner_code ex_sha1 ex_ok [] (hash_of_length 4) inside_source (listed_name 4)). set (del := runner_delete []).
  assert (A1 : al (gradeRun "aabb" (runner_how ex_sha1 ex_ok [] "aabb" io_src))).
  { apply is_run; [reflexivity|]. intros x [<-|[]]. cbn. unfold InSpec.inside. vm_compute. intuition discriminate. }
  assert (A2 : al (PreloadInputs ioLock (map (fun h => (h, runner_how ex_sha1 ex_ok [] h Cached, input_path [] h)) ["aabb"; "aacc.tmp"]))).
  { apply is_preload. constructor; [left; reflexivity|]. constructor; [right; exists "aacc"; split; reflexivity|constructor]. }
  assert (G := goes_nil al del (start io_disk)).
  eapply goes_one in G; [|eapply does_start|intros c X; injection X as <-; exact A1]. cbn [start threads Datatypes.length app disk IoModel.cache locked_by] in G. unfold gradeRun in G.
  eapply goes_one in G; [|eapply (does_lock del _ 0); [reflexivity|reflexivity]|discriminate].
  unfold thread_does in G. cbn [app threads put disk IoModel.cache locked_by] in G.
  eapply goes_one in G; [|eapply (does_miss del _ 0); [reflexivity|reflexivity|]|discriminate].
  2: { intros (j & t & p & N & B). destruct j as [|[|j]]; cbn in N; try discriminate. injection N as <-. cbn in B. destruct B; discriminate. }
  unfold thread_does in G. cbn [app threads put disk IoModel.cache locked_by] in G.
  match type of G with goes _ _ _ _ ?s => destruct (creates al del 60 (runner_how ex_sha1 ex_ok [] "aabb" io_src) s 0 _ _ _ eq_refl) as (tr1 & s1 & G1 & F1 & D1 & C1 & L1 & T1) end.
  cbn [disk] in D1, T1. cbn [threads put] in T1. cbn [IoModel.cache] in C1.
  change (fst (ex_run (fun x => x) 60 _ io_disk)) with (fst io_run3) in T1. rewrite io_4 in T1. change (snd (ex_run (fun x => x) 60 _ io_disk)) with (snd io_run3) in D1.
  assert (G2 := goes_app _ _ _ _ _ _ _ G G1). clear G G1.
  eapply goes_one in G2; [|eapply (does_add del _ 0 _ _ _ _ _ 7); [rewrite T1; reflexivity|unfold IoModel.refs; rewrite C1; reflexivity|unfold unused; rewrite C1; intros ? ? []]|discriminate].
  unfold thread_does in G2. rewrite T1, C1, D1 in G2. cbn [put] in G2.
  match type of G2 with goes _ _ _ ?tr ?s => assert (G3 := goes_nil al del s); assert (HO : holds 0 "aabb" 7 tr) by (eexists; exists []; split; [reflexivity|intros []]) end.
  eapply goes_one in G3; [|eapply does_start|intros c X; injection X as <-; exact A2].
  eapply goes_one in G3; [|eapply (does_work del _ 0 _ _ _ true); reflexivity|discriminate].
  do 4 eexists. split; [apply goes_start; exact G2|]. split; [exact G3|]. split; [exact HO|]. cbn [app Datatypes.length threads thread_does disk].
  split; [intros [X|[X|[]]]; discriminate|]. split; [right; left; reflexivity|]. split; [intros X; destruct (X 0 _ eq_refl) as (Y & _); discriminate|]. split; [left; exists ["in"]; reflexivity|apply io_5].
Qed.

Print Assumptions C78_alone.
Print Assumptions C78_inside.
Print Assumptions C78_released.
Print Assumptions C78_held.
Print Assumptions C78_kept.
Print Assumptions C78_not_stuck.
Print Assumptions C78_ends.
Print Assumptions C78_all_back.
Print Assumptions C78_preload_refuted.

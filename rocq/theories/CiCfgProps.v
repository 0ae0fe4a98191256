(* C52, C53: configuring a continuous integration run, its URL and directory. *)
From Coq Require Import String Ascii List Bool ZArith QArith Lia.
From Verif Require Import GoStr LitModel CiModel CiSpec.
Import ListNotations.
Local Open Scope string_scope.

Lemma bind_config {A B} (x : cfg A) (k : A -> cfg B) y : bind x k = Config y -> exists a, x = Config a /\ k a = Config y.
Proof. destruct x; cbn; try discriminate. eauto. Qed.
Lemma blob_config c p s : getBlobContents c p = Config s <-> blob c p = Some s.
Proof. unfold getBlobContents. destruct (blob c p); split; congruence. Qed.
Ltac steps := repeat match goal with
  | H : bind _ _ = Config _ |- _ => apply bind_config in H; destruct H as (? & ? & ?)
  | H : getBlobContents _ _ = Config _ |- _ => rewrite blob_config in H
  end.

Lemma set_case_names m k v n : In n (map fst (set_case m k v)) <-> n = k \/ In n (map fst m).
Proof.
  induction m as [|(k' & v') m IH]; cbn; [intuition|]. destruct (String.eqb_spec k k') as [->|N]; cbn; [intuition|]. rewrite IH. intuition.
Qed.
Lemma set_case_nodup m k v : NoDup (map fst m) -> NoDup (map fst (set_case m k v)).
Proof.
  induction m as [|(k' & v') m IH]; cbn; intros H; [constructor; [tauto|constructor]|]. inversion H; subst.
  destruct (String.eqb_spec k k') as [->|N]; cbn; [constructor; auto|]. constructor; [|auto]. rewrite set_case_names. intuition.
Qed.
Lemma set_case_in m k v n x : NoDup (map fst m) -> In (n, x) (set_case m k v) -> (n = k /\ x = Some v) \/ n <> k /\ In (n, x) m.
Proof.
  induction m as [|(k' & v') m IH]; cbn; intros ND; [intuition congruence|]. inversion ND; subst.
  destruct (String.eqb_spec k k') as [->|NE]; cbn; intros [E|I].
  - left. split; congruence.
  - right. split; [|auto]. intros ->. apply H1. apply in_map_iff. exists (k', x). auto.
  - right. split; [congruence|auto].
  - destruct (IH H2 I) as [?|[? ?]]; auto.
Qed.

Definition cases_inv (c : commit) (l : list (string * option Q)) (m : list (string * option literal_case)) : Prop :=
  NoDup (map fst m) /\ (forall n, In n (map fst m) <-> In n (map fst l)) /\
  (forall n x, In (n, x) m -> exists lc, x = Some lc /\ blob c ("cases/" ++ n ++ ".in") = Some (Input lc) /\ blob c ("cases/" ++ n ++ ".out") = Some (ExpectedOutput lc) /\ last_of n (Weight lc) l).
Lemma read_cases_ok c : forall todo before m r, read_cases c todo m = Config r -> cases_inv c before m -> cases_inv c (before ++ todo)%list r.
Proof.
  induction todo as [|(n & w) todo IH]; cbn [read_cases]; intros before m r H I; [injection H as <-; rewrite app_nil_r; auto|].
  steps. change (before ++ (n, w) :: todo)%list with (before ++ [(n, w)] ++ todo)%list. rewrite app_assoc. eapply IH; [eassumption|].
  destruct I as (ND & NM & FS). split; [apply set_case_nodup; auto|]. split.
  - intros k. rewrite set_case_names, map_app, in_app_iff, NM. cbn. intuition.
  - intros k y Y. apply set_case_in in Y as [[-> ->]|[NK Y]]; [| |exact ND].
    + eexists. split; [reflexivity|]. cbn. split; [auto|]. split; [auto|]. exists before, []. split; [reflexivity|cbn; tauto].
    + apply FS in Y as (lc & -> & A & B & pre & post & -> & D). exists lc. repeat split; auto. exists pre, (post ++ [(n, w)])%list.
      rewrite <- app_assoc. split; [reflexivity|]. rewrite map_app, in_app_iff. cbn. intuition.
Qed.
Lemma read_cases_spec c groups r : read_cases c (concat groups) [] = Config r -> problem_cases c groups r.
Proof.
  intros H. apply (read_cases_ok c _ []) in H as (A & B & C); [constructor; auto|]. split; [constructor|]. split; [cbn; tauto|]. intros n x [].
Qed.
Lemma read_validator_spec c s v : read_validator c s = Config v -> problem_validator c s v.
Proof.
  unfold read_validator, problem_validator. destruct (String.eqb_spec (ps_ValidatorName s) "custom") as [E|N].
  - destruct (ps_ValidatorLang s) as [lang|]; [|discriminate]. intros H. steps. injection H0 as <-. cbn. rewrite E in *. repeat split; try tauto; try congruence.
    intros _. do 2 eexists. repeat split. auto.
  - intros [= <-]. cbn. repeat split; try tauto.
Qed.
Lemma read_interactive_spec c s i : read_interactive c s = Config i -> problem_interactive c s i.
Proof.
  unfold read_interactive, problem_interactive. destruct (ps_Interactive s) as [(m & p)|]; [|congruence]. intros H. steps. injection H1 as <-.
  eexists. repeat split; cbn; auto.
Qed.

Lemma ext_spec s e : ext s = Some e <-> has_ext s e.
Proof.
  unfold has_ext. revert e. induction s as [|a s IH]; intros e; cbn [ext].
  - split; [discriminate|]. intros (b & E & _). destruct b; discriminate.
  - destruct (ext s) as [e'|] eqn:X.
    + destruct (proj1 (IH e') eq_refl) as (b & ES & H1 & H2). split.
      * intros [= <-]. exists (String a b). rewrite ES. auto.
      * intros (b' & E & G1 & G2). destruct b' as [|a' b']; cbn in E; injection E as -> E.
        -- exfalso. apply G1. rewrite <- E, ES. apply contains_app. right. cbn. apply contains_cons. auto.
        -- assert (K : Some e' = Some e) by (apply IH; exists b'; auto). exact K.
    + split.
      * destruct (Ascii.eqb_spec a "."%char) as [->|]; cbn [andb]; [|discriminate]. destruct (existsb _ _) eqn:S; cbn [negb]; [discriminate|]. intros [= <-].
        exists "". split; [auto|]. assert (NS : ~ contains "/"%char s).
        { intros C. rewrite <- Bool.not_true_iff_false in S. apply S. apply existsb_exists. exists "/"%char. split; [exact C|apply Ascii.eqb_refl]. }
        split; [|auto]. intros C.
        assert (P : forall t, contains "."%char t -> ~ contains "/"%char t -> exists b e', t = b ++ "." ++ e' /\ ~ contains "."%char e' /\ ~ contains "/"%char e').
        { clear. induction t as [|a t IH]; intros C N; [destruct C|]. rewrite contains_cons in N. apply Decidable.not_or in N as [N1 N2].
          destruct (in_dec ascii_dec "."%char (list_ascii_of_string t)) as [I|I].
          - destruct (IH I N2) as (b & e' & -> & Q). exists (String a b), e'. auto.
          - apply contains_cons in C as [<-|C]; [|contradiction]. exists "", t. auto. }
        destruct (P s C NS) as (b & e' & Q). assert (None = Some e') by (apply IH; eauto). discriminate.
      * intros (b & E & G1 & G2). destruct b as [|a' b]; cbn in E; injection E as -> E; subst s.
        -- cbn [Ascii.eqb Bool.eqb andb]. replace (existsb _ _) with false; [reflexivity|]. symmetry. apply Bool.not_true_iff_false. intros T. apply existsb_exists in T as (x & I & Y). apply Ascii.eqb_eq in Y as <-. auto.
        -- assert (None = Some e) by (apply IH; exists b; auto). discriminate.
Qed.
Lemma language_spec f l lang : language_of f l = Config lang <-> written_in f l lang.
Proof.
  unfold language_of, written_in. destruct (String.eqb_spec l "") as [->|N].
  - destruct (ext f) as [e|] eqn:E.
    + split.
      * intros [= <-]. right. split; [auto|]. exists e. apply ext_spec in E. auto.
      * intros [[] | (_ & e' & H & ->)]; [congruence|]. apply ext_spec in H. rewrite E in H. injection H as ->. reflexivity.
    + split; [discriminate|]. intros [[] | (_ & e' & H & ->)]; [congruence|]. apply ext_spec in H. congruence.
  - split; [intros [= <-]; auto|]. intros [[_ ->]|[? _]]; [auto|congruence].
Qed.

Lemma read_solutions_spec c s input l ts : problem_input c s input -> read_solutions c input l = Config ts -> Forall2 (solution_test c s) l ts.
Proof.
  intros I. revert ts. induction l as [|ss l IH]; cbn [read_solutions]; intros ts H; [injection H as <-; constructor|]. steps. injection H2 as <-.
  constructor; [|auto]. constructor; cbn; auto. apply language_spec. auto.
Qed.

(* Every test that a commit's tests.json lists is run, in order, with the source
   and language it names, on the cases, limits, validator and interactive part of
   the commit's settings; then the inputs validator, if there is one. *)
Theorem C52_tests_of_a_commit : forall copy c ts, createCIRunConfigFromGit copy (Some (Some c)) = Config ts ->
  exists sols inp s, tests_json c = Some (sols, inp) /\ settings_json c = Some s /\
  exists ts1 ts2, ts = (ts1 ++ ts2)%list /\ Forall2 (solution_test c s) sols ts1 /\
    match inp with None => ts2 = [] | Some i => exists t, ts2 = [t] /\ inputs_test copy c s i t end.
Proof.
  intros copy c ts H. cbn in H. destruct (tests_json c) as [(sols & inp)|]; [|discriminate]. destruct (settings_json c) as [s|]; [|discriminate].
  steps. injection H4 as <-. exists sols, inp, s. split; [auto|]. split; [auto|].
  apply read_cases_spec in H. apply read_validator_spec in H0. apply read_interactive_spec in H1.
  assert (I : problem_input c s {| Cases := x; Limits := Some (ps_Limits s); Validator := Some x0; Interactive := x1 |}).
  { split; [auto|]. split; [auto|]. split; [eexists; split; [reflexivity|auto]|auto]. }
  exists x2, x3. split; [auto|]. split; [eapply read_solutions_spec; eauto|].
  unfold read_inputs in H3. destruct inp as [i|]; [|congruence]. steps. injection H5 as <-. eexists. split; [reflexivity|].
  apply language_spec in H3. constructor; cbn; auto. do 2 eexists. split; [reflexivity|]. auto.
Qed.
Print Assumptions C52_tests_of_a_commit.

Lemma read_cases_total c l : (forall n w, In (n, w) l -> blob c ("cases/" ++ n ++ ".in") <> None /\ blob c ("cases/" ++ n ++ ".out") <> None) -> forall m, exists r, read_cases c l m = Config r.
Proof.
  induction l as [|(n & w) l IH]; cbn [read_cases]; intros H m; [eauto|]. destruct (H n w) as [A B]; [left; auto|].
  unfold getBlobContents. destruct (blob c ("cases/" ++ n ++ ".in")); [|congruence]. destruct (blob c ("cases/" ++ n ++ ".out")); [|congruence]. cbn [bind]. apply IH. intros. apply (H n0 w0). right. auto.
Qed.
Lemma read_cases_either c l : forall m, (exists r, read_cases c l m = Config r) \/ read_cases c l m = Fail.
Proof.
  induction l as [|(n & w) l IH]; cbn [read_cases]; intros m; [eauto|]. unfold getBlobContents. destruct (blob c ("cases/" ++ n ++ ".in")); cbn [bind]; [|auto].
  destruct (blob c ("cases/" ++ n ++ ".out")); cbn [bind]; auto.
Qed.
Lemma read_solutions_total c input l : (forall ss, In ss l -> blob c ("tests/" ++ sol_Filename ss) <> None /\ exists lang, written_in (sol_Filename ss) (sol_Language ss) lang) -> exists ts, read_solutions c input l = Config ts.
Proof.
  induction l as [|ss l IH]; cbn [read_solutions]; intros H; [eauto|]. destruct (H ss) as [A (lang & B)]; [left; auto|]. apply language_spec in B. rewrite B. cbn [bind].
  unfold getBlobContents. destruct (blob c ("tests/" ++ sol_Filename ss)); [|congruence]. cbn [bind]. destruct IH as (ts & ->); [intros; apply H; right; auto|]. cbn [bind]. eauto.
Qed.
(* A commit is run iff both files of settings decode, and every file they speak of is
   there.  It is skipped iff one of the two is not. *)
Theorem C52_runs_iff_complete : forall copy c,
  (exists ts, createCIRunConfigFromGit copy (Some (Some c)) = Config ts) <->
  exists sols inp s, tests_json c = Some (sols, inp) /\ settings_json c = Some s /\ complete c sols inp s.
Proof.
  intros copy c. split.
  - intros (ts & H). destruct (C52_tests_of_a_commit _ _ _ H) as (sols & inp & s & T & S & _). exists sols, inp, s. split; [auto|]. split; [auto|].
    cbn in H. rewrite T, S in H. steps. injection H4 as <-. constructor.
    + intros n w I. apply read_cases_spec in H. destruct H as [_ N F]. assert (J : In n (map fst x)) by (apply N; apply in_map_iff; exists (n, w); auto).
      apply in_map_iff in J as ((n' & y) & EN & J); cbn in EN; subst n'. apply F in J as (lc & _ & -> & -> & _). split; discriminate.
    + intros C. apply read_validator_spec in H0 as (_ & _ & _ & V). destruct (V C) as (lang & cv & L & _ & _ & B & _). exists lang. rewrite B. split; [auto|discriminate].
    + intros m p P. apply read_interactive_spec in H1. unfold problem_interactive in H1. rewrite P in H1. destruct H1 as (li & _ & _ & _ & -> & ->). split; discriminate.
    + assert (G : Forall2 (fun ss t => blob c ("tests/" ++ sol_Filename ss) = Some (ct_source t) /\ written_in (sol_Filename ss) (sol_Language ss) (ct_language t)) sols x2).
      { clear - H2. revert x2 H2. induction sols as [|ss l IH]; cbn [read_solutions]; intros ts H; [injection H as <-; constructor|]. steps. injection H2 as <-. constructor; [|auto]. cbn. split; [auto|]. apply language_spec. auto. }
      intros ss I. clear - G I. induction G as [|a t l l' [A B] G IH]; [destruct I|]. destruct I as [<-|I]; [rewrite A; split; [discriminate|eauto]|auto].
    + intros i ->. unfold read_inputs in H3. steps. apply language_spec in H3. rewrite H4. split; [discriminate|eauto].
  - intros (sols & inp & s & T & S & [C V I SO IN]). cbn. rewrite T, S. destruct (read_cases_total c _ C []) as (cases & ->). cbn [bind].
    assert (X : exists v, read_validator c s = Config v).
    { unfold read_validator. destruct (String.eqb_spec (ps_ValidatorName s) "custom") as [E|N]; [|eauto]. destruct (V E) as (lang & -> & B). unfold getBlobContents. destruct (blob c ("validator." ++ lang)); [|congruence]. cbn. eauto. }
    destruct X as (v & ->). cbn [bind].
    assert (X : exists i, read_interactive c s = Config i).
    { unfold read_interactive. destruct (ps_Interactive s) as [(m & p)|]; [|eauto]. destruct (I _ _ eq_refl) as [A B]. unfold getBlobContents. destruct (blob c _); [|congruence]. cbn [bind]. destruct (blob c ("interactive/Main." ++ _)); [|congruence]. cbn. eauto. }
    destruct X as (i & ->). cbn [bind]. match goal with |- context [read_solutions c ?x sols] => destruct (read_solutions_total c x sols SO) as (ts & ->) end. cbn [bind].
    destruct inp as [i'|]; cbn [read_inputs]; [|cbn; eauto]. destruct (IN _ eq_refl) as [A (lang & B)]. apply language_spec in B. rewrite B. cbn [bind]. unfold getBlobContents. destruct (blob c ("tests/" ++ inp_Filename i')); [|congruence]. cbn. eauto.
Qed.
Print Assumptions C52_runs_iff_complete.
Lemma read_solutions_either c input l : (exists r, read_solutions c input l = Config r) \/ read_solutions c input l = Fail.
Proof.
  induction l as [|ss l IH]; cbn [read_solutions]; [eauto|]. unfold language_of. destruct (sol_Language ss =? ""); [destruct (ext (sol_Filename ss))|]; cbn [bind]; auto;
  (unfold getBlobContents; destruct (blob c ("tests/" ++ sol_Filename ss)); cbn [bind]; [|auto]; destruct IH as [(r & ->)| ->]; cbn; eauto).
Qed.
Lemma read_interactive_either c s : (exists r, read_interactive c s = Config r) \/ read_interactive c s = Fail.
Proof.
  unfold read_interactive. destruct (ps_Interactive s) as [(m & p)|]; [|eauto]. unfold getBlobContents. destruct (blob c _); cbn [bind]; [|auto]. destruct (blob c ("interactive/Main." ++ _)); cbn; eauto.
Qed.
Lemma read_inputs_either copy c input i : (exists r, read_inputs copy c input i = Config r) \/ read_inputs copy c input i = Fail.
Proof.
  destruct i as [i|]; cbn [read_inputs]; [|eauto]. unfold language_of. destruct (inp_Language i =? ""); [destruct (ext (inp_Filename i))|]; cbn [bind]; auto;
  (unfold getBlobContents; destruct (blob c ("tests/" ++ inp_Filename i)); cbn; eauto).
Qed.
Theorem C52_skipped_iff : forall copy c, createCIRunConfigFromGit copy (Some (Some c)) = Skip <-> tests_json c = None \/ settings_json c = None.
Proof.
  intros copy c. cbn. destruct (tests_json c) as [(sols & inp)|]; [|split; auto]. destruct (settings_json c) as [s|]; [|split; auto]. split; [|intuition discriminate].
  intros H. exfalso. destruct (read_cases_either c (concat (ps_Groups s)) []) as [(r & E)|E]; rewrite E in H; cbn [bind] in H; [|discriminate].
  unfold read_validator in H. destruct (ps_ValidatorName s =? "custom"); [destruct (ps_ValidatorLang s); [unfold getBlobContents in H; destruct (blob c _)|]|]; cbn [bind] in H; try discriminate;
  (destruct (read_interactive_either c s) as [(i & E')|E']; rewrite E' in H; cbn [bind] in H; [|discriminate];
   match type of H with context [read_solutions c ?x sols] => destruct (read_solutions_either c x sols) as [(ts & E2)|E2]; rewrite E2 in H; cbn [bind] in H; [|discriminate] end;
   match type of H with context [read_inputs copy c ?x inp] => destruct (read_inputs_either copy c x inp) as [(ti & E3)|E3]; rewrite E3 in H; cbn [bind] in H; discriminate end).
Qed.
Print Assumptions C52_skipped_iff.

(* The grader stops (the goroutine that runs the requests has no recover) iff the
   repository is gone, or the cases can be read and the validator is custom without
   a language. *)
Theorem C52_panics_iff : forall copy repository outcome,
  processCIRequest (createCIRunConfigFromGit copy repository) outcome = ProcessPanics <->
  repository = None \/
  exists c sols s, repository = Some (Some c) /\ tests_json c = Some sols /\ settings_json c = Some s /\
    (forall n w, In (n, w) (concat (ps_Groups s)) -> blob c ("cases/" ++ n ++ ".in") <> None /\ blob c ("cases/" ++ n ++ ".out") <> None) /\
    ps_ValidatorName s = "custom" /\ ps_ValidatorLang s = None.
Proof.
  intros copy rep oc.
  assert (R : forall x, processCIRequest x oc = ProcessPanics <-> x = Panic \/ x = NilNil).
  { intros [ts| | | |]; cbn; [destruct (do_tests _ _ _) as [[? ?] ?]|..]; split; intros K; try discriminate K; auto; destruct K; discriminate. }
  rewrite R. clear R. split.
  - destruct rep as [[c|]|]; cbn [createCIRunConfigFromGit]; [|intuition discriminate|auto]. destruct (tests_json c) as [(sols & inp)|] eqn:T; [|intuition discriminate].
    destruct (settings_json c) as [s|] eqn:S; [|intuition discriminate]. intros H. right. exists c, (sols, inp), s. split; [auto|]. split; [auto|]. split; [auto|].
    destruct (read_cases_either c (concat (ps_Groups s)) []) as [(r & E)|E]; rewrite E in H; cbn [bind] in H; [|intuition discriminate].
    split. { apply read_cases_spec in E as [_ N F]. intros n w I. assert (J : In n (map fst r)) by (apply N; apply in_map_iff; exists (n, w); auto). apply in_map_iff in J as ((n' & y) & EN & J); cbn in EN; subst n'. apply F in J as (lc & _ & -> & -> & _). split; discriminate. }
    assert (Z : forall v, bind (read_interactive c s) (fun i => bind (read_solutions c {| Cases := r; Limits := Some (ps_Limits s); Validator := Some v; Interactive := i |} sols) (fun ts => bind (read_inputs copy c {| Cases := r; Limits := Some (ps_Limits s); Validator := Some v; Interactive := i |} inp) (fun ti => Config (ts ++ ti)%list))) = Panic \/ bind (read_interactive c s) (fun i => bind (read_solutions c {| Cases := r; Limits := Some (ps_Limits s); Validator := Some v; Interactive := i |} sols) (fun ts => bind (read_inputs copy c {| Cases := r; Limits := Some (ps_Limits s); Validator := Some v; Interactive := i |} inp) (fun ti => Config (ts ++ ti)%list))) = NilNil -> False).
    { intros v. destruct (read_interactive_either c s) as [(i & ->)| ->]; cbn [bind]; [|intuition discriminate].
      match goal with |- context [read_solutions c ?x sols] => destruct (read_solutions_either c x sols) as [(ts & ->)| ->]; cbn [bind]; [|intuition discriminate] end.
      match goal with |- context [read_inputs copy c ?x inp] => destruct (read_inputs_either copy c x inp) as [(ti & ->)| ->]; cbn [bind]; intuition discriminate end. }
    unfold read_validator in H. destruct (String.eqb_spec (ps_ValidatorName s) "custom") as [C|C]; [split; [auto|]; destruct (ps_ValidatorLang s) as [l|]; [exfalso; unfold getBlobContents in H; destruct (blob c ("validator." ++ l))|auto]|exfalso]; cbn [bind] in H; try (intuition discriminate); apply Z in H; auto.
  - intros [-> | (c & (sols & inp) & s & -> & T & S & C & V & L)]; [left; reflexivity|right]. cbn. rewrite T, S. destruct (read_cases_total c _ C []) as (cases & ->). cbn [bind].
    unfold read_validator. rewrite V, L. reflexivity.
Qed.
Print Assumptions C52_panics_iff.

(* A commit with nothing but its two settings files. *)
Definition any_limits : limits := {| ExtraWallTime := 0; MemoryLimit := 0; OutputLimit := 0; OverallWallTimeLimit := 0; TimeLimit := 0 |}.
Definition bare (v : string) (lang : option string) (i : option (string * string)) (cases : list (string * option Q)) : ci_settings :=
  {| ps_Groups := [cases]; ps_Limits := any_limits; ps_ValidatorName := v; ps_ValidatorLang := lang; ps_Tolerance := None; ps_ValidatorLimits := None; ps_Interactive := i |}.
Theorem C52_no_commit_stops_the_grader_refuted : ~ forall copy c outcome, processCIRequest (createCIRunConfigFromGit copy (Some (Some c))) outcome <> ProcessPanics.
Proof.
  intros H. apply (H "" {| blob := fun _ => None; tests_json := Some ([], None); settings_json := Some (bare "custom" None None []) |} (fun _ => EarlyError "")). reflexivity.
Qed.
Print Assumptions C52_no_commit_stops_the_grader_refuted.
(* The interface definition is looked for under the module's name as if it was a
   language: a module called py3 is read from interactive/py.idl. *)
Theorem C52_idl_of_the_module_refuted : ~ forall copy c sols s m p,
  tests_json c = Some (sols, None) -> settings_json c = Some s -> ps_Interactive s = Some (m, p) -> ps_Groups s = [] -> ps_ValidatorName s <> "custom" -> sols = [] ->
  blob c ("interactive/" ++ m ++ ".idl") <> None -> blob c ("interactive/Main." ++ LanguageFileExtension p) <> None ->
  exists ts, createCIRunConfigFromGit copy (Some (Some c)) = Config ts.
Proof.
  intros H. set (s := {| ps_Groups := []; ps_Limits := any_limits; ps_ValidatorName := "token"; ps_ValidatorLang := None; ps_Tolerance := None; ps_ValidatorLimits := None; ps_Interactive := Some ("py3", "cpp11") |}).
  set (c := {| blob := fun f => if (f =? "interactive/py3.idl") || (f =? "interactive/Main.cpp") then Some "" else None; tests_json := Some ([], None); settings_json := Some s |}).
  destruct (H "" c [] s "py3" "cpp11" eq_refl eq_refl eq_refl eq_refl) as (ts & E); [discriminate|reflexivity|discriminate|discriminate|]. discriminate E.
Qed.
Print Assumptions C52_idl_of_the_module_refuted.

(* The maximum score of a test is the sum of its weights; addRun panics if there is a
   case without one. *)
Theorem C52_max_score : forall cases total,
  (forall m, max_score cases total = Some m -> (m == total + fold_right (fun x q => match snd x with Some lc => match Weight lc with Some w => w + q | None => q end | None => q end) 0 cases)%Q) /\
  (max_score cases total = None <-> exists n x, In (n, x) cases /\ forall lc, x = Some lc -> Weight lc = None).
Proof.
  intros cases. induction cases as [|(n & [[i o [w|]]|]) cases IH]; intros total; cbn [max_score fold_right snd Weight].
  - split; [intros m [= <-]; ring|]. split; [discriminate|]. intros (? & ? & [] & _).
  - destruct (IH (total + w)%Q) as [A B]. split; [intros m E; rewrite (A m E); ring|]. rewrite B. split; intros (n' & x & I & H); exists n', x; (split; [|auto]).
    + right. auto.
    + destruct I as [[= <- <-]|I]; [|auto]. specialize (H _ eq_refl). discriminate.
  - split; [discriminate|]. split; [|auto]. intros _. eexists n, _. split; [left; reflexivity|]. intros lc [= <-]. reflexivity.
  - split; [discriminate|]. split; [|auto]. intros _. exists n, None. split; [left; reflexivity|]. discriminate.
Qed.
Print Assumptions C52_max_score.

Example C52_example :
  let s := {| sol_Filename := "solutions/AC.cpp"; sol_ScoreRange := None; sol_Verdict := "AC"; sol_Language := "" |} in
  let c := {| blob := fun f => if f =? "tests/solutions/AC.cpp" then Some "int main(){}" else if f =? "cases/a.in" then Some "1" else if f =? "cases/a.out" then Some "2" else None;
              tests_json := Some ([s], None); settings_json := Some (bare "token" None None [("a", Some 1%Q)]) |} in
  complete c [s] None (bare "token" None None [("a", Some 1%Q)]) /\
  exists t, createCIRunConfigFromGit "" (Some (Some c)) = Config [t] /\ ct_language t = "cpp11" /\ ct_source t = "int main(){}".
Proof.
  split.
  - constructor; cbn.
    + intros n w [[= <- <-]|[]]. cbn. split; discriminate.
    + discriminate.
    + discriminate.
    + intros ss [<-|[]]. cbn. split; [discriminate|]. exists "cpp11". right. split; [auto|]. exists "cpp". split; [|auto]. exists "solutions/AC". split; [auto|]. unfold contains. cbn. split; intuition discriminate.
    + discriminate.
  - eexists. split; [reflexivity|]. split; reflexivity.
Qed.

(* ---- C53 ---- *)
Definition all_ascii : list ascii := map ascii_of_nat (seq 0 256).
Lemma all_ascii_in a : In a all_ascii.
Proof. apply in_map_iff. exists (nat_of_ascii a). split; [apply ascii_nat_embedding|]. apply in_seq. pose proof (nat_ascii_bounded a). lia. Qed.
Lemma by_table (P : ascii -> bool) (l : list ascii) : forallb (fun a => Bool.eqb (P a) (existsb (Ascii.eqb a) l)) all_ascii = true -> forall a, P a = true <-> In a l.
Proof.
  intros H a. rewrite forallb_forall in H. specialize (H a (all_ascii_in a)). apply eqb_prop in H. rewrite H, existsb_exists. split.
  - intros (x & I & E). apply Ascii.eqb_eq in E as ->. auto.
  - intros I. exists a. split; [auto|apply Ascii.eqb_refl].
Qed.
Definition letters := (map (fun n => ascii_of_nat (65 + n)) (seq 0 26) ++ map (fun n => ascii_of_nat (97 + n)) (seq 0 26))%list.
Definition digits := map (fun n => ascii_of_nat (48 + n)) (seq 0 10).
Definition hexes := map (fun n => ascii_of_nat (97 + n)) (seq 0 6).
Lemma problem_char_spec a : is_problem_char a = true <-> (exists n, (n < 26)%nat /\ (a = ascii_of_nat (65 + n) \/ a = ascii_of_nat (97 + n))) \/ (exists n, (n < 10)%nat /\ a = ascii_of_nat (48 + n)) \/ a = "-"%char \/ a = "_"%char.
Proof.
  rewrite (by_table is_problem_char (letters ++ digits ++ ["-"%char; "_"%char])%list) by (vm_compute; reflexivity).
  unfold letters, digits. rewrite !in_app_iff, !in_map_iff. cbn [In]. setoid_rewrite in_seq. split.
  - intros [[(n & <- & H)|(n & <- & H)]|[(n & <- & H)|H]]; [left; exists n; split; [lia|auto]|left; exists n; split; [lia|auto]|right; left; exists n; split; [lia|auto]|right; right; intuition].
  - intros [(n & H & [-> | ->])|[(n & H & ->)|H]]; [left; left; exists n; split; [auto|lia]|left; right; exists n; split; [auto|lia]|right; left; exists n; split; [auto|lia]|right; right; intuition].
Qed.
Lemma hex_spec a : is_hex a = true <-> (exists n, (n < 10)%nat /\ a = ascii_of_nat (48 + n)) \/ exists n, (n < 6)%nat /\ a = ascii_of_nat (97 + n).
Proof.
  rewrite (by_table is_hex (digits ++ hexes)%list) by (vm_compute; reflexivity).
  unfold hexes, digits. rewrite !in_app_iff, !in_map_iff. setoid_rewrite in_seq. split.
  - intros [(n & <- & H)|(n & <- & H)]; [left|right]; exists n; split; auto; lia.
  - intros [(n & H & ->)|(n & H & ->)]; [left|right]; exists n; split; auto; lia.
Qed.
Lemma strip_spec p s r : strip p s = Some r <-> s = p ++ r.
Proof.
  revert s. induction p as [|a p IH]; intros s; cbn; [split; [intros [= ->]; auto|intros ->; auto]|]. destruct s as [|b s]; [split; discriminate|].
  destruct (Ascii.eqb_spec a b) as [->|N]; [rewrite IH; split; [intros ->; auto|intros [= ->]; auto]|]. split; [discriminate|congruence].
Qed.
Lemma span_spec f s x y : span f s = (x, y) <-> s = x ++ y /\ Forall (fun a => f a = true) (list_ascii_of_string x) /\ match y with String a _ => f a = false | _ => True end.
Proof.
  revert x y. induction s as [|a s IH]; intros x y; cbn [span].
  - split; [intros [= <- <-]; repeat split; constructor|]. intros (E & _). destruct x; [|discriminate]. cbn in E. subst. auto.
  - destruct (f a) eqn:Fa.
    + destruct (span f s) as [x' y'] eqn:S. split.
      * intros [= <- <-]. destruct (proj1 (IH x' y') eq_refl) as (ES & A & B). cbn. rewrite ES. repeat split; auto.
      * intros (E & A & B). destruct x as [|b x]; cbn in E; [subst y; congruence|]. injection E as <- E. cbn in A. inversion A; subst.
        assert (K : (x', y') = (x, y)) by (apply IH; auto). injection K as -> ->. reflexivity.
    + split; [intros [= <- <-]; repeat split; auto; constructor|]. intros (E & A & B). destruct x as [|b x]; cbn in E; [subst; auto|]. injection E as <- E. cbn in A. inversion A; subst. congruence.
Qed.
Lemma app_inj_r (p : string) a b : p ++ a = p ++ b -> a = b.
Proof. induction p as [|c p IH]; cbn; [auto|]. intros [= H]. auto. Qed.

(* A request is for problem p and commit h iff its path says so; nothing else is
   taken. *)
Theorem C53_urls : forall u p h, ci_url u = Some (p, h) <-> is_ci_url u p h.
Proof.
  intros u p h. unfold ci_url, is_ci_url. split.
  - destruct (strip "/ci/problem/" u) as [u1|] eqn:E1; [|discriminate]. apply strip_spec in E1 as ->.
    destruct (span is_problem_char u1) as [p' u2] eqn:E2. apply span_spec in E2 as (-> & A & _). destruct (String.eqb_spec p' "") as [|NE]; [discriminate|].
    destruct (strip "/" u2) as [u3|] eqn:E3; [|discriminate]. apply strip_spec in E3 as ->. destruct (span is_hex u3) as [h' u4] eqn:E4. apply span_spec in E4 as (-> & B & _).
    destruct (Nat.eqb_spec (String.length h') 40) as [L|]; [|discriminate]. destruct (String.eqb_spec u4 "/") as [->|]; [|discriminate]. cbn [andb]. intros [= <- <-].
    repeat split; auto; (eapply Forall_impl; [|eassumption]); intros a; [apply problem_char_spec|apply hex_spec].
  - intros (-> & NE & A & L & B). rewrite (proj2 (strip_spec "/ci/problem/" _ (p ++ "/" ++ h ++ "/")) eq_refl).
    rewrite (proj2 (span_spec is_problem_char _ p ("/" ++ h ++ "/"))).
    2:{ repeat split; auto. eapply Forall_impl; [|exact A]. intros a. apply problem_char_spec. }
    destruct (String.eqb_spec p "") as [|_]; [congruence|]. rewrite (proj2 (strip_spec "/" _ (h ++ "/")) eq_refl).
    rewrite (proj2 (span_spec is_hex _ h "/")). 2:{ repeat split; auto. eapply Forall_impl; [|exact B]. intros a. apply hex_spec. }
    rewrite L. reflexivity.
Qed.
Print Assumptions C53_urls.

Lemma take_drop n s : (n <= String.length s)%nat -> take n s ++ drop n s = s.
Proof.
  unfold take, drop. revert n. induction s as [|a s IH]; intros [|n] H; cbn in H |- *; auto; try lia.
  - f_equal. clear. induction s; cbn; f_equal; auto.
  - f_equal. rewrite IH by lia. auto.
Qed.
Lemma take_length n s : (n <= String.length s)%nat -> String.length (take n s) = n.
Proof. unfold take. revert n. induction s as [|a s IH]; intros [|n] H; cbn in *; auto; try lia. rewrite IH by lia. auto. Qed.
Lemma str_length_app a b : String.length (a ++ b) = (String.length a + String.length b)%nat.
Proof. induction a; cbn; auto. Qed.
Lemma hex_not c h : hex_chars h -> is_hex c = false -> ~ contains c h.
Proof. intros H N C. unfold hex_chars in H. rewrite Forall_forall in H. apply H, hex_spec in C. congruence. Qed.
Lemma url_parts u p h : is_ci_url u p h -> split "/" (report_dir p h) = [p; take 2 h; drop 2 h] /\ take 2 h ++ drop 2 h = h /\ String.length (take 2 h) = 2%nat /\
  Forall (fun x => ~ contains "/"%char x /\ ~ contains "."%char x /\ x <> "") [p; take 2 h; drop 2 h].
Proof.
  intros (_ & NE & A & L & B). assert (TD : take 2 h ++ drop 2 h = h) by (apply take_drop; lia). assert (TL : String.length (take 2 h) = 2%nat) by (apply take_length; lia).
  assert (P : forall c, is_problem_char c = false -> ~ contains c p). { intros c N C. unfold problem_chars in A. rewrite Forall_forall in A. apply A, problem_char_spec in C. congruence. }
  assert (H : forall c, is_hex c = false -> ~ contains c (take 2 h) /\ ~ contains c (drop 2 h)).
  { intros c N. pose proof (hex_not c h B N) as K. rewrite <- TD in K. rewrite contains_app in K. tauto. }
  assert (FS : Forall (fun x => ~ contains "/"%char x /\ ~ contains "."%char x /\ x <> "") [p; take 2 h; drop 2 h]).
  { repeat constructor; try (apply P; reflexivity); try (apply (H "/"%char); reflexivity); try (apply (H "."%char); reflexivity); auto; intros E.
    - rewrite E in TL. discriminate.
    - apply (f_equal String.length) in TD. rewrite str_length_app, E, TL, L in TD. discriminate. }
  split; [|auto]. unfold report_dir. apply split_join; [discriminate|]. eapply Forall_impl; [|exact FS]. cbn. tauto.
Qed.

(* The directory of a commit lies three levels below the directory of all runs, its
   path has no empty, "." or ".." element, no two commits share one (or have one
   inside the other's), and the two ways to compute a commit's key agree. *)
Theorem C53_directories : forall u p h u' p' h', is_ci_url u p h -> is_ci_url u' p' h' ->
  (exists a b, split "/" (report_dir p h) = [p; a; b] /\ a ++ b = h /\ Forall (fun x => x <> "" /\ ~ contains "."%char x) [p; a; b]) /\
  (report_dir p h = report_dir p' h' -> p = p' /\ h = h') /\
  (forall more, report_dir p' h' <> report_dir p h ++ "/" ++ more) /\
  key_reload (report_dir p h) = Some (key_finish p h) /\
  (key_finish p h = key_finish p' h' -> p = p' /\ h = h').
Proof.
  intros u p h u' p' h' U U'. pose proof (url_parts _ _ _ U) as (S & TD & TL & F). pose proof (url_parts _ _ _ U') as (S' & TD' & TL' & F').
  split; [|split; [|split; [|split]]].
  - do 2 eexists. split; [exact S|]. split; [exact TD|]. eapply Forall_impl; [|exact F]. cbn. tauto.
  - intros E. rewrite E, S' in S. injection S as E1 E2 E3. split; [auto|]. rewrite <- TD, <- TD', E2, E3. auto.
  - intros more E. apply (f_equal (split "/"%char)) in E. rewrite S' in E. apply (f_equal (@List.length _)) in E. revert E.
    change (report_dir p h ++ "/" ++ more) with (report_dir p h ++ String "/"%char more).
    unfold report_dir. cbn [join]. inversion F as [|? ? F1 F2]; subst. inversion F2 as [|? ? F3 F4]; subst. inversion F4 as [|? ? F5 _]; subst.
    assert (AA : forall a b c : string, (a ++ b) ++ c = a ++ b ++ c) by (induction a; cbn; intros; f_equal; auto).
    rewrite AA. cbn [append]. rewrite AA. cbn [append]. rewrite !split_app by tauto. destruct (split_cons "/" more) as (x & y & ->). cbn. discriminate.
  - unfold key_reload. rewrite S. unfold key_finish. rewrite TD. reflexivity.
  - unfold key_finish. intros E. apply (f_equal (split "/"%char)) in E. inversion F as [|? ? F1 _]; subst. inversion F' as [|? ? F1' _]; subst.
    cbn [append] in E. rewrite !split_app in E by tauto. injection E as E1 E2. split; [auto|].
    assert (NS : forall k, hex_chars k -> split "/" k = [k]) by (intros k K; apply split_single, hex_not; auto).
    rewrite !NS in E2; [congruence| |]; [destruct U' as (_ & _ & _ & _ & X)|destruct U as (_ & _ & _ & _ & X)]; exact X.
Qed.
Print Assumptions C53_directories.
Example C53_example : is_ci_url "/ci/problem/sumas/1e3dfc5facb54337315febc6b965cb89bba79d9c/" "sumas" "1e3dfc5facb54337315febc6b965cb89bba79d9c" /\
  report_dir "sumas" "1e3dfc5facb54337315febc6b965cb89bba79d9c" = "sumas/1e/3dfc5facb54337315febc6b965cb89bba79d9c" /\ ci_url "/ci/problem/../1e3dfc5facb54337315febc6b965cb89bba79d9c/" = None.
Proof. split; [apply C53_urls; reflexivity|split; reflexivity]. Qed.

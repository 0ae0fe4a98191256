(* C64-C68: the files and processes of a grading *)
From Coq Require Import String Ascii List Bool ZArith Permutation Lia.
From Verif Require Import GoStr InModel LitModel FeSpec BoxModel BoxSpec BoxProofs.
Import ListNotations.
Local Open Scope string_scope.

Section Grade.
Variable root input : path.      (* the directory of the attempt, that of the problem *)
Variable preserve : bool.
Variable set : settings.
Variable run : request.
Variable archive_ok : bool.
Variable order1 order2 : list (string * list (string * iface)) -> list (string * list (string * iface)).
Variable order3 : list string -> list string.
Variable opens : string -> bool.
Variable there : path -> bool.   (* the files there are in the beginning *)
(* maps are ranged over in any order *)
Hypothesis ORDER1 : forall l, Permutation l (order1 l).
Hypothesis ORDER2 : forall l, Permutation l (order2 l).
Hypothesis ORDER3 : forall l, Permutation l (order3 l).
Hypothesis SANE : sane set run.
Hypothesis EMPTY : empty_root root there.
Hypothesis APART : apart root input.
Notation reachable := (reachable root input preserve set run archive_ok order1 order2 order3 opens there).
Notation steps := (steps root input preserve set run opens).
Notation call_of := (call_of root input set run).
Notation sees := (sees root input set run).
Notation writes := (writes root input set run).

(* C64: whatever is there for a contestant's program to read, at any time, is its own:
   its source, the library generated for it, what its compiler made, pipes. *)
Theorem C64_sees s l b p o :
  reachable s -> In l (live s) -> binary_of l = Some b -> binaryType b = Contestant ->
  sees l p \/ In p (c_sources (call_of l)) -> content (files s) p = Some o -> own (name b) o.
Proof. intros. eapply (p_sees root input preserve set run archive_ok order1 order2 order3 opens there ORDER1 ORDER2 ORDER3 SANE EMPTY APART); eauto. Qed.
(* Its standard input is the input of the case, as it was in the beginning, or none. *)
Theorem C64_stdin s l b p :
  reachable s -> In l (started s) -> binary_of l = Some b -> binaryType b = Contestant -> c_stdin (call_of l) = Some p ->
  interactive set = None /\
  exists c, l = Program b c /\ In c (cases set) /\ p = (input ++ ["cases"; (c ++ ".in")%string])%list /\
            forall o, content (files s) p = Some o -> o = Initial p.
Proof. intros. eapply (p_stdin root input preserve set run archive_ok order1 order2 order3 opens there ORDER1 ORDER2 ORDER3 SANE EMPTY APART); eauto. Qed.
(* From its first run on nothing changes in its directory: it finds the same in every
   case. *)
Theorem C64_unchanged s s' b c p :
  reachable s -> In (Program b c) (started s) -> binaryType b = Contestant -> steps s s' -> at_ s' <> Gone ->
  under (root ++ [name b; "bin"])%list p -> content (files s') p = content (files s) p.
Proof.
  intros R I T S G U. eapply (p_unchanged root input preserve set run archive_ok order1 order2 order3 opens there ORDER1 ORDER2 ORDER3 SANE EMPTY APART); eauto. rewrite (chdir_of root input set run archive_ok order1 order2 order3 ORDER1 SANE (Program b c) b); auto.
  eapply (in_bins root input preserve set run archive_ok order1 order2 order3 opens there ORDER1 ORDER2 ORDER3 SANE EMPTY APART); eauto.
Qed.
(* The problemsetter's program finds nothing of the contestant's. *)
Theorem C64_problemsetter s l b p o :
  reachable s -> In l (live s) -> binary_of l = Some b -> binaryType b = Problemsetter -> sees l p -> content (files s) p = Some o ->
  (exists q, under input q /\ o = Initial q) \/ (exists f, o = Library "Main" f) \/ (exists b', o = MadeBy (Compiler b') /\ binaryType b' = Problemsetter) \/ o = Pipe.
Proof. intros. eapply (p_problemsetter root input preserve set run archive_ok order1 order2 order3 opens there ORDER1 ORDER2 ORDER3 SANE EMPTY APART); eauto. Qed.

(* C65: a process is started as the table in BoxSpec says, *)
Theorem C65_asked s l : reachable s -> In l (started s) -> asked root input set run l (call_of l).
Proof. intros. eapply (p_asked root input preserve set run archive_ok order1 order2 order3 opens there ORDER1 ORDER2 ORDER3 SANE EMPTY APART); eauto. Qed.
(* once, *)
Theorem C65_once s : reachable s -> NoDup (started s).
Proof. intros. eapply (p_once root input preserve set run archive_ok order1 order2 order3 opens there ORDER1 ORDER2 ORDER3 SANE EMPTY APART); eauto. Qed.
(* a compiler or validator alone, the programs only with others of the same case, *)
Theorem C65_alone s :
  reachable s -> live s = [] \/ (exists b, live s = [Compiler b]) \/ (exists c, live s = [Judge c]) \/ exists c, Forall (fun l => exists b, l = Program b c) (live s).
Proof. intros. eapply (p_alone root input preserve set run archive_ok order1 order2 order3 opens there ORDER1 ORDER2 ORDER3 SANE EMPTY APART); eauto. Qed.
(* the programs after all compilers, the validator after all programs, *)
Theorem C65_order s :
  reachable s ->
  (forall b c, In (Program b c) (started s) -> lang run <> "cat" /\ (forall l, In l (live s) -> forall b', l <> Compiler b') /\ In (Compiler b) (started s)) /\
  (forall c, In (Judge c) (started s) -> (forall l, In l (live s) -> exists c', l = Judge c') /\ exists b, In (Compiler b) (started s) /\ binaryType b = Validator).
Proof.
  intros R. split; [intros b c I; eapply (p_order_program root input preserve set run archive_ok order1 order2 order3 opens there ORDER1 ORDER2 ORDER3 SANE EMPTY APART); eauto|]. intros c I. split; [eapply (p_order_judge root input preserve set run archive_ok order1 order2 order3 opens there ORDER1 ORDER2 ORDER3 SANE EMPTY APART); eauto|eapply (p_judge_built root input preserve set run archive_ok order1 order2 order3 opens there ORDER1 ORDER2 ORDER3 SANE EMPTY APART); eauto].
Qed.
(* and all of the case before it is over. *)
Theorem C65_together s b c b' :
  reachable s -> In (Program b c) (started s) -> In (Compiler b') (started s) -> binaryType b' <> Validator ->
  In (Program b' c) (started s) \/ exists l cs, at_ s = RunningCase c l cs /\ In b' l.
Proof. intros. eapply (p_together root input preserve set run archive_ok order1 order2 order3 opens there ORDER1 ORDER2 ORDER3 SANE EMPTY APART); eauto. Qed.

(* C66: what the validator finds for a case: the input and the expected output as they
   were in the beginning, the report of this case's run, *)
Theorem C66_finds s c :
  reachable s -> In (Judge c) (live s) ->
  let found n := content (files s) (root ++ ["validator"; "bin"; n])%list in
  (forall o, found "data.in" = Some o -> o = Initial (input ++ ["cases"; (c ++ ".in")%string])%list) /\
  (there (input ++ ["cases"; (c ++ ".out")%string])%list = true -> forall o, found "data.out" = Some o -> o = Initial (input ++ ["cases"; (c ++ ".out")%string])%list) /\
  (forall o, found "meta.in" = Some o -> content (files s) (root ++ [(c ++ ".meta")%string])%list = Some o).
Proof. intros. eapply (p_finds root input preserve set run archive_ok order1 order2 order3 opens there ORDER1 ORDER2 ORDER3 SANE EMPTY APART); eauto. Qed.
(* and its standard input and that report are made by this case's program, the
   problemsetter's if there is one, or by the runner from the submission. *)
Theorem C66_judged s c e o :
  reachable s -> In (Judge c) (live s) -> e = ".out" \/ e = ".meta" -> content (files s) (root ++ [(c ++ e)%string])%list = Some o ->
  c_stdin (call_of (Judge c)) = Some (root ++ [(c ++ ".out")%string])%list /\
  (lang run <> "cat" /\ (exists b, o = MadeBy (Program b c) /\ name b = "Main" /\ In (Program b c) (started s)) \/ lang run = "cat" /\ (o = Submission \/ o = Runner)).
Proof.
  intros R I E C. assert (IC : In c (cases set)) by (eapply (judge_live root input preserve set run archive_ok order1 order2 order3 opens there ORDER1 ORDER2 ORDER3 SANE EMPTY APART); eauto). split.
  - assert (A : asked root input set run (Judge c) (call_of (Judge c))) by (eapply (p_asked root input preserve set run archive_ok order1 order2 order3 opens there ORDER1 ORDER2 ORDER3 SANE EMPTY APART); eauto; eapply (live_started root input preserve set run archive_ok order1 order2 order3 opens there ORDER1 ORDER2 ORDER3 SANE EMPTY APART); eauto). inversion A as [| | | | | | |c' vl k l A1 A2 A3 A4 A5 A6 A7]. destruct A4 as (_ & _ & _ & X & _). exact X.
  - eapply (case_result root input preserve set run archive_ok order1 order2 order3 opens there ORDER1 ORDER2 ORDER3 SANE EMPTY APART); eauto. destruct E as [-> | ->]; cbn; auto.
Qed.
(* Nothing else in its directory is of the contestant. *)
Theorem C66_else s c p o :
  reachable s -> In (Judge c) (live s) -> sees (Judge c) p -> content (files s) p = Some o ->
  p = (root ++ ["validator"; "bin"; "meta.in"])%list \/ (exists q, under input q /\ o = Initial q) \/ exists b, o = MadeBy (Compiler b) /\ binaryType b = Validator.
Proof. intros. eapply (p_else root input preserve set run archive_ok order1 order2 order3 opens there ORDER1 ORDER2 ORDER3 SANE EMPTY APART); eauto. Qed.

(* C67: outside the directory of the attempt no file is created or removed, and none is
   changed but the sources of the problemsetter's program and of the validator, by
   their own compilers. *)
Theorem C67_outside s p :
  reachable s -> ~ under root p ->
  names (files s) p = names (start_files there) p /\
  (content (files s) p = content (start_files there) p \/
   exists b, content (files s) p = Some (MadeBy (Compiler b)) /\
    (binaryType b = Problemsetter /\ (exists it, interactive set = Some it /\ p = (input ++ ["interactive"; ("Main." ++ LanguageFileExtension (Parent it))%string])%list) \/
     binaryType b = Validator /\ (exists vl, validator_lang set = Some vl /\ p = (input ++ [("validator." ++ vl)%string])%list))).
Proof. intros. eapply (p_outside root input preserve set run archive_ok order1 order2 order3 opens there ORDER1 ORDER2 ORDER3 SANE EMPTY APART); eauto. Qed.
Theorem C67_writes s l p : reachable s -> In l (live s) -> writes l p -> under root p.
Proof. intros. eapply (p_writes root input preserve set run archive_ok order1 order2 order3 opens there ORDER1 ORDER2 ORDER3 SANE EMPTY APART); eauto. Qed.
(* What a process reports is written by no other. *)
Theorem C67_results s l p o :
  reachable s -> In l (started s) -> In p [c_out (call_of l); c_err (call_of l); c_meta (call_of l)] -> content (files s) p = Some o -> o = MadeBy l.
Proof. intros. eapply (p_results root input preserve set run archive_ok order1 order2 order3 opens there ORDER1 ORDER2 ORDER3 SANE EMPTY APART); eauto. Qed.

(* C68: what is sent back: nothing twice, and of each process its own results. *)
Theorem C68_archive s z :
  reachable s -> archive s = Some z ->
  NoDup (map fst z) /\
  forall n o, In (n, o) z ->
    (exists l, In l (started s) /\ o = MadeBy l /\ In (path_join root n) [c_out (call_of l); c_err (call_of l); c_meta (call_of l)]) \/
    lang run = "cat" /\ (o = Submission \/ o = Runner) /\ exists c e, In c (cases set) /\ In e [".out"; ".err"; ".meta"] /\ n = (c ++ e)%string.
Proof.
  intros R Z. split; [eapply (archive_nodup root input preserve set run archive_ok order1 order2 order3 opens there ORDER1 ORDER2 ORDER3 SANE EMPTY APART); eauto|]. intros n o I.
  destruct (p_archive root input preserve set run archive_ok order1 order2 order3 opens there ORDER1 ORDER2 ORDER3 SANE EMPTY APART s z n o R Z I) as [(l & L & G & ->)|X]; [left|right; auto].
  exists l. repeat split; auto. pose proof (started_potential root input preserve set run archive_ok order1 order2 order3 opens there ORDER1 ORDER2 ORDER3 SANE EMPTY APART s l R L) as P.
  destruct (calls root input set run archive_ok order1 order2 order3 ORDER1 SANE l P) as (A1 & A2 & A3). rewrite A1, A2, A3. pose proof (generated_paths root input set run archive_ok order1 order2 order3 opens ORDER1 SANE l P) as GP.
  change [out_at root l ".out"; out_at root l ".err"; out_at root l ".meta"] with (map (out_at root l) exts). rewrite <- GP. apply (in_map (in_root root)). exact G.
Qed.
(* Nothing is left out: every result file there is when Grade returns an archive is in
   it, unless it could not be opened. *)
Theorem C68_complete s z :
  reachable s -> archive s = Some z -> at_ s = Finished ->
  (forall l p o, In l (started s) -> In p [c_out (call_of l); c_err (call_of l); c_meta (call_of l)] -> content (files s) p = Some o ->
     exists n, path_join root n = p /\ (In (n, o) z \/ opens n = false)) /\
  (lang run = "cat" -> forall c e o, In c (cases set) -> In e [".out"; ".err"; ".meta"] -> content (files s) (root ++ [(c ++ e)%string])%list = Some o ->
     In ((c ++ e)%string, o) z \/ opens (c ++ e)%string = false).
Proof.
  intros R Z A. split.
  - intros l p o L P C. pose proof (started_potential root input preserve set run archive_ok order1 order2 order3 opens there ORDER1 ORDER2 ORDER3 SANE EMPTY APART s l R L) as PO.
    destruct (calls root input set run archive_ok order1 order2 order3 ORDER1 SANE l PO) as (A1 & A2 & A3). rewrite A1, A2, A3 in P. pose proof (generated_paths root input set run archive_ok order1 order2 order3 opens ORDER1 SANE l PO) as GP.
    change [out_at root l ".out"; out_at root l ".err"; out_at root l ".meta"] with (map (out_at root l) exts) in P. rewrite <- GP in P. apply in_map_iff in P as (n & <- & I). exists n. split; [reflexivity|].
    eapply (p_complete root input preserve set run archive_ok order1 order2 order3 opens there ORDER1 ORDER2 ORDER3 SANE EMPTY APART s); eauto.
    destruct (told root input preserve set run archive_ok order1 order2 order3 opens there ORDER1 ORDER2 ORDER3 SANE EMPTY APART s l R L) as [X|X]; [|apply X; auto].
    pose proof (inv_reachable root input preserve set run archive_ok order1 order2 order3 opens there ORDER1 ORDER2 ORDER3 SANE EMPTY APART s R) as IV. pose proof (i_placed _ _ _ _ _ _ _ _ _ s IV) as PL. unfold placed in PL. rewrite A in PL. rewrite PL in X. destruct X.
  - intros LC c e o CC E C. assert (PE : in_root root (c ++ e)%string = (root ++ [(c ++ e)%string])%list).
    { unfold in_root. apply join_out; [|exact E]. destruct (sane_cases _ _ SANE c CC). auto. }
    eapply (p_complete root input preserve set run archive_ok order1 order2 order3 opens there ORDER1 ORDER2 ORDER3 SANE EMPTY APART s); eauto; [|rewrite PE; exact C].
    eapply (told_cat root input preserve set run archive_ok order1 order2 order3 opens there ORDER1 ORDER2 ORDER3 SANE EMPTY APART s c e R LC CC E).
    unfold content in C. destruct (names (files s) _); [discriminate|discriminate C].
Qed.
(* After the cleanup nothing is left, unless files are preserved, and nothing runs. *)
Theorem C68_clean s :
  reachable s -> at_ s = Gone -> live s = [] /\ (preserve = false -> forall p, under root p -> names (files s) p = None).
Proof.
  intros R A. split; [|intros P; eapply (gone root input preserve set run archive_ok order1 order2 order3 opens there ORDER1 ORDER2 ORDER3 SANE EMPTY APART); eauto].
  pose proof (inv_reachable root input preserve set run archive_ok order1 order2 order3 opens there ORDER1 ORDER2 ORDER3 SANE EMPTY APART s R) as IV. pose proof (i_placed _ _ _ _ _ _ _ _ _ s IV) as PL. unfold placed in PL. rewrite A in PL. exact PL.
Qed.

(* An interactive problem whose programs cannot all be written in the language of the
   run is a compile error, and nothing is compiled or run; no other is one before
   anything is compiled. *)
Theorem C65_unsupported it :
  interactive set = Some it -> complete it ->
  (snd (prepare root input set run archive_ok order1 order2 order3) = CompileError <-> unsupported it (lang run)) /\
  (unsupported it (lang run) -> forall s, reachable s -> started s = []).
Proof.
  intros I [(m0 & M0 & P0) RULES].
  assert (FN : forall A k (l : list (string * A)), find k l = None <-> ~ In k (map fst l)).
  { intros A k l. induction l as [|(k', v) l IH]; cbn [find map fst In]; [split; [intros _ []|reflexivity]|].
    destruct (String.eqb_spec k k') as [E|E]; [split; [discriminate|intros H; exfalso; apply H; left; auto]|].
    rewrite IH. split; [intros H [Q|Q]; [congruence|exact (H Q)]|intros H Q; apply H; right; exact Q]. }
  assert (ND : NoDup (map fst (Interfaces it))) by exact (proj1 (proj2 (proj2 (proj2 (sane_interactive _ _ SANE it I))))).
  assert (KEY : forall nm m m', In (nm, m) (Interfaces it) -> In (nm, m') (Interfaces it) -> m = m').
  { intros nm m m' A B. clear - ND A B. induction (Interfaces it) as [|(k, v) l IH]; [destruct A|]. cbn [map fst] in ND. inversion ND as [|x y N1 N2]; subst.
    assert (Z : forall w, In (nm, w) l -> In nm (map fst l)) by (intros w H; apply in_map_iff; exists (nm, w); split; [reflexivity|exact H]).
    destruct A as [A|A], B as [B|B]; [congruence|inversion A; subst; exfalso; exact (N1 (Z _ B))|inversion B; subst; exfalso; exact (N1 (Z _ A))|exact (IH N2 A B)]. }
  assert (CB : forall l, (forall x, In x l -> In x (Interfaces it)) ->
    (child_binaries root set run it l = Some None <-> exists nm m, In (nm, m) l /\ nm <> Main it /\ ~ In (LanguageFileExtension (lang run)) (map fst m)) /\
    child_binaries root set run it l <> None).
  { induction l as [|(nm, m) l IH]; intros SUB; cbn [child_binaries].
    - split; [split; [discriminate|intros (nm & m & [] & _)]|discriminate].
    - destruct IH as [IH1 IH2]; [intros x H; apply SUB; right; exact H|].
      destruct (String.eqb_spec nm (Main it)) as [E|E].
      + split; [|exact IH2]. rewrite IH1. split; intros (nm' & m' & A & B & C); exists nm', m'; [split; [right; exact A|auto]|].
        destruct A as [A|A]; [inversion A; subst; contradiction|auto].
      + destruct (find (LanguageFileExtension (lang run)) m) as [i|] eqn:F.
        * unfold normalizedSourceFiles. destruct (MakefileRules i) as [|r rs] eqn:RU; [exfalso; exact (RULES nm m _ i (SUB _ (or_introl eq_refl)) (find_in _ _ _ F) RU)|].
          assert (HAS : In (LanguageFileExtension (lang run)) (map fst m)) by exact (find_in_names _ _ _ F).
          assert (EQ : (exists nm' m', In (nm', m') ((nm, m) :: l) /\ nm' <> Main it /\ ~ In (LanguageFileExtension (lang run)) (map fst m')) <->
                       (exists nm' m', In (nm', m') l /\ nm' <> Main it /\ ~ In (LanguageFileExtension (lang run)) (map fst m'))).
          { split; intros (nm' & m' & A & B & C); exists nm', m'; [|split; [right; exact A|auto]]. destruct A as [A|A]; [inversion A; subst; contradiction|auto]. }
          rewrite EQ, <- IH1. destruct (child_binaries root set run it l) as [[bs|]|]; [split; [split; discriminate|discriminate]|split; [split; reflexivity|discriminate]|exfalso; exact (IH2 eq_refl)].
        * split; [|discriminate]. split; [intros _|reflexivity]. exists nm, m. split; [left; reflexivity|]. split; [exact E|]. apply FN. exact F. }
  destruct (CB (order1 (Interfaces it))) as [CB1 CB2]; [intros x H; exact (Permutation_in _ (Permutation_sym (ORDER1 _)) H)|].
  assert (U : unsupported it (lang run) <-> child_binaries root set run it (order1 (Interfaces it)) = Some None).
  { rewrite CB1. unfold unsupported. split; intros (nm & m & A & B); exists nm, m; split; auto; [exact (Permutation_in _ (ORDER1 _) A)|exact (Permutation_in _ (Permutation_sym (ORDER1 _)) A)]. }
  assert (E : snd (prepare root input set run archive_ok order1 order2 order3) = CompileError <-> unsupported it (lang run)).
  { rewrite U. unfold prepare. rewrite I.
    destruct (find (Main it) (Interfaces it)) as [m|] eqn:F1; [|exfalso; apply FN in F1; apply F1; apply in_map_iff; exists (Main it, m0); auto].
    rewrite (KEY _ _ _ (find_in _ _ _ F1) M0) in *. destruct (find (Parent it) m0) as [i|] eqn:F2; [|exfalso; apply FN in F2; exact (F2 P0)].
    unfold normalizedSourceFiles at 1. destruct (MakefileRules i) as [|r rs] eqn:RU; [exfalso; exact (RULES _ _ _ _ M0 (find_in _ _ _ F2) RU)|].
    destruct (child_binaries root set run it (order1 (Interfaces it))) as [[bs|]|]; [|split; reflexivity|exfalso; exact (CB2 eq_refl)].
    split; [|discriminate]. cbn zeta. destruct (snd (interface_ops root run order3 it (order2 (Interfaces it)))) eqn:Q; rewrite ?Q; [|discriminate].
    unfold with_validator. destruct (validator_name set =? "custom"); [destruct (validator_lang set)|]; discriminate. }
  split; [exact E|]. intros UN s R. destruct (started s) as [|l ls] eqn:ST; [reflexivity|exfalso].
  assert (Q : In l (started s)) by (rewrite ST; left; reflexivity).
  pose proof (ready_started root input preserve set run archive_ok order1 order2 order3 opens there ORDER1 ORDER2 ORDER3 SANE EMPTY APART s l R Q) as Z.
  unfold is_ready in Z. rewrite (proj2 E UN) in Z. exact Z.
Qed.
End Grade.

(* ---- The limits the sandbox is called with ---- *)
Theorem C65_jail lng l :
  (0 <= TimeLimit l)%Z -> (0 <= ExtraWallTime l)%Z ->
  let j := jail_limits lng l in
  (j_memory j <= MemoryLimit l)%Z /\ (j_memory j <= 640 * 1048576)%Z /\ (j_memory j = MemoryLimit l \/ j_memory j = 640 * 1048576)%Z /\ j_output j = OutputLimit l /\
  (* milliseconds, rounded down *)
  (j_extra j * 1000000 <= ExtraWallTime l < (j_extra j + 1) * 1000000)%Z /\
  (lng <> "java" -> (j_time j * 1000000 <= TimeLimit l < (j_time j + 1) * 1000000)%Z) /\
  (lng = "java" -> (j_time j * 1000000 <= TimeLimit l + 1000 < (j_time j + 1) * 1000000)%Z).
Proof.
  intros T W. unfold jail_limits, milliseconds, Mebibyte. cbn [j_memory j_time j_extra j_output].
  assert (Q : forall d, (0 <= d)%Z -> (Z.quot d 1000000 * 1000000 <= d < (Z.quot d 1000000 + 1) * 1000000)%Z) by (intros d D; rewrite Z.quot_div_nonneg by lia; pose proof (Z.div_mod d 1000000); pose proof (Z.mod_pos_bound d 1000000); lia).
  destruct (String.eqb_spec lng "java") as [->|N]; repeat split; try lia; try (apply Q; lia); try contradiction; intros; try congruence; apply Q; lia.
Qed.
(* A Java program is meant to have a second more; it has a microsecond more, nothing if
   the limit is in milliseconds. *)
Theorem C65_java_refuted l k : TimeLimit l = (k * 1000000)%Z -> (0 <= k)%Z -> j_time (jail_limits "java" l) = j_time (jail_limits "cpp" l) /\ j_time (jail_limits "java" l) = k.
Proof.
  intros E K. unfold jail_limits, milliseconds. cbn [j_time String.eqb Ascii.eqb Bool.eqb]. rewrite E. rewrite !Z.quot_div_nonneg by lia.
  assert (A : ((k * 1000000 + 1000) / 1000000 = k)%Z) by (symmetry; apply (Z.div_unique _ _ k 1000); lia). rewrite A, Z.div_mul by lia. auto.
Qed.
Print Assumptions C64_sees.
Print Assumptions C64_stdin.
Print Assumptions C64_unchanged.
Print Assumptions C64_problemsetter.
Print Assumptions C65_asked.
Print Assumptions C65_once.
Print Assumptions C65_alone.
Print Assumptions C65_order.
Print Assumptions C65_together.
Print Assumptions C66_finds.
Print Assumptions C66_judged.
Print Assumptions C66_else.
Print Assumptions C67_outside.
Print Assumptions C67_writes.
Print Assumptions C67_results.
Print Assumptions C68_archive.
Print Assumptions C68_complete.
Print Assumptions C68_clean.
Print Assumptions C65_jail.
Print Assumptions C65_java_refuted.
Print Assumptions C65_unsupported.

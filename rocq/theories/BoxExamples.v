(* C64-C68: examples, and what is not true *)
From Coq Require Import String Ascii List Bool ZArith Permutation Lia.
From Verif Require Import GoStr InModel LitModel FeSpec BoxModel BoxSpec BoxProofs BoxProps.
Import ListNotations.
Local Open Scope string_scope.
Definition root0 : path := ["grade"; "1"].
Definition input0 : path := ["input"].
Definition limits0 : limits := {| ExtraWallTime := 0; MemoryLimit := 64 * Mebibyte; OutputLimit := 10240; OverallWallTimeLimit := 60 * Second; TimeLimit := Second |}.
Definition set0 (cs : list string) : settings :=
  {| cases := cs; interactive := None; problem_limits := limits0; validator_name := "custom"; validator_lang := Some "cpp"; validator_limits := None |}.
Definition run0 : request := {| lang := "cpp"; debug := false |}.
Definition there0 (p : path) : bool :=
  existsb (path_eqb p) [["input"; "validator.cpp"]; ["input"; "cases"; "a.in"]; ["input"; "cases"; "a.out"]; ["input"; "cases"; "b.in"]].
Definition id3 (l : list (string * list (string * iface))) := l.
Definition start0 cs := start root0 input0 (set0 cs) run0 true id3 id3 (fun l => l) there0.
Notation reachable0 cs := (reachable root0 input0 false (set0 cs) run0 true id3 id3 (fun l => l) (fun _ => true) there0).
Lemma f_equal6 {A1 A2 A3 A4 A5 A6 B} (f : A1 -> A2 -> A3 -> A4 -> A5 -> A6 -> B) a1 b1 a2 b2 a3 b3 a4 b4 a5 b5 a6 b6 : a1 = b1 -> a2 = b2 -> a3 = b3 -> a4 = b4 -> a5 = b5 -> a6 = b6 -> f a1 a2 a3 a4 a5 a6 = f b1 b2 b3 b4 b5 b6.
Proof. congruence. Qed.
(* one step; the state is kept evaluated *)
Ltac tidy R :=
  unfold go, launch, finish in R; cbn [files live started generated at_ bins archive] in R;
  match type of R with reachable _ _ _ _ _ _ _ _ _ _ _ ?s =>
    match s with {| files := ?f; live := ?l; started := ?st; generated := ?g; at_ := ?a; bins := ?b; archive := ?z |} =>
      let l' := eval vm_compute in l in let st' := eval vm_compute in st in let g' := eval vm_compute in g in let a' := eval vm_compute in a in let b' := eval vm_compute in b in
      let s' := constr:({| files := f; live := l'; started := st'; generated := g'; at_ := a'; bins := b'; archive := z |}) in
      let E := fresh in assert (E : s = s') by (apply (f_equal6 (fun x1 x2 x3 x4 x5 x6 => {| files := f; live := x1; started := x2; generated := x3; at_ := x4; bins := x5; archive := x6 |})); vm_compute; reflexivity);
      try rewrite E in R; clear E
    end end.
Tactic Notation "fwd" hyp(R) uconstr(c) :=
  let H := fresh in
  eassert (H : reachable _ _ _ _ _ _ _ _ _ _ _ _);
  [eapply reach_step; [exact R|eapply c; try reflexivity]|clear R; rename H into R; tidy R].
Tactic Notation "prepared0" hyp(R) := fwd R makes_dir; fwd R writes_file; fwd R makes_dir; fwd R copies; [eapply copy_links; vm_compute; reflexivity|]; fwd R prepared.
Tactic Notation "compiled0" hyp(R) := fwd R compile; fwd R compiled.
Tactic Notation "writes0" hyp(R) constr(p) := fwd R process_writes; [left; reflexivity|instantiate (1 := p); left; vm_compute; auto 6|].
Tactic Notation "program0" hyp(R) constr(o) constr(m) :=
  fwd R begins_case; [discriminate|]; fwd R (starts_program root0 input0 false _ run0 _ _ _ _ []); writes0 R o; writes0 R m; fwd R (program_ends root0 input0 false _ run0 _ _ _ _ _ []); fwd R case_done.
Tactic Notation "link0" hyp(R) := fwd R links; [eapply copy_links; vm_compute; reflexivity|].
Lemma sane0 cs : Forall (fun c => plain c /\ c <> "compile") cs -> NoDup cs -> sane (set0 cs) run0.
Proof.
  intros C N. constructor; cbn; auto; try discriminate.
  - intros X. cbn in X. intuition discriminate.
  - rewrite Forall_forall in C. auto.
  - intros vl [= <-] X. cbn in X. intuition discriminate.
Qed.
Lemma apart0 : apart root0 input0.
Proof. split; intros (r & E); discriminate E. Qed.
Lemma empty0 : empty_root root0 there0.
Proof. intros p T (r & ->). vm_compute in T. discriminate T. Qed.
Lemma id_perm l : Permutation l (id3 l).
Proof. reflexivity. Qed.
(* The hypotheses of the theorems above are met in all these. *)
(* Two cases, the second without an expected output: it can happen that the validator
   still finds that of the first. *)
Definition ab_sane : sane (set0 ["a"; "b"]) run0.
Proof. apply sane0; repeat constructor; try discriminate; try (intros X; cbn in X; intuition discriminate). Qed.
Example C66_two_cases : exists s b,
  reachable0 ["a"; "b"] s /\ live s = [Judge "b"] /\
  In (Program b "a") (started s) /\ In (Program b "b") (started s) /\ binaryType b = Contestant /\ name b = "Main" /\
  content (files s) (root0 ++ ["validator"; "bin"; "data.in"])%list = Some (Initial ["input"; "cases"; "b.in"]) /\
  content (files s) (root0 ++ ["validator"; "bin"; "meta.in"])%list = Some (MadeBy (Program b "b")) /\
  content (files s) (root0 ++ ["b.out"])%list = Some (MadeBy (Program b "b")) /\
  there0 ["input"; "cases"; "b.out"] = false /\
  content (files s) (root0 ++ ["validator"; "bin"; "data.out"])%list = Some (Initial ["input"; "cases"; "a.out"]).
Proof.
  pose proof (reach_start root0 input0 false (set0 ["a"; "b"]) run0 true id3 id3 (fun l => l) (fun _ => true) there0) as R.
  unfold start in R. tidy R. prepared0 R. compiled0 R. compiled0 R. fwd R all_compiled.
  program0 R (root0 ++ ["a.out"])%list (root0 ++ ["a.meta"])%list. program0 R (root0 ++ ["b.out"])%list (root0 ++ ["b.meta"])%list.
  fwd R cases_done. fwd R validates. link0 R. link0 R. link0 R. fwd R judges. fwd R judged.
  fwd R validates. link0 R. link0 R. fwd R judges.
  (eexists; eexists; split; [exact R|]; repeat split; try (vm_compute; auto; fail)).
Qed.

(* So it is not true that the validator finds an expected output only if there is one
   for the case, *)
Theorem C66_stale_refuted :
  ~ forall root input preserve set run archive_ok order1 order2 order3 opens there,
    (forall l, Permutation l (order1 l)) -> (forall l, Permutation l (order2 l)) -> (forall l, Permutation l (order3 l)) -> sane set run -> empty_root root there -> apart root input ->
    forall s c o, reachable root input preserve set run archive_ok order1 order2 order3 opens there s -> In (Judge c) (live s) ->
    content (files s) (root ++ ["validator"; "bin"; "data.out"])%list = Some o -> o = Initial (input ++ ["cases"; (c ++ ".out")%string])%list.
Proof.
  intros H. destruct C66_two_cases as (s & b & R & L & _ & _ & _ & _ & _ & _ & _ & _ & D).
  specialize (H root0 input0 false (set0 ["a"; "b"]) run0 true id3 id3 (fun l => l) (fun _ => true) there0 id_perm id_perm (@Permutation_refl string) ab_sane empty0 apart0 s "b" (Initial ["input"; "cases"; "a.out"]) R). rewrite L in H. specialize (H (or_introl eq_refl) D). discriminate H.
Qed.
(* nor that it always finds the input: a failure to copy it goes unnoticed. *)
Theorem C66_missing : exists s, reachable0 ["a"] s /\ live s = [Judge "a"] /\ there0 ["input"; "cases"; "a.in"] = true /\ content (files s) (root0 ++ ["validator"; "bin"; "data.in"])%list = None.
Proof.
  pose proof (reach_start root0 input0 false (set0 ["a"]) run0 true id3 id3 (fun l => l) (fun _ => true) there0) as R.
  unfold start in R. tidy R. prepared0 R. compiled0 R. compiled0 R. fwd R all_compiled. program0 R (root0 ++ ["a.out"])%list (root0 ++ ["a.meta"])%list.
  fwd R cases_done. fwd R validates. fwd R links; [apply copy_nothing|]. fwd R links; [apply copy_nothing|]. fwd R links; [apply copy_nothing|]. fwd R judges.
  eexists. split; [exact R|]. repeat split; vm_compute; reflexivity.
Qed.
(* What is sent back, and the end. *)
Example C68_one_case : exists s z b,
  reachable0 ["a"] s /\ at_ s = Gone /\ archive s = Some z /\ In ("a.out", MadeBy (Program b "a")) z /\ map fst z = ["a.out"; "a.meta"] /\ names (files s) (root0 ++ ["a.out"])%list = None.
Proof.
  pose proof (reach_start root0 input0 false (set0 ["a"]) run0 true id3 id3 (fun l => l) (fun _ => true) there0) as R.
  unfold start in R. tidy R. prepared0 R. compiled0 R. compiled0 R. fwd R all_compiled. program0 R (root0 ++ ["a.out"])%list (root0 ++ ["a.meta"])%list.
  fwd R cases_done. fwd R not_validated. fwd R validated.
  fwd R uploads; [do 6 (apply zip_skip; [left; vm_compute; reflexivity|]); apply zip_add; [vm_compute; reflexivity|reflexivity|apply zip_skip; [left; vm_compute; reflexivity|]; apply zip_add; [vm_compute; reflexivity|reflexivity|apply zip_nil]]|].
  fwd R cleans_up. eexists. eexists. eexists. split; [exact R|]. repeat split; try (vm_compute; auto; fail).
Qed.
(* A result that cannot be opened is left out without an error. *)
Theorem C68_complete_refuted :
  ~ forall root input preserve set run archive_ok order1 order2 order3 opens there,
    (forall l, Permutation l (order1 l)) -> (forall l, Permutation l (order2 l)) -> (forall l, Permutation l (order3 l)) -> sane set run -> empty_root root there -> apart root input ->
    forall s z l o, reachable root input preserve set run archive_ok order1 order2 order3 opens there s -> archive s = Some z -> at_ s = Finished ->
    In l (started s) -> content (files s) (c_out (call_of root input set run l)) = Some o -> exists n, path_join root n = c_out (call_of root input set run l) /\ In (n, o) z.
Proof.
  intros H. set (no := fun n : string => negb (n =? "a.out")).
  assert (X : exists s b, reachable root0 input0 false (set0 ["a"]) run0 true id3 id3 (fun l => l) no there0 s /\ archive s = Some [] /\ at_ s = Finished /\ In (Program b "a") (started s) /\
    content (files s) (c_out (call_of root0 input0 (set0 ["a"]) run0 (Program b "a"))) = Some (MadeBy (Program b "a"))).
  { pose proof (reach_start root0 input0 false (set0 ["a"]) run0 true id3 id3 (fun l => l) no there0) as R.
    unfold start in R. tidy R. prepared0 R. compiled0 R. compiled0 R. fwd R all_compiled.
    fwd R begins_case; [discriminate|]; fwd R (starts_program root0 input0 false _ run0 _ _ _ _ []). writes0 R (root0 ++ ["a.out"])%list. fwd R (program_ends root0 input0 false _ run0 _ _ _ _ _ []). fwd R case_done.
    fwd R cases_done. fwd R not_validated. fwd R validated.
    fwd R uploads; [do 6 (apply zip_skip; [left; vm_compute; reflexivity|]); apply zip_skip; [right; reflexivity|]; do 2 (apply zip_skip; [left; vm_compute; reflexivity|]); apply zip_nil|].
    eexists. eexists. split; [exact R|]. repeat apply conj; [reflexivity|reflexivity|vm_compute; left; reflexivity|vm_compute; reflexivity]. }
  destruct X as (s & b & R & Z & A & I & C).
  destruct (H root0 input0 false (set0 ["a"]) run0 true id3 id3 (fun l => l) no there0 id_perm id_perm (@Permutation_refl string)
              ltac:(apply sane0; repeat constructor; try discriminate; try (intros Y; cbn in Y; intuition discriminate)) empty0 apart0 s [] (Program b "a") _ R Z A I C) as (n & _ & []).
Qed.
(* Case names with slashes: the program of one case leaves something for that of the
   next, *)
Theorem C64_slash_refuted :
  ~ forall root input preserve set run archive_ok order1 order2 order3 opens there,
    (forall l, Permutation l (order1 l)) -> (forall l, Permutation l (order2 l)) -> (forall l, Permutation l (order3 l)) -> empty_root root there -> apart root input ->
    forall s l b p o, reachable root input preserve set run archive_ok order1 order2 order3 opens there s -> In l (live s) -> binary_of l = Some b -> binaryType b = Contestant ->
    sees root input set run l p -> content (files s) p = Some o -> own (name b) o.
Proof.
  intros H. assert (X : exists s b, reachable0 ["Main/bin/x"; "y"] s /\ live s = [Program b "y"] /\ binaryType b = Contestant /\ sees root0 input0 (set0 ["Main/bin/x"; "y"]) run0 (Program b "y") (root0 ++ ["Main"; "bin"; "x.out"])%list /\
    content (files s) (root0 ++ ["Main"; "bin"; "x.out"])%list = Some (MadeBy (Program b "Main/bin/x"))).
  { pose proof (reach_start root0 input0 false (set0 ["Main/bin/x"; "y"]) run0 true id3 id3 (fun l => l) (fun _ => true) there0) as R.
    unfold start in R. tidy R. prepared0 R. compiled0 R. compiled0 R. fwd R all_compiled. program0 R (root0 ++ ["Main"; "bin"; "x.out"])%list (root0 ++ ["Main"; "bin"; "x.meta"])%list.
    fwd R begins_case; [discriminate|]. fwd R (starts_program root0 input0 false _ run0 _ _ _ _ []).
    eexists. eexists. split; [exact R|]. split; [reflexivity|]. split; [reflexivity|]. split; [left; exists ["x.out"]; vm_compute; reflexivity|vm_compute; reflexivity]. }
  destruct X as (s & b & R & L & T & S & C).
  specialize (H root0 input0 false (set0 ["Main/bin/x"; "y"]) run0 true id3 id3 (fun l => l) (fun _ => true) there0 id_perm id_perm (@Permutation_refl string) empty0 apart0 s (Program b "y") b (root0 ++ ["Main"; "bin"; "x.out"])%list (MadeBy (Program b "Main/bin/x")) R). rewrite L in H.
  destruct (H (or_introl eq_refl) eq_refl T S C) as [X|[(f & X)|[X|(b' & X & _)]]]; discriminate X.
Qed.
(* and that of a case called ../2/x writes into the directory of another attempt. *)
Theorem C67_dots_refuted :
  ~ forall root input preserve set run archive_ok order1 order2 order3 opens there,
    (forall l, Permutation l (order1 l)) -> (forall l, Permutation l (order2 l)) -> (forall l, Permutation l (order3 l)) -> empty_root root there -> apart root input ->
    forall s p, reachable root input preserve set run archive_ok order1 order2 order3 opens there s -> ~ under root p -> names (files s) p = names (start_files there) p.
Proof.
  intros H. assert (X : exists s, reachable0 ["../2/x"] s /\ names (files s) ["grade"; "2"; "x.out"] <> None).
  { pose proof (reach_start root0 input0 false (set0 ["../2/x"]) run0 true id3 id3 (fun l => l) (fun _ => true) there0) as R.
    unfold start in R. tidy R. prepared0 R. compiled0 R. compiled0 R. fwd R all_compiled. fwd R begins_case; [discriminate|]. fwd R (starts_program root0 input0 false _ run0 _ _ _ _ []). writes0 R ["grade"; "2"; "x.out"].
    eexists. split; [exact R|]. vm_compute. discriminate. }
  destruct X as (s & R & N). apply N.
  rewrite (H root0 input0 false (set0 ["../2/x"]) run0 true id3 id3 (fun l => l) (fun _ => true) there0 id_perm id_perm (@Permutation_refl string) empty0 apart0 s _ R); [reflexivity|]. intros (r & E). discriminate E.
Qed.

(* ---- An interactive problem ---- *)
Definition it0 (f : string) : interactive_settings :=
  {| Main := "Main"; Module := "sums"; Parent := "cpp";
     Interfaces := [("Main", [("cpp", {| MakefileRules := [["Main/Main.cpp"; "Main/" ++ f]]; IfaceFiles := ["Main/" ++ f] |})]);
                    ("sums", [("cpp", {| MakefileRules := [["sums/sums.cpp"; "sums/sums_entry.cpp"]]; IfaceFiles := ["sums/sums_entry.cpp"] |})])] |}.
Definition set1 (f : string) : settings :=
  {| cases := ["a"]; interactive := Some (it0 f); problem_limits := limits0; validator_name := "token"; validator_lang := None; validator_limits := None |}.
Definition there1 (p : path) : bool := existsb (path_eqb p) [["input"; "interactive"; "Main.cpp"]; ["input"; "cases"; "a.in"]].
Notation reachable1 f := (reachable root0 input0 false (set1 f) run0 true id3 id3 (fun l => l) (fun _ => true) there1).
Lemma empty1 : empty_root root0 there1.
Proof. intros p T (r & ->). vm_compute in T. discriminate T. Qed.
Example sane1 : sane (set1 "Main_entry.cpp") run0.
Proof.
  assert (PL : forall s, existsb (Ascii.eqb "/") (list_ascii_of_string s) = false -> plain s).
  { intros s. induction s as [|x s IH]; cbn; intros E X; [destruct X|]. apply orb_false_iff in E as [E1 E2]. destruct X as [->|X]; [discriminate|]. apply IH; auto. }
  constructor; cbn [set1 cases validator_lang interactive run0 lang]; try discriminate.
  - apply PL. reflexivity.
  - intros c [<-|[]]. split; [apply PL; reflexivity|discriminate].
  - repeat constructor. intros [].
  - intros it [= <-]. cbn. repeat split; try (apply PL; reflexivity); try (repeat constructor; cbn; intuition discriminate); destruct H as [<-|[<-|[]]]; try discriminate; intros X; cbn in X; intuition discriminate.
  - intros it m l i f [= <-] I J K. cbn in I. destruct I as [[= <-]|[[=]|[]]]. cbn in J. destruct J as [[= <- <-]|[]]. cbn in K. destruct K as [<-|[]]. vm_compute. discriminate.
Qed.
Tactic Notation "prepared1" hyp(R) :=
  fwd R makes_dir; fwd R makes_dir; fwd R copies; [eapply copy_links; vm_compute; reflexivity|]; fwd R writes_file; fwd R makes_dir; fwd R writes_file; fwd R writes_file; fwd R makes_dir; fwd R makes_dir; fwd R makes_fifo; fwd R makes_fifo; fwd R prepared.
Example C65_interactive : exists s b b',
  reachable1 "Main_entry.cpp" s /\ live s = [Program b' "a"; Program b "a"] /\ name b = "Main" /\ binaryType b = Problemsetter /\ name b' = "sums" /\ binaryType b' = Contestant /\
  In (Compiler b) (started s) /\ In (Compiler b') (started s) /\
  sees root0 input0 (set1 "Main_entry.cpp") run0 (Program b "a") (root0 ++ ["sums"; "pipes"; "in"])%list /\
  content (files s) (root0 ++ ["sums"; "pipes"; "in"])%list = Some Pipe /\
  content (files s) (root0 ++ ["sums"; "bin"; "sums.cpp"])%list = Some Submission /\
  content (files s) (root0 ++ ["Main"; "bin"; "Main.cpp"])%list = Some (Initial ["input"; "interactive"; "Main.cpp"]).
Proof.
  pose proof (reach_start root0 input0 false (set1 "Main_entry.cpp") run0 true id3 id3 (fun l => l) (fun _ => true) there1) as R.
  unfold start in R. tidy R. prepared1 R. compiled0 R. compiled0 R. fwd R all_compiled. fwd R begins_case; [discriminate|].
  fwd R (starts_program root0 input0 false _ run0 _ _ _ _ []). fwd R (starts_program root0 input0 false _ run0 _ _ _ _ []).
  eexists. eexists. eexists. split; [exact R|]. split; [reflexivity|]. repeat split; try (vm_compute; auto; fail).
  right. exists (root0 ++ ["sums"; "pipes"])%list, "/home/sums_pipes". split; [vm_compute; auto|exists ["in"]; vm_compute; reflexivity].
Qed.
(* C65_unsupported: these programs exist in C++ only. *)
Example C65_java : complete (it0 "Main_entry.cpp") /\ unsupported (it0 "Main_entry.cpp") "java" /\ ~ unsupported (it0 "Main_entry.cpp") (lang run0).
Proof.
  split; [split|split].
  - eexists. split; [left; reflexivity|left; reflexivity].
  - intros nm m l i [E|[E|[]]] J; inversion E; subst; destruct J as [J|[]]; inversion J; subst; discriminate.
  - exists "sums". eexists. split; [right; left; reflexivity|]. split; [discriminate|]. intros [H|[]]. vm_compute in H. discriminate H.
  - intros (nm & m & [E|[E|[]]] & N & H); inversion E; subst; [exact (N eq_refl)|]. apply H. left. vm_compute. reflexivity.
Qed.
(* A generated file that is called like the problemsetter's source overwrites it, and,
   as it is linked, in the problem. *)
Theorem C67_generated_refuted :
  ~ forall root input preserve set run archive_ok order1 order2 order3 opens there,
    (forall l, Permutation l (order1 l)) -> (forall l, Permutation l (order2 l)) -> (forall l, Permutation l (order3 l)) -> empty_root root there -> apart root input ->
    forall s p, reachable root input preserve set run archive_ok order1 order2 order3 opens there s -> ~ under root p ->
    content (files s) p = content (start_files there) p \/ exists b, content (files s) p = Some (MadeBy (Compiler b)).
Proof.
  intros H. assert (X : exists s, reachable1 "Main.cpp" s /\ content (files s) ["input"; "interactive"; "Main.cpp"] = Some (Library "Main" "Main/Main.cpp")).
  { pose proof (reach_start root0 input0 false (set1 "Main.cpp") run0 true id3 id3 (fun l => l) (fun _ => true) there1) as R.
    unfold start in R. tidy R. prepared1 R. eexists. split; [exact R|]. vm_compute. reflexivity. }
  destruct X as (s & R & C).
  destruct (H root0 input0 false (set1 "Main.cpp") run0 true id3 id3 (fun l => l) (fun _ => true) there1 id_perm id_perm (@Permutation_refl string) empty1 apart0 s ["input"; "interactive"; "Main.cpp"] R) as [X|(b & X)].
  - intros (r & E). discriminate E.
  - rewrite C in X. vm_compute in X. discriminate X.
  - rewrite C in X. discriminate X.
Qed.

Print Assumptions C66_two_cases.
Print Assumptions C67_generated_refuted.
Print Assumptions C64_slash_refuted.
Print Assumptions C67_dots_refuted.
Print Assumptions C66_stale_refuted.
Print Assumptions C66_missing.
Print Assumptions C68_complete_refuted.

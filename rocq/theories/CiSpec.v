(* C38, C39, C41, C52, C53: continuous integration reports. *)
From Coq Require Import String Ascii List Bool ZArith QArith.
From Verif Require Import CiModel.
Import ListNotations.
Local Open Scope string_scope.

(* The six states, and how they are spelled in JSON. *)
Definition spelling : list (Z * string) :=
  [(CIStateWaiting, """waiting"""); (CIStateRunning, """running"""); (CIStateSkipped, """skipped""");
   (CIStateError, """error"""); (CIStatePassed, """passed"""); (CIStateFailed, """failed""")].

(* error if any test errored, else failed if any failed, else passed *)
Definition worst (states : list Z) (s : Z) : Prop :=
  (In CIStateError states /\ s = CIStateError) \/
  (~ In CIStateError states /\ In CIStateFailed states /\ s = CIStateFailed) \/
  (~ In CIStateError states /\ ~ In CIStateFailed states /\ s = CIStatePassed).

(* What a test demands of a result: a solution has to get the verdict and the score
   it names, the inputs validator has to accept every case. *)
Definition meets (setting : option solution_settings) (r : run_result) : Prop :=
  match setting with
  | Some ss =>
      (sol_Verdict ss <> "" -> r_Verdict r = sol_Verdict ss) /\
      (forall range, sol_ScoreRange ss = Some range -> (Min range <= r_Score r <= Max range)%Q)
  | None => r_Verdict r = "AC"
  end.
(* How a test ends up being shown. *)
Definition shown (setting : option solution_settings) (o : test_outcome) (t : test_view) : Prop :=
  match o with
  | EarlyError e => t = {| t_state := CIStateError; t_error := e; t_result := None |}
  | Ran _ r (Some e) => t = {| t_state := CIStateError; t_error := e; t_result := Some r |}
  | Ran _ r None => t_result t = Some r /\ t_error t = "" /\
      (meets setting r /\ t_state t = CIStatePassed \/ ~ meets setting r /\ t_state t = CIStateFailed)
  end.
(* A version of the report while it runs: some tests are over and shown as they end
   up, at most one is running or has just got its result, the others wait. *)
Inductive coherent : list (option solution_settings * test_outcome) -> list test_view -> Prop :=
| all_wait : forall todo, coherent todo (map (fun _ => waiting_test) todo)
| one_over : forall s o t todo ts, shown s o t -> coherent todo ts -> coherent ((s, o) :: todo) (t :: ts)
| one_now : forall s picked r late t todo,
    t = {| t_state := CIStateRunning; t_error := ""; t_result := None |} \/ shown s (Ran picked r None) t ->
    coherent ((s, Ran picked r late) :: todo) (t :: map (fun _ => waiting_test) todo).

(* ---- Configuration. ---- *)
From Verif Require Import LitModel.

(* The language of a file: the one named, else what follows the last dot of its
   last element, cpp standing for cpp11. *)
Definition has_ext (filename e : string) : Prop :=
  exists base, filename = base ++ "." ++ e /\ ~ GoStr.contains "."%char e /\ ~ GoStr.contains "/"%char e.
Definition written_in (filename language lang : string) : Prop :=
  language <> "" /\ lang = language \/
  language = "" /\ exists e, has_ext filename e /\ lang = (if e =? "cpp" then "cpp11" else e).

(* The input of a problem, as its settings and files say. *)
(* The last entry of a list under a key: what a map filled in that order holds. *)
Definition last_of {A} (n : string) (x : A) (l : list (string * A)) : Prop :=
  exists pre post, l = (pre ++ (n, x) :: post)%list /\ ~ In n (map fst post).
Record problem_cases (c : commit) (groups : list (list (string * option Q))) (cases : list (string * option literal_case)) : Prop := {
  pc_distinct : NoDup (map fst cases);
  pc_names : forall n, In n (map fst cases) <-> In n (map fst (concat groups));
  pc_files : forall n x, In (n, x) cases -> exists lc, x = Some lc /\
      blob c ("cases/" ++ n ++ ".in") = Some (Input lc) /\ blob c ("cases/" ++ n ++ ".out") = Some (ExpectedOutput lc) /\ last_of n (Weight lc) (concat groups) }.
Definition problem_validator (c : commit) (s : ci_settings) (v : literal_validator) : Prop :=
  Name v = ps_ValidatorName s /\ Tolerance v = ps_Tolerance s /\
  (ps_ValidatorName s <> "custom" -> CustomValidator v = None) /\
  (ps_ValidatorName s = "custom" -> exists lang cv, ps_ValidatorLang s = Some lang /\ CustomValidator v = Some cv /\ Language cv = lang /\
      blob c ("validator." ++ lang) = Some (Source cv) /\ CustomLimits cv = ps_ValidatorLimits s).
Definition problem_interactive (c : commit) (s : ci_settings) (i : option literal_interactive) : Prop :=
  match ps_Interactive s with
  | None => i = None
  | Some (m, p) => exists li, i = Some li /\ ModuleName li = m /\ ParentLang li = p /\
      blob c ("interactive/" ++ LanguageFileExtension m ++ ".idl") = Some (IDLSource li) /\ blob c ("interactive/Main." ++ LanguageFileExtension p) = Some (MainSource li)
  end.
Definition problem_input (c : commit) (s : ci_settings) (input : literal_input) : Prop :=
  problem_cases c (ps_Groups s) (Cases input) /\ Limits input = Some (ps_Limits s) /\
  (exists v, Validator input = Some v /\ problem_validator c s v) /\ problem_interactive c s (Interactive input).

Record solution_test (c : commit) (s : ci_settings) (ss : solution_settings) (t : ci_test) : Prop := {
  st_setting : ct_setting t = Some ss;
  st_filename : ct_filename t = sol_Filename ss;
  st_language : written_in (sol_Filename ss) (sol_Language ss) (ct_language t);
  st_source : blob c ("tests/" ++ sol_Filename ss) = Some (ct_source t);
  st_input : problem_input c s (ct_input t) }.
(* The inputs validator judges the output of a program that copies its input. *)
Record inputs_test (copy : string) (c : commit) (s : ci_settings) (i : inputs_settings) (t : ci_test) : Prop := {
  it_setting : ct_setting t = None;
  it_filename : ct_filename t = inp_Filename i;
  it_program : ct_language t = "cpp11" /\ ct_source t = copy;
  it_cases : problem_cases c (ps_Groups s) (Cases (ct_input t));
  it_validator : exists lang src, Validator (ct_input t) = Some {| Name := "custom"; Tolerance := None; CustomValidator := Some {| Source := src; Language := lang; CustomLimits := None |} |} /\
      written_in (inp_Filename i) (inp_Language i) lang /\ blob c ("tests/" ++ inp_Filename i) = Some src;
  it_rest : Limits (ct_input t) = None /\ Interactive (ct_input t) = None }.

(* Every file the settings speak of exists, and every language can be told. *)
Record complete (c : commit) (sols : list solution_settings) (inp : option inputs_settings) (s : ci_settings) : Prop := {
  cp_cases : forall n w, In (n, w) (concat (ps_Groups s)) -> blob c ("cases/" ++ n ++ ".in") <> None /\ blob c ("cases/" ++ n ++ ".out") <> None;
  cp_validator : ps_ValidatorName s = "custom" -> exists lang, ps_ValidatorLang s = Some lang /\ blob c ("validator." ++ lang) <> None;
  cp_interactive : forall m p, ps_Interactive s = Some (m, p) -> blob c ("interactive/" ++ LanguageFileExtension m ++ ".idl") <> None /\ blob c ("interactive/Main." ++ LanguageFileExtension p) <> None;
  cp_solutions : forall ss, In ss sols -> blob c ("tests/" ++ sol_Filename ss) <> None /\ exists lang, written_in (sol_Filename ss) (sol_Language ss) lang;
  cp_inputs : forall i, inp = Some i -> blob c ("tests/" ++ inp_Filename i) <> None /\ exists lang, written_in (inp_Filename i) (inp_Language i) lang }.

(* ---- URLs. ---- *)
Definition problem_chars (p : string) : Prop :=
  Forall (fun a => (exists n, (n < 26)%nat /\ (a = ascii_of_nat (65 + n) \/ a = ascii_of_nat (97 + n))) \/ (exists n, (n < 10)%nat /\ a = ascii_of_nat (48 + n)) \/ a = "-"%char \/ a = "_"%char) (list_ascii_of_string p).
Definition hex_chars (h : string) : Prop :=
  Forall (fun a => (exists n, (n < 10)%nat /\ a = ascii_of_nat (48 + n)) \/ exists n, (n < 6)%nat /\ a = ascii_of_nat (97 + n)) (list_ascii_of_string h).
Definition is_ci_url (u p h : string) : Prop :=
  u = "/ci/problem/" ++ p ++ "/" ++ h ++ "/" /\ p <> "" /\ problem_chars p /\ String.length h = 40%nat /\ hex_chars h.

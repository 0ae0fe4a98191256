(* cmd/omegaup-grader/ci.go: what a continuous integration run reports, how it is
   configured from a commit and where it is stored; and ScoreRange of
   common/problemsettings.go. *)
From Coq Require Import String Ascii List Bool ZArith QArith.
From Verif Require Import GoStr LitModel.
Import ListNotations.
Local Open Scope string_scope.

(* ---- CIState, lines 72-150.  A Go int: any integer can be converted to it. *)
Notation CIState := Z (only parsing).
Definition CIStateWaiting : CIState := 0%Z.
Definition CIStateRunning : CIState := 1%Z.
Definition CIStateSkipped : CIState := 2%Z.
Definition CIStateError : CIState := 3%Z.
Definition CIStatePassed : CIState := 4%Z.
Definition CIStateFailed : CIState := 5%Z.

(* String, lines 101-118. *)
Definition CIState_String (s : CIState) : string :=
  if Z.eqb s CIStateWaiting then "waiting"
  else if Z.eqb s CIStateRunning then "running"
  else if Z.eqb s CIStateSkipped then "skipped"
  else if Z.eqb s CIStateError then "error"
  else if Z.eqb s CIStatePassed then "passed"
  else "failed".

Definition quote : ascii := ascii_of_nat 34.
(* MarshalJSON, lines 121-123.  %q puts quotes around a string, and leaves lower
   case letters as they are. *)
Definition CIState_MarshalJSON (s : CIState) : string := String quote (CIState_String s ++ String quote "").

(* UnmarshalJSON, lines 126-150.  It never fails. *)
Definition CIState_UnmarshalJSON (data : string) : CIState :=
  if data =? """waiting""" then CIStateWaiting
  else if data =? """running""" then CIStateRunning
  else if data =? """skipped""" then CIStateSkipped
  else if data =? """error""" then CIStateError
  else if data =? """passed""" then CIStatePassed
  else CIStateFailed.

(* ---- ScoreRange, common/problemsettings.go:158-192. ---- *)
Record score_range := { Min : Q; Max : Q }.
Definition Qgtb (a b : Q) : bool := negb (Qle_bool a b).   (* a.Cmp(b) > 0 *)
Definition Qltb (a b : Q) : bool := negb (Qle_bool b a).   (* a.Cmp(b) < 0 *)
(* UnmarshalJSON, lines 173-192, once the JSON has been decoded into floatScores
   (None: json.Unmarshal failed).  [flt] are the float64 values and FloatToRational
   is go-base's function, about which nothing is assumed.  The result is None when
   an error is returned (then the receiver was not changed). *)
Definition ScoreRange_UnmarshalJSON {flt} (FloatToRational : flt -> Q) (floatScores : option (list flt)) : option score_range :=
  match floatScores with
  | None => None
  | Some [a; b] =>
      let minScore := FloatToRational a in
      let maxScore := FloatToRational b in
      if Qgtb minScore maxScore then None
      else if Qgtb 0 minScore || Qgtb maxScore 1 then None
      else Some {| Min := minScore; Max := maxScore |}
  | Some _ => None
  end.

(* ---- One test, addRun, lines 603-711, from its result on. ---- *)
(* common/problemsettings.go:196-201. *)
Record solution_settings := { sol_Filename : string; sol_ScoreRange : option score_range; sol_Verdict : string; sol_Language : string }.
Record run_result := { r_Verdict : string; r_Score : Q }.
(* lines 681-695.  None: an inputs validator. *)
Definition test_state (setting : option solution_settings) (r : run_result) : CIState :=
  match setting with
  | Some ss =>
      let s := CIStatePassed in
      let s := if negb (sol_Verdict ss =? "") && negb (sol_Verdict ss =? r_Verdict r) then CIStateFailed else s in
      match sol_ScoreRange ss with
      | Some sr => if Qgtb (Min sr) (r_Score r) || Qltb (Max sr) (r_Score r) then CIStateFailed else s
      | None => s
      end
  | None => if negb (r_Verdict r =? "AC") then CIStateFailed else CIStatePassed
  end.

(* What happens to a test: an error before the run is queued (lines 615-656); or
   it runs, and a runner was seen picking it up (line 663, picked) or not, it ends
   with a result (line 671), and afterwards saving the request can fail (line 702). *)
Inductive test_outcome :=
| EarlyError (e : string)
| Ran (picked : bool) (r : run_result) (late : option string).

(* A report as written to its file: its state, its error and for each test its
   state, error and result (CIReport, CIReportTest, lines 158-187; times, names and
   tokens are left out). *)
Record test_view := { t_state : CIState; t_error : string; t_result : option run_result }.
Record report_view := { v_state : CIState; v_error : string; v_tests : list test_view }.
Definition waiting_test : test_view := {| t_state := CIStateWaiting; t_error := ""; t_result := None |}.

(* One iteration of the loop of processCIRequest, lines 873-882, calling addRun:
   the test's last view, whether an error was returned, and the views of this test
   in the reports that were written meanwhile (lines 665 and 697). *)
Definition do_test (setting : option solution_settings) (o : test_outcome) : test_view * bool * list test_view :=
  match o with
  | EarlyError e => ({| t_state := CIStateError; t_error := e; t_result := None |}, true, [])
  | Ran picked r late =>
      let running := {| t_state := CIStateRunning; t_error := ""; t_result := None |} in
      let finished := {| t_state := test_state setting r; t_error := ""; t_result := Some r |} in
      let written := (if picked then [running] else []) ++ [finished] in
      match late with
      | Some e => ({| t_state := CIStateError; t_error := e; t_result := Some r |}, true, written)
      | None => (finished, false, written)
      end
  end%list.

(* The loop, lines 872-882.  [done] are the tests done so far.  The result is the
   final state, the tests and the reports written. *)
Fixpoint do_tests (done : list test_view) (finalState : CIState) (todo : list (option solution_settings * test_outcome)) : CIState * list test_view * list report_view :=
  match todo with
  | [] => (finalState, done, [])
  | (setting, o) :: todo =>
      let '(t, failed, written) := do_test setting o in
      let finalState := if failed then CIStateError else if Z.eqb finalState CIStatePassed then t_state t else finalState in
      let reports := map (fun v => {| v_state := CIStateRunning; v_error := ""; v_tests := done ++ v :: map (fun _ => waiting_test) todo |}) written in
      let '(f, ts, rs) := do_tests (done ++ [t]) finalState todo in
      (f, ts, reports ++ rs)
  end%list.

(* ---- createCIRunConfigFromGit, lines 298-560. ---- *)
(* What the commit holds.  [blob p] is the content of the file p, None when
   EntryByPath or LookupBlob fails; tests/tests.json and settings.json as json.Unmarshal
   decodes them, None when they are missing or do not decode.  The weight of a case
   is nil if its entry is null (common/problemsettings.go:77-79). *)
Record inputs_settings := { inp_Filename : string; inp_Language : string }.
Record ci_settings := {
  ps_Groups : list (list (string * option Q));
  ps_Limits : limits;
  ps_ValidatorName : string;
  ps_ValidatorLang : option string;
  ps_Tolerance : option Q;
  ps_ValidatorLimits : option limits;
  ps_Interactive : option (string * string)   (* ModuleName, ParentLang *)
}.
Record commit := {
  blob : string -> option string;
  tests_json : option (list solution_settings * option inputs_settings);
  settings_json : option ci_settings
}.
(* A test to run: its settings (None for the inputs validator), the language and
   source of the run and its input (lines 495-504, 530-547). *)
Record ci_test := { ct_setting : option solution_settings; ct_filename : string; ct_language : string; ct_source : string; ct_input : literal_input }.

(* What createCIRunConfigFromGit does: returns a config; fails with category
   ErrSkipped; fails with another error; returns nil, nil; panics. *)
Inductive cfg (A : Type) := Config (x : A) | Skip | Fail | NilNil | Panic.
Arguments Config {A}. Arguments Skip {A}. Arguments Fail {A}. Arguments NilNil {A}. Arguments Panic {A}.
Definition bind {A B} (x : cfg A) (k : A -> cfg B) : cfg B :=
  match x with Config a => k a | Skip => Skip | Fail => Fail | NilNil => NilNil | Panic => Panic end.
Definition getBlobContents (c : commit) (p : string) : cfg string :=   (* lines 267-296 *)
  match blob c p with Some s => Config s | None => Fail end.

(* config.input.Cases[name] = case, line 414. *)
Fixpoint set_case (m : list (string * option literal_case)) (k : string) (v : literal_case) : list (string * option literal_case) :=
  match m with
  | [] => [(k, Some v)]
  | (k', v') :: m => if k =? k' then (k, Some v) :: m else (k', v') :: set_case m k v
  end.
(* Cases, lines 377-416. *)
Fixpoint read_cases (c : commit) (cases : list (string * option Q)) (m : list (string * option literal_case)) : cfg (list (string * option literal_case)) :=
  match cases with
  | [] => Config m
  | (name, w) :: cases =>
      bind (getBlobContents c ("cases/" ++ name ++ ".in")) (fun i =>
      bind (getBlobContents c ("cases/" ++ name ++ ".out")) (fun o =>
      read_cases c cases (set_case m name {| Input := i; ExpectedOutput := o; Weight := w |})))
  end.
(* Validator, lines 418-447. *)
Definition read_validator (c : commit) (s : ci_settings) : cfg literal_validator :=
  if ps_ValidatorName s =? "custom" then
    match ps_ValidatorLang s with
    | None => NilNil   (* errors.Wrapf of the nil err *)
    | Some lang =>
        bind (getBlobContents c ("validator." ++ lang)) (fun src =>
        Config {| Name := ps_ValidatorName s; Tolerance := ps_Tolerance s; CustomValidator := Some {| Source := src; Language := lang; CustomLimits := ps_ValidatorLimits s |} |})
    end
  else Config {| Name := ps_ValidatorName s; Tolerance := ps_Tolerance s; CustomValidator := None |}.
(* Interactive, lines 449-478. *)
Definition read_interactive (c : commit) (s : ci_settings) : cfg (option literal_interactive) :=
  match ps_Interactive s with
  | None => Config None
  | Some (m, p) =>
      bind (getBlobContents c ("interactive/" ++ LanguageFileExtension m ++ ".idl")) (fun idl =>
      bind (getBlobContents c ("interactive/Main." ++ LanguageFileExtension p)) (fun main =>
      Config (Some {| IDLSource := idl; ModuleName := m; ParentLang := p; MainSource := main |})))
  end.
(* filepath.Ext. *)
Fixpoint ext (s : string) : option string :=   (* what follows the last '.' of the last element *)
  match s with
  | EmptyString => None
  | String a s' =>
      match ext s' with
      | Some e => Some e
      | None => if Ascii.eqb a "."%char && negb (existsb (Ascii.eqb "/"%char) (list_ascii_of_string s')) then Some s' else None
      end
  end.
(* common/literalinput.go:201-206. *)
Definition FileExtensionLanguage (extension : string) : string := if extension =? "cpp" then "cpp11" else extension.
(* lines 482-494, 517-529. *)
Definition language_of (filename language : string) : cfg string :=
  if language =? "" then match ext filename with None => Fail | Some e => Config (FileExtensionLanguage e) end
  else Config language.
(* lines 480-514. *)
Fixpoint read_solutions (c : commit) (input : literal_input) (l : list solution_settings) : cfg (list ci_test) :=
  match l with
  | [] => Config []
  | ss :: l =>
      bind (language_of (sol_Filename ss) (sol_Language ss)) (fun lang =>
      bind (getBlobContents c ("tests/" ++ sol_Filename ss)) (fun src =>
      bind (read_solutions c input l) (fun ts =>
      Config ({| ct_setting := Some ss; ct_filename := sol_Filename ss; ct_language := lang; ct_source := src; ct_input := input |} :: ts))))
  end.
(* lines 516-557.  CopyStdinToStdoutSource is a fixed program. *)
Definition read_inputs (CopyStdinToStdoutSource : string) (c : commit) (input : literal_input) (i : option inputs_settings) : cfg (list ci_test) :=
  match i with
  | None => Config []
  | Some i =>
      bind (language_of (inp_Filename i) (inp_Language i)) (fun lang =>
      bind (getBlobContents c ("tests/" ++ inp_Filename i)) (fun src =>
      Config [{| ct_setting := None; ct_filename := inp_Filename i; ct_language := "cpp11"; ct_source := CopyStdinToStdoutSource;
                 ct_input := {| Cases := Cases input; Limits := None; Interactive := None;
                                Validator := Some {| Name := "custom"; Tolerance := None; CustomValidator := Some {| Source := src; Language := lang; CustomLimits := None |} |} |} |}]))
  end.
(* [repository] is None when git.OpenRepository fails: then repository.Path() is
   called on the nil it returned, lines 303-311.  Its value is the commit, None when
   NewOid, LookupCommit or Tree fail. *)
Definition createCIRunConfigFromGit (copy : string) (repository : option (option commit)) : cfg (list ci_test) :=
  match repository with
  | None => Panic
  | Some None => Fail
  | Some (Some c) =>
      match tests_json c, settings_json c with
      | Some (solutions, inputs), Some s =>
          bind (read_cases c (concat (ps_Groups s)) []) (fun cases =>
          bind (read_validator c s) (fun v =>
          bind (read_interactive c s) (fun i =>
          let input := {| Cases := cases; Limits := Some (ps_Limits s); Validator := Some v; Interactive := i |} in
          bind (read_solutions c input solutions) (fun ts =>
          bind (read_inputs copy c input inputs) (fun ti =>
          Config (ts ++ ti)%list)))))
      | _, _ => Skip
      end
  end.

(* ---- processCIRequest, lines 837-893: the reports written, in order, or a panic.
   [oc] says what happens to each test.  What Error() says is left out. ---- *)
Inductive processing := Reports (l : list report_view) | ProcessPanics.
Definition processCIRequest (config : cfg (list ci_test)) (oc : nat -> test_outcome) : processing :=
  let stop st := Reports [{| v_state := st; v_error := "error"; v_tests := [] |}] in
  match config with
  | Panic | NilNil => ProcessPanics
  | Skip => stop CIStateSkipped
  | Fail => stop CIStateError
  | Config ts =>
      let n := length ts in
      let '(f, views, rs) := do_tests [] CIStatePassed (combine (map ct_setting ts) (map oc (seq 0 n))) in
      Reports ({| v_state := CIStateWaiting; v_error := ""; v_tests := map (fun _ => waiting_test) ts |} :: rs ++ [{| v_state := f; v_error := ""; v_tests := views |}])%list
  end.

(* addRun, lines 612-615: the maximum score of a test, None when a nil weight makes
   it panic.  The order of a map's entries is arbitrary. *)
Fixpoint max_score (cases : list (string * option literal_case)) (total : Q) : option Q :=
  match cases with
  | [] => Some total
  | (_, Some {| Weight := Some w |}) :: cases => max_score cases (total + w)%Q
  | _ => None
  end.

(* ---- The URL and the directory. ---- *)
Definition is_problem_char (c : ascii) : bool := letter c || digit c || Ascii.eqb c "-"%char || Ascii.eqb c "_"%char.
Definition is_hex (c : ascii) : bool := let n := N_of_ascii c in (digit c || ((97 <=? n) && (n <=? 102))%N).
(* The longest prefix whose characters satisfy f, and the rest. *)
Fixpoint span (f : ascii -> bool) (s : string) : string * string :=
  match s with
  | EmptyString => ("", "")
  | String a s' => if f a then let (x, y) := span f s' in (String a x, y) else ("", s)
  end.
Fixpoint strip (p s : string) : option string :=
  match p, s with
  | EmptyString, _ => Some s
  | String a p, String b s => if Ascii.eqb a b then strip p s else None
  | _, _ => None
  end.
(* ciURLRegexp.FindStringSubmatch, lines 65, 721: ^/ci/problem/([a-zA-Z0-9-_]+)/([0-9a-f]{40})/$ *)
Definition ci_url (u : string) : option (string * string) :=
  match strip "/ci/problem/" u with
  | None => None
  | Some u =>
      let (p, u) := span is_problem_char u in
      if p =? "" then None else
      match strip "/" u with
      | None => None
      | Some u =>
          let (h, u) := span is_hex u in
          if Nat.eqb (String.length h) 40 && (u =? "/") then Some (p, h) else None
      end
  end.
Definition take (n : nat) (s : string) : string := substring 0 n s.
Definition drop (n : nat) (s : string) : string := substring n (String.length s - n) s.
(* report.reportDir, lines 734-742, relative to RuntimePath/ci.  path.Join leaves
   components without '/' or '.' as they are. *)
Definition report_dir (problem hash : string) : string := join "/" [problem; take 2 hash; drop 2 hash].
(* The key of the cache, when a run finishes (lines 902-905) and when runs are
   reloaded (lines 950-957, 969-972; None: not a run's directory). *)
Definition key_finish (problem hash : string) : string := problem ++ "/" ++ hash.
Definition key_reload (rel : string) : option string :=
  match split "/" rel with
  | a :: b :: c :: _ => Some (a ++ "/" ++ b ++ c)
  | _ => None
  end.

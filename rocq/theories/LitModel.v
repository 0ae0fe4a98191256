(* common/literalinput.go: NewLiteralInputFactory and what it uses, and the caps
   of cmd/omegaup-grader/ephemeral.go. *)
From Coq Require Import String Ascii List Bool ZArith QArith.
From Verif Require Import GoStr.
Import ListNotations.
Local Open Scope string_scope.

(* common/problemsettings.go:14-20.  base.Duration is in nanoseconds, base.Byte
   in bytes, both int64 (the model's integers have no bounds; the code only
   compares and copies them). *)
Record limits := { ExtraWallTime : Z; MemoryLimit : Z; OutputLimit : Z; OverallWallTimeLimit : Z; TimeLimit : Z }.
(* common/literalinput.go:45-49.  The weight is a big.Rat; nil when it was built
   by hand without one (decoding JSON always sets it, lines 82-86). *)
Record literal_case := { Input : string; ExpectedOutput : string; Weight : option Q }.
(* common/literalinput.go:94-98. *)
Record literal_custom := { Source : string; Language : string; CustomLimits : option limits }.
(* common/literalinput.go:105-109.  A tolerance is a float64, here its value. *)
Record literal_validator := { Name : string; Tolerance : option Q; CustomValidator : option literal_custom }.
(* common/literalinput.go:113-119.  Templates are not used. *)
Record literal_interactive := { IDLSource : string; ModuleName : string; ParentLang : string; MainSource : string }.
(* common/literalinput.go:143-148.  Cases is a map: here the list of its entries,
   with names that are all different; an entry can be nil. *)
Record literal_input := {
  Cases : list (string * option literal_case);
  Limits : option limits;
  Validator : option literal_validator;
  Interactive : option literal_interactive
}.

(* common/problemsettings.go:23-28, 59-62, 105-108, 129-135.  What libinteractive
   prints is not looked into: a string. *)
Record validator_settings := { v_Lang : option string; v_Name : string; v_Tolerance : option Q; v_Limits : option limits }.
Record case_settings := { c_Name : string; c_Weight : Q }.
Record group_settings := { g_Name : string; g_Cases : list case_settings }.
Record problem_settings := { s_Cases : list group_settings; s_Interactive : option string; s_Limits : limits; s_Slow : bool; s_Validator : validator_settings }.

(* common/literalinput.go:125-131, 133-135, 137. *)
Definition Mebibyte : Z := 1024 * 1024.
Definition Gibibyte : Z := 1024 * Mebibyte.
Definition Second : Z := 1000000000.
Definition DefaultLiteralLimitSettings : limits :=
  {| TimeLimit := 10 * Second; MemoryLimit := Gibibyte + Gibibyte / 2; OverallWallTimeLimit := 10 * Second; ExtraWallTime := 0; OutputLimit := 2 * Mebibyte |}.
Definition DefaultLiteralValidatorSettings : literal_validator := {| Name := "token-caseless"; Tolerance := None; CustomValidator := None |}.
Definition DefaultValidatorTolerance : Q := 1 # 1000000.

(* Why a literal input is rejected. *)
Inductive reason := CustomValidatorEmpty | InvalidValidator | EmptyCaseList | InvalidWeight (w : Q) | NoWeight | InvalidLanguage | InvalidInterface | LibinteractiveFailed | MarshalFailed | TarFailed.
Inductive outcome (A : Type) := Accepted (x : A) | Rejected (r : reason) | Panics.
Arguments Accepted {A}. Arguments Rejected {A}. Arguments Panics {A}.
Definition andThen {A B} (o : outcome A) (k : A -> outcome B) : outcome B :=
  match o with Accepted x => k x | Rejected r => Rejected r | Panics => Panics end.

(* A Go map from strings, as the list of its entries sorted by key (byte by byte,
   as in sort.Strings, line 585). *)
Notation files := (list (string * string)).
Definition ltb (a b : string) : bool := match String.compare a b with Lt => true | _ => false end.
Fixpoint store (m : files) (k v : string) : files :=
  match m with
  | [] => [(k, v)]
  | (k', v') :: m' => if k =? k' then (k, v) :: m' else if ltb k k' then (k, v) :: m else (k', v') :: store m' k v
  end.

(* common/literalinput.go:158-165. *)
Definition validateLanguage (lang : string) : bool :=
  existsb (String.eqb lang) ["c"; "c11-gcc"; "c11-clang"; "cpp"; "cpp11"; "cpp17-gcc"; "cpp17-clang"; "kj"; "kp"; "java"; "py"; "py2"; "py3"; "pas"; "rb"; "cat"].
(* common/literalinput.go:167-185; line 177: ^[a-zA-Z_][0-9a-zA-Z]+$ *)
Definition letter (c : ascii) : bool := let n := N_of_ascii c in ((65 <=? n) && (n <=? 90) || (97 <=? n) && (n <=? 122))%N.
Definition digit (c : ascii) : bool := let n := N_of_ascii c in ((48 <=? n) && (n <=? 57))%N.
Definition validateInterface (name : string) : bool :=
  if (String.length name =? 0)%nat then false
  else if (32 <? String.length name)%nat then false
  else match list_ascii_of_string name with
       | c :: d :: r => (letter c || (c =? "_")%char) && forallb (fun c => digit c || letter c) (d :: r)
       | _ => false
       end.
(* common/literalinput.go:188-198. *)
Definition LanguageFileExtension (language : string) : string :=
  if existsb (String.eqb language) ["cpp11"; "cpp11-gcc"; "cpp11-clang"; "cpp17-gcc"; "cpp17-clang"] then "cpp"
  else if existsb (String.eqb language) ["c"; "c11-gcc"; "c11-clang"] then "c"
  else if existsb (String.eqb language) ["py"; "py2"; "py3"] then "py"
  else language.

(* common/literalinput.go:228-260: the validator, and its file. *)
Definition build_validator (v : option literal_validator) (m : files) : outcome (validator_settings * files) :=
  let v := match v with Some v => v | None => DefaultLiteralValidatorSettings end in
  if Name v =? "custom" then
    match CustomValidator v with
    | None => Rejected CustomValidatorEmpty
    | Some c => Accepted ({| v_Lang := Some (Language c); v_Name := Name v; v_Tolerance := None; v_Limits := None |}, store m ("validator." ++ Language c) (Source c))
    end
  else if existsb (String.eqb (Name v)) ["token"; "token-caseless"; "literal"] then
    Accepted ({| v_Lang := None; v_Name := Name v; v_Tolerance := None; v_Limits := None |}, m)
  else if Name v =? "token-numeric" then
    Accepted ({| v_Lang := None; v_Name := Name v; v_Tolerance := Some (match Tolerance v with Some t => t | None => DefaultValidatorTolerance end); v_Limits := None |}, m)
  else Rejected InvalidValidator.

(* common/literalinput.go:262-286. base.MinDuration and base.MinBytes return the
   smaller one. *)
Definition build_limits (l : option limits) : limits :=
  match l with
  | Some l => {| TimeLimit := Z.min (TimeLimit l) (TimeLimit DefaultLiteralLimitSettings);
                 MemoryLimit := Z.min (MemoryLimit l) (MemoryLimit DefaultLiteralLimitSettings);
                 OverallWallTimeLimit := Z.min (OverallWallTimeLimit l) (OverallWallTimeLimit DefaultLiteralLimitSettings);
                 ExtraWallTime := Z.min (ExtraWallTime l) (ExtraWallTime DefaultLiteralLimitSettings);
                 OutputLimit := Z.min (OutputLimit l) (OutputLimit DefaultLiteralLimitSettings) |}
  | None => DefaultLiteralLimitSettings
  end.

(* Lines 293-299, one iteration after the other.  A big.Rat is kept reduced. *)
Fixpoint sum_weights (cases : list (string * option literal_case)) (total : Q) : outcome Q :=
  match cases with
  | [] => Accepted total
  | (_, None) :: _ => Panics
  | (_, Some c) :: cases =>
    match Weight c with
    | None => Panics
    | Some w => if negb (Qle_bool 0 w) then Rejected (InvalidWeight w) else sum_weights cases (Qred (total + w))
    end
  end.
(* strings.SplitN(name, ".", 2)[0] *)
Fixpoint before_dot (s : string) : string :=
  match s with "" => "" | String c s => if (c =? ".")%char then "" else String c (before_dot s) end.
(* groups[g] = append(groups[g], cs); a Go map as the list of its entries, in any
   order. *)
Fixpoint append_group (groups : list (string * list case_settings)) (g : string) (cs : case_settings) : list (string * list case_settings) :=
  match groups with
  | [] => [(g, [cs])]
  | (k, l) :: groups => if k =? g then (k, (l ++ [cs])%list) :: groups else (k, l) :: append_group groups g cs
  end.
(* Lines 302-317. *)
Fixpoint fill_groups (cases : list (string * option literal_case)) (total : Q) (groups : list (string * list case_settings)) (m : files) : outcome (list (string * list case_settings) * files) :=
  match cases with
  | [] => Accepted (groups, m)
  | (name, Some {| Input := i; ExpectedOutput := o; Weight := Some w |}) :: cases =>
    fill_groups cases total (append_group groups (before_dot name) {| c_Name := name; c_Weight := Qred (w / total) |})
      (store (store m ("cases/" ++ name ++ ".in") i) ("cases/" ++ name ++ ".out") o)
  | _ => Panics
  end.
(* sort.Sort with ByCaseName, ByGroupName (common/problemsettings.go:98-102, 121-125).
   The names are different, so that the order is determined whatever the algorithm. *)
Fixpoint insert {A} (key : A -> string) (x : A) (l : list A) : list A :=
  match l with
  | [] => [x]
  | y :: l' => if ltb (key y) (key x) then y :: insert key x l' else x :: l
  end.
Fixpoint sort {A} (key : A -> string) (l : list A) : list A :=
  match l with [] => [] | x :: l => insert key x (sort key l) end.

Section Factory.
(* The environment: json.MarshalIndent of the settings; createTar of the files in
   the order of their names (lines 574-606); the SHA-1 hash in hexadecimal; what
   libinteractive prints (lines 341-372). *)
Variable marshal : problem_settings -> option string.
Variable make_tar : files -> option string.
Variable sha1 : string -> string.
Variable libinteractive : string -> string -> string -> option string.

(* Go's iteration order over a map is any order: of the cases, each time, and of
   the groups. *)
Record orders := {
  order1 : list (string * option literal_case) -> list (string * option literal_case);
  order2 : list (string * option literal_case) -> list (string * option literal_case);
  order3 : list (string * list case_settings) -> list (string * list case_settings)
}.

(* Lines 328-373. *)
Definition build_interactive (i : option literal_interactive) (m : files) : outcome (option string * files) :=
  match i with
  | None => Accepted (None, m)
  | Some i =>
    if negb (validateLanguage (ParentLang i)) then Rejected InvalidLanguage
    else if negb (validateInterface (ModuleName i)) then Rejected InvalidInterface
    else
      let lang := LanguageFileExtension (ParentLang i) in
      match libinteractive (ModuleName i) lang (IDLSource i) with
      | None => Rejected LibinteractiveFailed
      | Some x => Accepted (Some x, store (store m ("interactive/Main." ++ lang) (MainSource i)) ("interactive/" ++ ModuleName i ++ ".idl") (IDLSource i))
      end
  end.

(* The new input: its hash, settings, files and the archive (lines 394-414; the
   size is that of all files, lines 381-384). *)
Record factory := { f_hash : string; f_settings : problem_settings; f_files : files; f_tar : string; f_size : Z }.
Definition total_size (m : files) : Z := fold_right (fun x n => (Z.of_nat (String.length (snd x)) + n)%Z) 0%Z m.

(* NewLiteralInputFactory, common/literalinput.go:217-415. *)
Definition NewLiteralInputFactory (ord : orders) (input : literal_input) : outcome factory :=
  andThen (build_validator (Validator input) []) (fun '(v, m) =>
  let l := build_limits (Limits input) in
  if (List.length (Cases input) =? 0)%nat then Rejected EmptyCaseList else
  andThen (sum_weights (order1 ord (Cases input)) 0) (fun total =>
  if Qeq_bool total 0 then Rejected NoWeight else
  andThen (fill_groups (order2 ord (Cases input)) total [] m) (fun '(groups, m) =>
  let cases := sort g_Name (map (fun '(name, g) => {| g_Name := name; g_Cases := sort c_Name g |}) (order3 ord groups)) in
  andThen (build_interactive (Interactive input) m) (fun '(i, m) =>
  let s := {| s_Cases := cases; s_Interactive := i; s_Limits := l; s_Slow := true; s_Validator := v |} in
  match marshal s with
  | None => Rejected MarshalFailed
  | Some json =>
    let m := store m "settings.json" json in
    match make_tar m with
    | None => Rejected TarFailed
    | Some tar => Accepted {| f_hash := sha1 tar; f_settings := s; f_files := m; f_tar := tar; f_size := total_size m |}
    end
  end)))).
End Factory.

(* ---- The caps on ephemeral runs ---- *)
(* common/context.go:45-55: the caps in the configuration, and their defaults, lines
   170-175. *)
Record ephemeral_config := { e_CaseTimeLimit : Z; e_OverallWallTimeLimit : Z; e_MemoryLimit : Z }.
Definition default_ephemeral_config : ephemeral_config := {| e_CaseTimeLimit := 10 * Second; e_OverallWallTimeLimit := 10 * Second; e_MemoryLimit := Gibibyte |}.
(* cmd/omegaup-grader/ephemeral.go:65-85: validateRequest. *)
Definition validateRequest (cfg : ephemeral_config) (input : literal_input) : literal_input :=
  match Limits input with
  | None => input
  | Some l => {| Cases := Cases input; Validator := Validator input; Interactive := Interactive input;
                 Limits := Some {| TimeLimit := Z.min (e_CaseTimeLimit cfg) (TimeLimit l);
                                   OverallWallTimeLimit := Z.min (e_OverallWallTimeLimit cfg) (OverallWallTimeLimit l);
                                   MemoryLimit := Z.min (e_MemoryLimit cfg) (MemoryLimit l);
                                   ExtraWallTime := ExtraWallTime l; OutputLimit := OutputLimit l |} |}
  end.
(* runner/runner.go:400-412: validatorLimits, the limits a validator is run with. *)
Definition DefaultValidatorLimits : limits := {| ExtraWallTime := 0; MemoryLimit := 256 * Mebibyte; OutputLimit := 10 * 1024; OverallWallTimeLimit := 5 * Second; TimeLimit := Second |}.
Definition validatorLimits (l : limits) (v : option limits) : limits :=
  match v with
  | Some v => v
  | None => {| ExtraWallTime := ExtraWallTime DefaultValidatorLimits; MemoryLimit := MemoryLimit DefaultValidatorLimits; OutputLimit := OutputLimit DefaultValidatorLimits;
               OverallWallTimeLimit := OverallWallTimeLimit DefaultValidatorLimits; TimeLimit := TimeLimit l |}
  end.

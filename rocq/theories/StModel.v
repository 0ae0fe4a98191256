(* Problem settings as JSON: common/problemsettings.go:14-135, that is settings.json
   of a problem, which the runner (runner/input.go:117-125, 266-274), the grader
   (grader/input.go:66-68, cmd/omegaup-grader/ci.go:361) and the one-shot runner
   decode, and which common/literalinput.go:375-379 writes.  JSON values, strings,
   outcomes, slices and members of objects are as in RrModel. *)
From Coq Require Import String Ascii List Arith NArith ZArith QArith Bool.
From Verif Require Import TrcModel RrModel.
From Verif Require LitModel.
Import ListNotations.
Local Open Scope string_scope.

Notation limits := LitModel.limits.

(* lines 32-43: the rules to build an interactive program. *)
Record Rule := { l_Targets : option (list string); l_Requisites : option (list string); l_Compiler : string; l_Params : string; l_Debug : bool }.
Record Interface := {
  i_MakefileRules : option (list Rule);
  i_Args : option (list string); i_Env : option (list (string * string));   (* ExecutableDescription *)
  i_Files : option (list (string * string))
}.
(* lines 47-54; the pointers in the map of maps can be nil. *)
Record Interactive := {
  t_Interfaces : option (list (string * option (list (string * option Interface))));
  t_Templates : option (list (string * string));
  t_Main : string; t_ModuleName : string; t_ParentLang : string; t_LibinteractiveVersion : string
}.
(* lines 57-60, 102-105 *)
Record Case := { k_Name : string; k_Weight : option Q }.
Record Group := { o_Cases : option (list Case); o_Name : string }.
Section Wire.
Variable flt : Type.
(* lines 22-27, 129-135 *)
Record Validator := { w_Lang : option string; w_Name : string; w_Tolerance : option flt; w_Limits : option limits }.
Record Settings := { s_Cases : option (list Group); s_Interactive : option Interactive; s_Limits : limits; s_Slow : bool; s_Validator : Validator }.

Variable zero : flt.
Variable show : flt -> option json.
Variable read : json -> option flt.
(* go-base: Duration (in nanoseconds), Byte, RationalToFloat, FloatToRational *)
Variable show_dur : Z -> json.
Variable read_dur : Z -> json -> option Z.
Variable show_byte : Z -> json.
Variable read_byte : Z -> json -> option Z.
Variable to_float : Q -> flt.
Variable to_rational : flt -> Q.
Variable equal_fold : string -> string -> bool.
Notation enc_float := (RrModel.enc_float flt show).
Notation member := (RrModel.member equal_fold).

(* ---- encoding ---- *)
Definition enc_limits (l : limits) : json :=
  JObj [("ExtraWallTime", show_dur (LitModel.ExtraWallTime l)); ("MemoryLimit", show_byte (LitModel.MemoryLimit l));
        ("OutputLimit", show_byte (LitModel.OutputLimit l)); ("OverallWallTimeLimit", show_dur (LitModel.OverallWallTimeLimit l));
        ("TimeLimit", show_dur (LitModel.TimeLimit l))].
(* A map's entries (in some order). *)
Fixpoint enc_entries {A} (enc : A -> outcome json) (l : list (string * A)) : outcome (list (string * json)) :=
  match l with
  | [] => Ok []
  | (k, a) :: l => do x <- enc a; do xs <- enc_entries enc l; Ok ((clean k, x) :: xs)
  end.
Definition enc_mapping {A} (enc : A -> outcome json) (m : option (list (string * A))) : outcome json :=
  match m with None => Ok JNull | Some l => do x <- enc_entries enc l; Ok (JObj x) end.
Definition enc_text (s : string) : outcome json := Ok (enc_str s).
Definition enc_rule (r : Rule) : outcome json :=
  do t <- enc_slice enc_text (l_Targets r);
  do q <- enc_slice enc_text (l_Requisites r);
  Ok (JObj [("Targets", t); ("Requisites", q); ("Compiler", enc_str (l_Compiler r)); ("Params", enc_str (l_Params r)); ("Debug", JBool (l_Debug r))]).
Definition enc_interface (i : option Interface) : outcome json :=
  match i with
  | None => Ok JNull
  | Some i =>
      do m <- enc_slice enc_rule (i_MakefileRules i);
      do a <- enc_slice enc_text (i_Args i);
      do e <- enc_mapping enc_text (i_Env i);
      do f <- enc_mapping enc_text (i_Files i);
      Ok (JObj [("MakefileRules", m); ("ExecutableDescription", JObj [("Args", a); ("Env", e)]); ("Files", f)])
  end.
Definition enc_interactive (t : Interactive) : outcome json :=
  do i <- enc_mapping (enc_mapping enc_interface) (t_Interfaces t);
  do m <- enc_mapping enc_text (t_Templates t);
  Ok (JObj [("Interfaces", i); ("Templates", m); ("Main", enc_str (t_Main t)); ("ModuleName", enc_str (t_ModuleName t));
            ("ParentLang", enc_str (t_ParentLang t)); ("LibinteractiveVersion", enc_str (t_LibinteractiveVersion t))]).
(* lines 63-71 *)
Definition enc_case (c : Case) : outcome json :=
  do w <- RationalToFloat flt to_float (k_Weight c);
  do w <- enc_float w;
  Ok (JObj [("Name", enc_str (k_Name c)); ("Weight", w)]).
Definition enc_group (g : Group) : outcome json :=
  do c <- enc_slice enc_case (o_Cases g);
  Ok (JObj [("Cases", c); ("Name", enc_str (o_Name g))]).
Definition enc_validator (v : Validator) : outcome json :=
  do t <- match w_Tolerance v with None => Ok [] | Some t => do x <- enc_float t; Ok [("Tolerance", x)] end;
  Ok (JObj (omit_nil "Lang" (w_Lang v) ++ [("Name", enc_str (w_Name v))] ++ t
            ++ match w_Limits v with None => [] | Some l => [("Limits", enc_limits l)] end)%list).
Definition enc_settings (s : Settings) : outcome json :=
  do c <- enc_slice enc_group (s_Cases s);
  do i <- match s_Interactive s with None => Ok [] | Some t => do x <- enc_interactive t; Ok [("Interactive", x)] end;
  do v <- enc_validator (s_Validator s);
  Ok (JObj ([("Cases", c)] ++ i ++ [("Limits", enc_limits (s_Limits s)); ("Slow", JBool (s_Slow s)); ("Validator", v)])%list).

(* ---- decoding ---- *)
Definition limits0 : limits := {| LitModel.ExtraWallTime := 0; LitModel.MemoryLimit := 0; LitModel.OutputLimit := 0; LitModel.OverallWallTimeLimit := 0; LitModel.TimeLimit := 0 |}.
Definition limits_fields := ["ExtraWallTime"; "MemoryLimit"; "OutputLimit"; "OverallWallTimeLimit"; "TimeLimit"].
Definition dec_limits (old : limits) (j : json) : option limits :=
  match j with
  | JNull => Some old
  | JObj l =>
      let get := member limits_fields l in
      let? e := get "ExtraWallTime" read_dur (LitModel.ExtraWallTime old) in
      let? m := get "MemoryLimit" read_byte (LitModel.MemoryLimit old) in
      let? o := get "OutputLimit" read_byte (LitModel.OutputLimit old) in
      let? w := get "OverallWallTimeLimit" read_dur (LitModel.OverallWallTimeLimit old) in
      let? t := get "TimeLimit" read_dur (LitModel.TimeLimit old) in
      Some {| LitModel.ExtraWallTime := e; LitModel.MemoryLimit := m; LitModel.OutputLimit := o; LitModel.OverallWallTimeLimit := w; LitModel.TimeLimit := t |}
  | _ => None
  end.
(* A pointer: null makes it nil, else what it points to is decoded into (a new one if
   it was nil). *)
Definition as_pointer {A} (put : A -> json -> option A) (a0 : A) (old : option A) (j : json) : option (option A) :=
  match j with JNull => Some None | _ => option_map Some (put (match old with Some a => a | None => a0 end) j) end.
(* A map: entries are added to those that were there; each is decoded into a new element. *)
Fixpoint dec_entries {A} (put : A -> json -> option A) (a0 : A) (m : list (string * A)) (l : list (string * json)) : option (list (string * A)) :=
  match l with
  | [] => Some m
  | (k, j) :: l => match put a0 j with Some x => dec_entries put a0 (set m k x) l | None => None end
  end.
Definition as_mapping {A} (put : A -> json -> option A) (a0 : A) (old : option (list (string * A))) (j : json) : option (option (list (string * A))) :=
  match j with
  | JNull => Some None
  | JObj l => option_map Some (dec_entries put a0 (match old with Some m => m | None => [] end) l)
  | _ => None
  end.
Definition rule0 : Rule := {| l_Targets := None; l_Requisites := None; l_Compiler := ""; l_Params := ""; l_Debug := false |}.
Definition rule_fields := ["Targets"; "Requisites"; "Compiler"; "Params"; "Debug"].
Definition dec_rule (old : Rule) (j : json) : option Rule :=
  match j with
  | JNull => Some old
  | JObj l =>
      let get {A} := @RrModel.member equal_fold A rule_fields l in
      let? t := get "Targets" (as_slice as_string "") (l_Targets old) in
      let? q := get "Requisites" (as_slice as_string "") (l_Requisites old) in
      let? c := get "Compiler" as_string (l_Compiler old) in
      let? p := get "Params" as_string (l_Params old) in
      let? d := get "Debug" as_bool (l_Debug old) in
      Some {| l_Targets := t; l_Requisites := q; l_Compiler := c; l_Params := p; l_Debug := d |}
  | _ => None
  end.
Definition dec_description (old : option (list string) * option (list (string * string))) (j : json) :=
  match j with
  | JNull => Some old
  | JObj l =>
      let get {A} := @RrModel.member equal_fold A ["Args"; "Env"] l in
      let? a := get "Args" (as_slice as_string "") (fst old) in
      let? e := get "Env" (as_mapping as_string "") (snd old) in
      Some (a, e)
  | _ => None
  end.
Definition interface0 : Interface := {| i_MakefileRules := None; i_Args := None; i_Env := None; i_Files := None |}.
Definition dec_interface (old : Interface) (j : json) : option Interface :=
  match j with
  | JNull => Some old
  | JObj l =>
      let get {A} := @RrModel.member equal_fold A ["MakefileRules"; "ExecutableDescription"; "Files"] l in
      let? m := get "MakefileRules" (as_slice dec_rule rule0) (i_MakefileRules old) in
      let? d := get "ExecutableDescription" dec_description (i_Args old, i_Env old) in
      let? f := get "Files" (as_mapping as_string "") (i_Files old) in
      Some {| i_MakefileRules := m; i_Args := fst d; i_Env := snd d; i_Files := f |}
  | _ => None
  end.
Definition interactive0 : Interactive := {| t_Interfaces := None; t_Templates := None; t_Main := ""; t_ModuleName := ""; t_ParentLang := ""; t_LibinteractiveVersion := "" |}.
Definition interactive_fields := ["Interfaces"; "Templates"; "Main"; "ModuleName"; "ParentLang"; "LibinteractiveVersion"].
Definition dec_interactive (old : Interactive) (j : json) : option Interactive :=
  match j with
  | JNull => Some old
  | JObj l =>
      let get {A} := @RrModel.member equal_fold A interactive_fields l in
      let? i := get "Interfaces" (as_mapping (as_mapping (as_pointer dec_interface interface0) None) None) (t_Interfaces old) in
      let? m := get "Templates" (as_mapping as_string "") (t_Templates old) in
      let? a := get "Main" as_string (t_Main old) in
      let? n := get "ModuleName" as_string (t_ModuleName old) in
      let? p := get "ParentLang" as_string (t_ParentLang old) in
      let? v := get "LibinteractiveVersion" as_string (t_LibinteractiveVersion old) in
      Some {| t_Interfaces := i; t_Templates := m; t_Main := a; t_ModuleName := n; t_ParentLang := p; t_LibinteractiveVersion := v |}
  | _ => None
  end.
(* lines 74-93: null leaves the case as it is, an object makes a new one *)
Definition case0 : Case := {| k_Name := ""; k_Weight := None |}.
Definition dec_case (old : Case) (j : json) : option Case :=
  match j with
  | JNull => Some old
  | JObj l =>
      let get {A} := @RrModel.member equal_fold A ["Name"; "Weight"] l in
      let? n := get "Name" as_string "" in
      let? w := get "Weight" (as_float flt read) zero in
      Some {| k_Name := n; k_Weight := Some (to_rational w) |}
  | _ => None
  end.
Definition group0 : Group := {| o_Cases := None; o_Name := "" |}.
Definition dec_group (old : Group) (j : json) : option Group :=
  match j with
  | JNull => Some old
  | JObj l =>
      let get {A} := @RrModel.member equal_fold A ["Cases"; "Name"] l in
      let? c := get "Cases" (as_slice dec_case case0) (o_Cases old) in
      let? n := get "Name" as_string (o_Name old) in
      Some {| o_Cases := c; o_Name := n |}
  | _ => None
  end.
Definition validator0 : Validator := {| w_Lang := None; w_Name := ""; w_Tolerance := None; w_Limits := None |}.
Definition dec_validator (old : Validator) (j : json) : option Validator :=
  match j with
  | JNull => Some old
  | JObj l =>
      let get {A} := @RrModel.member equal_fold A ["Lang"; "Name"; "Tolerance"; "Limits"] l in
      let? g := get "Lang" as_string_pointer (w_Lang old) in
      let? n := get "Name" as_string (w_Name old) in
      let? t := get "Tolerance" (as_pointer (as_float flt read) zero) (w_Tolerance old) in
      let? m := get "Limits" (as_pointer dec_limits limits0) (w_Limits old) in
      Some {| w_Lang := g; w_Name := n; w_Tolerance := t; w_Limits := m |}
  | _ => None
  end.
Definition settings0 : Settings := {| s_Cases := None; s_Interactive := None; s_Limits := limits0; s_Slow := false; s_Validator := validator0 |}.
Definition settings_fields := ["Cases"; "Interactive"; "Limits"; "Slow"; "Validator"].
Definition dec_settings (old : Settings) (j : json) : option Settings :=
  match j with
  | JNull => Some old
  | JObj l =>
      let get {A} := @RrModel.member equal_fold A settings_fields l in
      let? c := get "Cases" (as_slice dec_group group0) (s_Cases old) in
      let? i := get "Interactive" (as_pointer dec_interactive interactive0) (s_Interactive old) in
      let? m := get "Limits" dec_limits (s_Limits old) in
      let? s := get "Slow" as_bool (s_Slow old) in
      let? v := get "Validator" dec_validator (s_Validator old) in
      Some {| s_Cases := c; s_Interactive := i; s_Limits := m; s_Slow := s; s_Validator := v |}
  | _ => None
  end.

(* What Grade starts with, runner/runner.go:470-476: the sum of the weights of all
   cases; None is the panic of adding a nil *big.Rat. *)
Fixpoint add_weights (l : list Case) (t : Q) : option Q :=
  match l with [] => Some t | c :: l => match k_Weight c with None => None | Some w => add_weights l (t + w)%Q end end.
Fixpoint add_groups (l : list Group) (t : Q) : option Q :=
  match l with [] => Some t | g :: l => match add_weights (match o_Cases g with Some c => c | None => [] end) t with None => None | Some t => add_groups l t end end.
Definition graded_weight (s : Settings) : option Q := add_groups (match s_Cases s with Some g => g | None => [] end) 0%Q.
End Wire.
Global Arguments w_Lang {flt} _. Global Arguments w_Name {flt} _. Global Arguments w_Tolerance {flt} _. Global Arguments w_Limits {flt} _.
Global Arguments s_Cases {flt} _. Global Arguments s_Interactive {flt} _. Global Arguments s_Limits {flt} _. Global Arguments s_Slow {flt} _. Global Arguments s_Validator {flt} _.
Global Arguments graded_weight {flt} _.

(* The settings that common/literalinput.go makes (LitModel.v has them with the
   tolerance as a number and what libinteractive printed, line 366, as a string) as
   values of the types above, and how lines 375-379 write them. *)
Section Literal.
Variable flt : Type.
Variable float_of : Q -> flt.
Variable interactive_of : string -> Interactive.
Definition wire_case (c : LitModel.case_settings) : Case := {| k_Name := LitModel.c_Name c; k_Weight := Some (LitModel.c_Weight c) |}.
Definition wire_group (g : LitModel.group_settings) : Group := {| o_Name := LitModel.g_Name g; o_Cases := Some (map wire_case (LitModel.g_Cases g)) |}.
Definition wire_validator (v : LitModel.validator_settings) : Validator flt :=
  {| w_Lang := LitModel.v_Lang v; w_Name := LitModel.v_Name v; w_Tolerance := option_map float_of (LitModel.v_Tolerance v); w_Limits := LitModel.v_Limits v |}.
Definition wire_settings (s : LitModel.problem_settings) : Settings flt :=
  {| s_Cases := Some (map wire_group (LitModel.s_Cases s)); s_Interactive := option_map interactive_of (LitModel.s_Interactive s);
     s_Limits := LitModel.s_Limits s; s_Slow := LitModel.s_Slow s; s_Validator := wire_validator (LitModel.s_Validator s) |}.
Variable print : json -> string.
Variable show : flt -> option json.
Variable show_dur show_byte : Z -> json.
Variable to_float : Q -> flt.
Definition write_settings (s : LitModel.problem_settings) : option string :=
  match enc_settings flt show show_dur show_byte to_float (wire_settings s) with Ok j => Some (print j) | _ => None end.
End Literal.

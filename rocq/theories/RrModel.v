(* Runs and results between the grader and the runners: the JSON of
   runner/runner.go:25-240, runner/sandbox.go:89-98 and common/run.go, and
   NoopSandboxFixupResult (runner/noop_sandbox.go:58-95).

   As in TrcModel, a JSON text is taken as the value it stands for, in which strings
   are valid UTF-8.  Here a string of the program is any sequence of bytes. *)
From Coq Require Import String Ascii List Arith NArith ZArith QArith Bool.
From Verif Require TokModel.
From Verif Require Import TrcModel.
Import ListNotations.
Local Open Scope string_scope.
Local Open Scope Z_scope.
Local Infix "=s?" := String.eqb (at level 70).

(* What json.Marshal comes to: a value, an error, or a panic (a method of a nil *big.Rat). *)
Inductive outcome (A : Type) := Ok (a : A) | Err | Crash.
Arguments Ok {A} _. Arguments Err {A}. Arguments Crash {A}.
Definition bind {A B} (x : outcome A) (f : A -> outcome B) : outcome B := match x with Ok a => f a | Err => Err | Crash => Crash end.
Notation "'do' x <- e ; f" := (bind e (fun x => f)) (at level 200, x name, e at level 100, f at level 200).
Definition obind {A B} (x : option A) (f : A -> option B) : option B := match x with Some a => f a | None => None end.
Notation "'let?' x := e 'in' f" := (obind e (fun x => f)) (at level 200, x name, e at level 100, f at level 200).

(* encoding/json writes a string rune by rune (encodeState.string): a byte that does
   not belong to one becomes U+FFFD. *)
Definition bytes_of (s : string) : list N := map N_of_ascii (list_ascii_of_string s).
Definition string_of (b : list N) : string := string_of_list_ascii (map ascii_of_N b).
Fixpoint clean_bytes (n : nat) (b : list N) : list N :=
  match n, b with
  | S n, _ :: _ =>
      let (r, w) := TokModel.decode b in
      ((if (r =? TokModel.RuneError)%N && (w =? 1)%nat then [0xEF; 0xBF; 0xBD]%N else firstn w b) ++ clean_bytes n (skipn w b))%list
  | _, _ => []
  end.
Definition clean (s : string) : string := string_of (clean_bytes (String.length s) (bytes_of s)).

(* ---- the types ---- *)
Section Wire.
Variable flt : Type.                       (* float64 *)
(* runner/sandbox.go:89-98 *)
Record RunMetadata := {
  m_Verdict : string; m_ExitStatus : Z; m_Time : flt; m_SystemTime : flt; m_WallTime : flt; m_Memory : Z;
  m_Signal : option string; m_Syscall : option string
}.
(* A map: nil, or its entries. *)
Notation metas := (option (list (string * RunMetadata))).
(* runner.go:25-33; S is *big.Rat in the type and float64 in the structs that are
   encoded and decoded instead of it (lines 37-45, 61-69).  So for the others. *)
Record CaseResult (S : Type) := {
  c_Verdict : string; c_Name : string; c_Score : S; c_ContestScore : S; c_MaxScore : S; c_Meta : RunMetadata; c_IndividualMeta : metas
}.
(* runner.go:88-94 *)
Record GroupResult (S : Type) := {
  g_Group : string; g_Score : S; g_ContestScore : S; g_MaxScore : S; g_Cases : option (list (CaseResult (option Q)))
}.
(* runner.go:144-156 *)
Record RunResult (S : Type) := {
  r_Verdict : string; r_CompileError : option string; r_CompileMeta : metas; r_Score : S; r_ContestScore : S; r_MaxScore : S;
  r_Time : flt; r_WallTime : flt; r_Memory : Z; r_JudgedBy : string; r_Groups : option (list (GroupResult (option Q)))
}.
(* common/run.go:24-32 *)
Record Run (S : Type) := {
  n_AttemptID : Z; n_Source : string; n_Language : string; n_ProblemName : string; n_InputHash : string; n_MaxScore : S; n_Debug : bool
}.
Arguments c_Verdict {S} _. Arguments c_Name {S} _. Arguments c_Score {S} _. Arguments c_ContestScore {S} _. Arguments c_MaxScore {S} _.
Arguments c_Meta {S} _. Arguments c_IndividualMeta {S} _.
Arguments g_Group {S} _. Arguments g_Score {S} _. Arguments g_ContestScore {S} _. Arguments g_MaxScore {S} _. Arguments g_Cases {S} _.
Arguments r_Verdict {S} _. Arguments r_CompileError {S} _. Arguments r_CompileMeta {S} _. Arguments r_Score {S} _. Arguments r_ContestScore {S} _.
Arguments r_MaxScore {S} _. Arguments r_Time {S} _. Arguments r_WallTime {S} _. Arguments r_Memory {S} _. Arguments r_JudgedBy {S} _. Arguments r_Groups {S} _.
Arguments n_AttemptID {S} _. Arguments n_Source {S} _. Arguments n_Language {S} _. Arguments n_ProblemName {S} _. Arguments n_InputHash {S} _.
Arguments n_MaxScore {S} _. Arguments n_Debug {S} _.
Notation score := (option Q) (only parsing).   (* *big.Rat, None: nil *)

(* encoding/json on float64 (None: NaN or an infinity, an error; reading: not a number,
   or out of range), go-base's Byte, RationalToFloat (of a rational) and FloatToRational. *)
Variable zero : flt.
Variable show : flt -> option json.
Variable read : json -> option flt.
Variable show_byte : Z -> json.
Variable read_byte : Z -> json -> option Z.
Variable to_float : Q -> flt.
Variable to_rational : flt -> Q.
Variable equal_fold : string -> string -> bool.

(* ---- encoding: fields in order, those with omitempty left out if empty ---- *)
Definition RationalToFloat (q : score) : outcome flt := match q with None => Crash | Some q => Ok (to_float q) end.
Definition enc_float (f : flt) : outcome json := match show f with None => Err | Some j => Ok j end.
Definition enc_str (s : string) : json := JStr (clean s).
Definition omit_nil (key : string) (s : option string) : list (string * json) := match s with None => [] | Some s => [(key, enc_str s)] end.
Definition enc_meta (m : RunMetadata) : outcome json :=
  do t <- enc_float (m_Time m);
  do st <- enc_float (m_SystemTime m);
  do wt <- enc_float (m_WallTime m);
  Ok (JObj ([("verdict", enc_str (m_Verdict m))]
            ++ (if m_ExitStatus m =? 0 then [] else [("exit_status", JInt (m_ExitStatus m))])
            ++ [("time", t); ("sys_time", st); ("wall_time", wt); ("memory", show_byte (m_Memory m))]
            ++ omit_nil "signal" (m_Signal m) ++ omit_nil "syscall" (m_Syscall m))%list).
(* A map's entries (in some order). *)
Fixpoint enc_metas (l : list (string * RunMetadata)) : outcome (list (string * json)) :=
  match l with
  | [] => Ok []
  | (k, m) :: l => do x <- enc_meta m; do xs <- enc_metas l; Ok ((clean k, x) :: xs)
  end.
Definition enc_map (m : metas) : outcome json := match m with None => Ok JNull | Some l => do x <- enc_metas l; Ok (JObj x) end.
Fixpoint enc_list {A} (enc : A -> outcome json) (l : list A) : outcome (list json) :=
  match l with [] => Ok [] | a :: l => do x <- enc a; do xs <- enc_list enc l; Ok (x :: xs) end.
Definition enc_slice {A} (enc : A -> outcome json) (l : option (list A)) : outcome json :=
  match l with None => Ok JNull | Some l => do x <- enc_list enc l; Ok (JArr x) end.
(* runner.go:36-54 *)
Definition enc_case (c : CaseResult score) : outcome json :=
  do s <- RationalToFloat (c_Score c);
  do cs <- RationalToFloat (c_ContestScore c);
  do ms <- RationalToFloat (c_MaxScore c);
  do s <- enc_float s;
  do cs <- enc_float cs;
  do ms <- enc_float ms;
  do m <- enc_meta (c_Meta c);
  do i <- match c_IndividualMeta c with None | Some [] => Ok [] | x => do m <- enc_map x; Ok [("individual_meta", m)] end;
  Ok (JObj ([("verdict", enc_str (c_Verdict c)); ("name", enc_str (c_Name c)); ("score", s); ("contest_score", cs); ("max_score", ms); ("meta", m)] ++ i)%list).
(* runner.go:97-111 *)
Definition enc_group (g : GroupResult score) : outcome json :=
  do s <- RationalToFloat (g_Score g);
  do cs <- RationalToFloat (g_ContestScore g);
  do ms <- RationalToFloat (g_MaxScore g);
  do s <- enc_float s;
  do cs <- enc_float cs;
  do ms <- enc_float ms;
  do l <- enc_slice enc_case (g_Cases g);
  Ok (JObj [("group", enc_str (g_Group g)); ("score", s); ("contest_score", cs); ("max_score", ms); ("cases", l)]).
(* runner.go:168-192 *)
Definition enc_result (r : RunResult score) : outcome json :=
  do s <- RationalToFloat (r_Score r);
  do cs <- RationalToFloat (r_ContestScore r);
  do ms <- RationalToFloat (r_MaxScore r);
  do m <- enc_map (r_CompileMeta r);
  do s <- enc_float s;
  do cs <- enc_float cs;
  do ms <- enc_float ms;
  do t <- enc_float (r_Time r);
  do wt <- enc_float (r_WallTime r);
  do l <- enc_slice enc_group (r_Groups r);
  Ok (JObj ([("verdict", enc_str (r_Verdict r))] ++ omit_nil "compile_error" (r_CompileError r)
            ++ [("compile_meta", m); ("score", s); ("contest_score", cs); ("max_score", ms); ("time", t); ("wall_time", wt); ("memory", show_byte (r_Memory r))]
            ++ (if r_JudgedBy r =s? "" then [] else [("judged_by", enc_str (r_JudgedBy r))])
            ++ [("groups", l)])%list).
(* common/run.go:35-53 *)
Definition enc_run (r : Run score) : outcome json :=
  do ms <- RationalToFloat (n_MaxScore r);
  do ms <- enc_float ms;
  Ok (JObj [("attempt_id", JInt (n_AttemptID r)); ("source", enc_str (n_Source r)); ("language", enc_str (n_Language r));
            ("problem", enc_str (n_ProblemName r)); ("input_hash", enc_str (n_InputHash r)); ("max_score", ms); ("debug", JBool (n_Debug r))]).

(* ---- decoding ---- *)
(* The field a key is for: the one with that name, or else the first one it equals up
   to case.  The values of all keys for a field are put into it one after another. *)
Definition field_of (fields : list string) (key : string) : option string :=
  match find (fun f => f =s? key) fields with Some f => Some f | None => find (fun f => equal_fold f key) fields end.
Definition is_for (fields : list string) (key f : string) : bool := match field_of fields key with Some f' => f' =s? f | None => false end.
Fixpoint member {A} (fields : list string) (l : list (string * json)) (f : string) (put : A -> json -> option A) (a : A) : option A :=
  match l with
  | [] => Some a
  | (k, j) :: l => if is_for fields k f then match put a j with Some a => member fields l f put a | None => None end else member fields l f put a
  end.
(* null leaves a field as it is; a pointer, a map or a slice becomes nil. *)
Definition as_float (old : flt) (j : json) : option flt := match j with JNull => Some old | _ => read j end.
Definition as_bool (old : bool) (j : json) : option bool := match j with JNull => Some old | JBool b => Some b | _ => None end.
Definition as_uint64 (old : Z) (j : json) : option Z :=
  match j with JInt z => if (0 <=? z) && (z <? 2 ^ 64) then Some z else None | JNull => Some old | _ => None end.
Definition as_byte (old : Z) (j : json) : option Z := read_byte old j.
Definition as_string_pointer (old : option string) (j : json) : option (option string) :=
  match j with JNull => Some None | JStr s => Some (Some s) | _ => None end.
Definition meta0 : RunMetadata := {| m_Verdict := ""; m_ExitStatus := 0; m_Time := zero; m_SystemTime := zero; m_WallTime := zero; m_Memory := 0; m_Signal := None; m_Syscall := None |}.
Definition meta_fields := ["verdict"; "exit_status"; "time"; "sys_time"; "wall_time"; "memory"; "signal"; "syscall"].
Definition dec_meta (old : RunMetadata) (j : json) : option RunMetadata :=
  match j with
  | JNull => Some old
  | JObj l =>
      let get {A} := @member A meta_fields l in
      let? v := get "verdict" as_string (m_Verdict old) in
      let? e := get "exit_status" as_int64 (m_ExitStatus old) in
      let? t := get "time" as_float (m_Time old) in
      let? st := get "sys_time" as_float (m_SystemTime old) in
      let? wt := get "wall_time" as_float (m_WallTime old) in
      let? m := get "memory" as_byte (m_Memory old) in
      let? si := get "signal" as_string_pointer (m_Signal old) in
      let? sy := get "syscall" as_string_pointer (m_Syscall old) in
      Some {| m_Verdict := v; m_ExitStatus := e; m_Time := t; m_SystemTime := st; m_WallTime := wt; m_Memory := m; m_Signal := si; m_Syscall := sy |}
  | _ => None
  end.
Fixpoint dec_metas (m : list (string * RunMetadata)) (l : list (string * json)) : option (list (string * RunMetadata)) :=
  match l with
  | [] => Some m
  | (k, j) :: l => match dec_meta meta0 j with Some x => dec_metas (set m k x) l | None => None end
  end.
Definition as_metas (old : metas) (j : json) : option metas :=
  match j with
  | JNull => Some None
  | JObj l => option_map Some (dec_metas (match old with Some m => m | None => [] end) l)
  | _ => None
  end.
(* The elements of an array are put into those of the slice that was there, if any.
   (In Go a third value for the same field can bring back elements that the second,
   a shorter one, had cut off; that is not modelled.) *)
Fixpoint dec_list {A} (put : A -> json -> option A) (a0 : A) (old : list A) (l : list json) : option (list A) :=
  match l with
  | [] => Some []
  | j :: l => match put (hd a0 old) j, dec_list put a0 (tl old) l with Some a, Some r => Some (a :: r) | _, _ => None end
  end.
Definition as_slice {A} (put : A -> json -> option A) (a0 : A) (old : option (list A)) (j : json) : option (option (list A)) :=
  match j with
  | JNull => Some None
  | JArr l => option_map Some (dec_list put a0 (match old with Some o => o | None => [] end) l)
  | _ => None
  end.
(* runner.go:57-85 *)
Definition case_fields := ["verdict"; "name"; "score"; "contest_score"; "max_score"; "meta"; "individual_meta"].
Definition case0 : CaseResult score := {| c_Verdict := ""; c_Name := ""; c_Score := None; c_ContestScore := None; c_MaxScore := None; c_Meta := meta0; c_IndividualMeta := None |}.
Definition dec_case (old : CaseResult score) (j : json) : option (CaseResult score) :=
  match j with
  | JNull => Some old
  | JObj l =>
      let get {A} := @member A case_fields l in
      let? v := get "verdict" as_string "" in
      let? n := get "name" as_string "" in
      let? s := get "score" as_float zero in
      let? cs := get "contest_score" as_float zero in
      let? ms := get "max_score" as_float zero in
      let? m := get "meta" dec_meta meta0 in
      let? i := get "individual_meta" as_metas None in
      Some {| c_Verdict := v; c_Name := n; c_Score := Some (to_rational s); c_ContestScore := Some (to_rational cs);
              c_MaxScore := Some (to_rational ms); c_Meta := m; c_IndividualMeta := i |}
  | _ => None
  end.
(* runner.go:114-141 *)
Definition group_fields := ["group"; "score"; "contest_score"; "max_score"; "cases"].
Definition group0 : GroupResult score := {| g_Group := ""; g_Score := None; g_ContestScore := None; g_MaxScore := None; g_Cases := None |}.
Definition dec_group (old : GroupResult score) (j : json) : option (GroupResult score) :=
  match j with
  | JNull => Some old
  | JObj l =>
      let get {A} := @member A group_fields l in
      let? n := get "group" as_string "" in
      let? s := get "score" as_float zero in
      let? cs := get "contest_score" as_float zero in
      let? ms := get "max_score" as_float zero in
      let? c := get "cases" (as_slice dec_case case0) None in
      Some {| g_Group := n; g_Score := Some (to_rational s); g_ContestScore := Some (to_rational cs);
              g_MaxScore := Some (to_rational ms); g_Cases := c |}
  | _ => None
  end.
(* runner.go:195-232 *)
Definition result_fields := ["verdict"; "compile_error"; "compile_meta"; "score"; "contest_score"; "max_score"; "time"; "wall_time"; "memory"; "judged_by"; "groups"].
Definition result0 : RunResult score :=
  {| r_Verdict := ""; r_CompileError := None; r_CompileMeta := None; r_Score := None; r_ContestScore := None; r_MaxScore := None;
     r_Time := zero; r_WallTime := zero; r_Memory := 0; r_JudgedBy := ""; r_Groups := None |}.
Definition dec_result (old : RunResult score) (j : json) : option (RunResult score) :=
  match j with
  | JNull => Some old
  | JObj l =>
      let get {A} := @member A result_fields l in
      let? v := get "verdict" as_string "" in
      let? ce := get "compile_error" as_string_pointer None in
      let? cm := get "compile_meta" as_metas None in
      let? s := get "score" as_float zero in
      let? cs := get "contest_score" as_float zero in
      let? ms := get "max_score" as_float zero in
      let? t := get "time" as_float zero in
      let? wt := get "wall_time" as_float zero in
      let? m := get "memory" as_byte 0 in
      let? jb := get "judged_by" as_string "" in
      let? g := get "groups" (as_slice dec_group group0) None in
      Some {| r_Verdict := v; r_CompileError := ce; r_CompileMeta := cm; r_Score := Some (to_rational s); r_ContestScore := Some (to_rational cs);
              r_MaxScore := Some (to_rational ms); r_Time := t; r_WallTime := wt; r_Memory := m; r_JudgedBy := jb; r_Groups := g |}
  | _ => None
  end.
(* common/run.go:56-84 *)
Definition run_fields := ["attempt_id"; "source"; "language"; "problem"; "input_hash"; "max_score"; "debug"].
Definition run0 : Run score := {| n_AttemptID := 0; n_Source := ""; n_Language := ""; n_ProblemName := ""; n_InputHash := ""; n_MaxScore := None; n_Debug := false |}.
Definition dec_run (old : Run score) (j : json) : option (Run score) :=
  match j with
  | JNull => Some old
  | JObj l =>
      let get {A} := @member A run_fields l in
      let? a := get "attempt_id" as_uint64 0 in
      let? s := get "source" as_string "" in
      let? g := get "language" as_string "" in
      let? p := get "problem" as_string "" in
      let? h := get "input_hash" as_string "" in
      let? ms := get "max_score" as_float zero in
      let? d := get "debug" as_bool false in
      Some {| n_AttemptID := a; n_Source := s; n_Language := g; n_ProblemName := p; n_InputHash := h; n_MaxScore := Some (to_rational ms); n_Debug := d |}
  | _ => None
  end.

(* ---- results ---- *)
(* NewRunResult, runner.go:159-166 *)
Definition NewRunResult (verdict : string) (maxScore : score) : RunResult score :=
  {| r_Verdict := verdict; r_CompileError := None; r_CompileMeta := None; r_Score := Some 0%Q; r_ContestScore := Some 0%Q; r_MaxScore := maxScore;
     r_Time := zero; r_WallTime := zero; r_Memory := 0; r_JudgedBy := ""; r_Groups := None |}.
(* cmd/omegaup-grader/runner_handler.go:72 *)
Definition judged_by (name : string) (r : RunResult score) : RunResult score :=
  {| r_Verdict := r_Verdict r; r_CompileError := r_CompileError r; r_CompileMeta := r_CompileMeta r; r_Score := r_Score r; r_ContestScore := r_ContestScore r;
     r_MaxScore := r_MaxScore r; r_Time := r_Time r; r_WallTime := r_WallTime r; r_Memory := r_Memory r; r_JudgedBy := name; r_Groups := r_Groups r |}.

(* NoopSandboxFixupResult, noop_sandbox.go:58-95; None: a panic. *)
Fixpoint each {A} (f : A -> option A) (l : list A) : option (list A) :=
  match l with [] => Some [] | a :: l => let? a := f a in let? l := each f l in Some (a :: l) end.
Definition each_of {A} (f : A -> option A) (l : option (list A)) : option (option (list A)) :=
  match l with None => Some None | Some l => let? l := each f l in Some (Some l) end.
Definition fixup_case (contestScore : Q) (c : CaseResult score) : option (CaseResult score) :=
  let? m := c_MaxScore c in
  Some {| c_Verdict := "AC"; c_Name := c_Name c; c_Score := Some (0 + m)%Q; c_ContestScore := Some (m * contestScore)%Q; c_MaxScore := c_MaxScore c;
          c_Meta := c_Meta c; c_IndividualMeta := c_IndividualMeta c |}.
Definition fixup_group (contestScore : Q) (g : GroupResult score) : option (GroupResult score) :=
  let? m := g_MaxScore g in
  let? l := each_of (fixup_case contestScore) (g_Cases g) in
  Some {| g_Group := g_Group g; g_Score := Some (0 + m)%Q; g_ContestScore := Some (m * contestScore)%Q; g_MaxScore := g_MaxScore g; g_Cases := l |}.
Definition NoopSandboxFixupResult (r : RunResult score) : option (RunResult score) :=
  let? m := r_MaxScore r in
  let contestScore := (1 * m)%Q in
  let? l := each_of (fixup_group contestScore) (r_Groups r) in
  Some {| r_Verdict := "AC"; r_CompileError := r_CompileError r; r_CompileMeta := r_CompileMeta r; r_Score := Some 1%Q; r_ContestScore := Some contestScore;
          r_MaxScore := r_MaxScore r; r_Time := r_Time r; r_WallTime := r_WallTime r; r_Memory := r_Memory r; r_JudgedBy := r_JudgedBy r; r_Groups := l |}.
(* gradeAndUploadResults, cmd/omegaup-runner/main.go:540-549: the result that is sent,
   given what gradeRun gave (None: an error); None: a panic. *)
Definition sent_result (noop : bool) (graded : option (RunResult score)) (run : Run score) : option (RunResult score) :=
  let result := match graded with Some r => r | None => NewRunResult "JE" (n_MaxScore run) end in
  if noop then NoopSandboxFixupResult result else Some result.
End Wire.
Global Arguments c_Verdict {flt S} _. Global Arguments c_Name {flt S} _. Global Arguments c_Score {flt S} _. Global Arguments c_ContestScore {flt S} _. Global Arguments c_MaxScore {flt S} _.
Global Arguments c_Meta {flt S} _. Global Arguments c_IndividualMeta {flt S} _.
Global Arguments g_Group {flt S} _. Global Arguments g_Score {flt S} _. Global Arguments g_ContestScore {flt S} _. Global Arguments g_MaxScore {flt S} _. Global Arguments g_Cases {flt S} _.
Global Arguments r_Verdict {flt S} _. Global Arguments r_CompileError {flt S} _. Global Arguments r_CompileMeta {flt S} _. Global Arguments r_Score {flt S} _. Global Arguments r_ContestScore {flt S} _.
Global Arguments r_MaxScore {flt S} _. Global Arguments r_Time {flt S} _. Global Arguments r_WallTime {flt S} _. Global Arguments r_Memory {flt S} _. Global Arguments r_JudgedBy {flt S} _. Global Arguments r_Groups {flt S} _.
Global Arguments n_AttemptID {S} _. Global Arguments n_Source {S} _. Global Arguments n_Language {S} _. Global Arguments n_ProblemName {S} _. Global Arguments n_InputHash {S} _.
Global Arguments n_MaxScore {S} _. Global Arguments n_Debug {S} _.
Global Arguments m_Verdict {flt} _. Global Arguments m_ExitStatus {flt} _. Global Arguments m_Time {flt} _. Global Arguments m_SystemTime {flt} _. Global Arguments m_WallTime {flt} _.
Global Arguments m_Memory {flt} _. Global Arguments m_Signal {flt} _. Global Arguments m_Syscall {flt} _.

(* Specification of the files and processes of a grading (C64-C68). *)
From Coq Require Import String Ascii List Bool ZArith.
From Verif Require Import GoStr InModel LitModel FeSpec BoxModel.
Import ListNotations.
Local Open Scope string_scope.

Definition identifier (s : string) : Prop := s <> "" /\ ~ contains "/" s /\ ~ contains "." s.
Definition plain (s : string) : Prop := ~ contains "/" s.
(* The names a problem may use: what libinteractive calls the problemsetter's part,
   identifiers for the others, no slashes in cases and languages, nothing that is
   called like one of the directories or files of the runner. *)
Record sane (set : settings) (run : request) : Prop := {
  sane_lang : plain (lang run);
  sane_cases : forall c, In c (cases set) -> plain c /\ c <> "compile";
  sane_distinct : NoDup (cases set);
  sane_validator : forall vl, validator_lang set = Some vl -> plain vl;
  sane_interactive : forall it, interactive set = Some it ->
    Main it = "Main" /\ plain (Module it) /\ plain (Parent it) /\ NoDup (map fst (Interfaces it)) /\
    (forall nm, In nm (map fst (Interfaces it)) -> identifier nm /\ nm <> "validator");
  (* the files generated for the problemsetter's part are not called like it *)
  sane_files : forall it m l i f, interactive set = Some it -> In ("Main", m) (Interfaces it) -> In (l, i) m -> In f (IfaceFiles i) ->
    base f <> "Main." ++ LanguageFileExtension (Parent it)
}.
(* The directory of the attempt is empty at the beginning. *)
Definition empty_root (root : path) (there : path -> bool) : Prop := forall p, there p = true -> ~ under root p.
Definition apart (p q : path) : Prop := ~ under p q /\ ~ under q p.

(* What a contestant's program may find: its source, the library generated for it,
   what its compiler made of them, pipes. *)
Definition own (nm : string) (o : origin) : Prop :=
  o = Submission \/ (exists f, o = Library nm f) \/ o = Pipe \/ (exists b, o = MadeBy (Compiler b) /\ name b = nm /\ binaryType b = Contestant).
(* The program a process is of. *)
Definition binary_of (l : label) : option binary := match l with Compiler b => Some b | Program b _ => Some b | Judge _ => None end.

(* A program of an interactive problem, other than the problemsetter's, cannot be
   written in this language. *)
Definition unsupported (it : interactive_settings) (language : string) : Prop :=
  exists nm m, In (nm, m) (Interfaces it) /\ nm <> Main it /\ ~ In (LanguageFileExtension language) (map fst m).
(* libinteractive said how to build each, and generated the problemsetter's. *)
Definition complete (it : interactive_settings) : Prop :=
  (exists m, In (Main it, m) (Interfaces it) /\ In (Parent it) (map fst m)) /\
  (forall nm m l i, In (nm, m) (Interfaces it) -> In (l, i) m -> MakefileRules i <> []).

(* ---- What a process is asked to be (C65) ---- *)
Section Asked.
Variable root input : path.
Variable set : settings.
Variable run : request.
Notation ext := LanguageFileExtension.
Definition sanitized : Prop := interactive set = None /\ debug run = true /\ In (lang run) ["c"; "cpp"; "cpp11"].
(* With the address sanitizer there is no limit for the memory, and twice the time and
   a second. *)
Definition contestant_limits (l : limits) : Prop :=
  let p := problem_limits set in
  ExtraWallTime l = ExtraWallTime p /\ OverallWallTimeLimit l = OverallWallTimeLimit p /\
  (sanitized /\ MemoryLimit l = (-1)%Z /\ TimeLimit l = (2 * TimeLimit p + 1000000000)%Z /\ OutputLimit l = (OutputLimit p + 16384)%Z \/
   ~ sanitized /\ MemoryLimit l = MemoryLimit p /\ TimeLimit l = TimeLimit p /\ OutputLimit l = OutputLimit p).
(* The validator and the problemsetter's part: the problem's limits for the validator,
   else the default ones with the contestant's time. *)
Definition judge_limits (l : limits) : Prop :=
  match validator_limits set with
  | Some v => l = v
  | None => exists k, contestant_limits k /\
      l = {| ExtraWallTime := 0; MemoryLimit := 268435456; OutputLimit := 10240; OverallWallTimeLimit := 5000000000; TimeLimit := TimeLimit k |}
  end.
Definition pipes_of (nm : string) : path * string := ((root ++ [nm; "pipes"])%list, "/home/" ++ nm ++ "_pipes").
(* results: where the output, the errors and the report go *)
Definition results (k : call) (dir : list string) (stem : string) : Prop :=
  c_out k = (root ++ dir ++ [(stem ++ ".out")%string])%list /\ c_err k = (root ++ dir ++ [(stem ++ ".err")%string])%list /\ c_meta k = (root ++ dir ++ [(stem ++ ".meta")%string])%list.
Definition runs (k : call) (lng dir tgt : string) (stdin : option path) (params : list string) (mounts : list (path * string)) : Prop :=
  c_lang k = lng /\ c_chdir k = (root ++ [dir; "bin"])%list /\ c_target k = tgt /\ c_stdin k = stdin /\ c_params k = params /\ c_mounts k = mounts /\ c_writable k = false /\ c_sources k = [].
Definition builds (k : call) (lng dir tgt : string) (sources : list path) (flags : list string) : Prop :=
  c_lang k = lng /\ c_chdir k = (root ++ [dir; "bin"])%list /\ c_target k = tgt /\ c_stdin k = None /\ c_params k = flags /\ c_mounts k = [] /\ c_writable k = true /\ c_sources k = sources /\ c_limits k = None.
Definition entry_target (nm : string) : string := if existsb (String.eqb (lang run)) ["java"; "py"; "py2"; "py3"] then nm ++ "_entry" else nm.
Definition cpp11 (l : string) : string := if l =? "cpp" then "cpp11" else l.
(* the sources of a part: what its first rule requires *)
Definition required (nm : string) (i : iface) (src : list path) : Prop :=
  exists r rs, MakefileRules i = r :: rs /\ src = map (fun q => path_join (root ++ [nm; "bin"])%list (base q)) r.
Definition interface (it : interactive_settings) (nm lng : string) (i : iface) : Prop :=
  exists m, In (nm, m) (Interfaces it) /\ find lng m = Some i.
Inductive asked : label -> call -> Prop :=
(* one program *)
| asked_compile : forall b k, interactive set = None -> name b = "Main" -> binaryType b = Contestant ->
    builds k (lang run) "Main" "Main" [(root ++ ["Main"; "bin"; ("Main." ++ ext (lang run))%string])%list]
      (if debug run && existsb (String.eqb (lang run)) ["c"; "cpp"; "cpp11"] then ["-static-libasan"; "-fsanitize=address"] else []) ->
    results k ["Main"] "compile" -> asked (Compiler b) k
| asked_run : forall b c k l, interactive set = None -> name b = "Main" -> binaryType b = Contestant -> In c (cases set) ->
    runs k (lang run) "Main" "Main" (Some (input ++ ["cases"; (c ++ ".in")%string])%list) [] [] ->
    c_limits k = Some l -> contestant_limits l -> results k [] c -> asked (Program b c) k
(* several, and one of the problemsetter *)
| asked_compile_part : forall it b nm i src k, interactive set = Some it -> name b = nm -> nm <> "Main" -> binaryType b = Contestant ->
    interface it nm (ext (lang run)) i -> required nm i src ->
    builds k (lang run) nm (entry_target nm) src [] -> results k [nm] "compile" -> asked (Compiler b) k
| asked_run_part : forall it b nm i c k l, interactive set = Some it -> name b = nm -> nm <> "Main" -> binaryType b = Contestant -> In c (cases set) ->
    interface it nm (ext (lang run)) i ->
    runs k (lang run) nm (entry_target nm) None [] [pipes_of nm] ->
    c_limits k = Some l -> contestant_limits l -> results k [nm] c -> asked (Program b c) k
| asked_compile_problemsetter : forall it b i src k, interactive set = Some it -> name b = "Main" -> binaryType b = Problemsetter ->
    interface it "Main" (Parent it) i -> required "Main" i src ->
    builds k (cpp11 (Parent it)) "Main" (entry_target "Main") src (if existsb (String.eqb (Parent it)) ["c"; "cpp"; "cpp11"] then ["-Wl,-e__entry"] else []) ->
    results k ["Main"] "compile" -> asked (Compiler b) k
| asked_run_problemsetter : forall it b c k l, interactive set = Some it -> name b = "Main" -> binaryType b = Problemsetter -> In c (cases set) ->
    runs k (cpp11 (Parent it)) "Main" (entry_target "Main") (Some (input ++ ["cases"; (c ++ ".in")%string])%list) [c; lang run]
      (map pipes_of (List.filter (fun nm => negb (nm =? "Main")) (map fst (Interfaces it)))) ->
    c_limits k = Some l -> judge_limits l -> results k [] c -> asked (Program b c) k
(* the validator *)
| asked_compile_validator : forall b vl k, validator_name set = "custom" -> validator_lang set = Some vl -> name b = "validator" -> binaryType b = Validator ->
    builds k (cpp11 vl) "validator" "validator" [(root ++ ["validator"; "bin"; ("validator." ++ ext vl)%string])%list] [] ->
    results k ["validator"] "compile" -> asked (Compiler b) k
| asked_judge : forall c vl k l, validator_name set = "custom" -> validator_lang set = Some vl -> In c (cases set) ->
    runs k vl "validator" "validator" (Some (root ++ [(c ++ ".out")%string])%list) [c; lang run] [] ->
    c_limits k = Some l -> judge_limits l -> results k ["validator"] c -> asked (Judge c) k.
End Asked.

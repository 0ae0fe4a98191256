(* runner/runner.go: Grade's files and processes, runner/sandbox.go: what they can see
   and where they write.  (The symbolic link that is made before C# is compiled counts
   as its compiler's; sources that are not in the program's directory as a compiler
   that fails.  What is made of their results is in GradeModel.) *)
From Coq Require Import String Ascii List Bool Arith ZArith.
From Verif Require Import GoStr InModel LitModel.
Import ListNotations.
Local Open Scope string_scope.

(* ---- The problem and the run ---- *)
(* common/problemsettings.go:28-41: of each Makefile rule its requisites; the files
   libinteractive generated, by name (their contents are of no interest here). *)
Record iface := { MakefileRules : list (list string); IfaceFiles : list string }.
Record interactive_settings := { Main : string; Module : string; Parent : string; Interfaces : list (string * list (string * iface)) }.
(* The groups do not matter: cases is the list of the names of all cases, in order. *)
Record settings := { cases : list string; interactive : option interactive_settings; problem_limits : limits;
                     validator_name : string; validator_lang : option string; validator_limits : option limits }.
Record request := { lang : string; debug : bool }.

(* runner/runner.go:234-238 *)
Inductive binary_type := Problemsetter | Contestant | Validator.
(* runner/runner.go:240-252; paths are canonical and rooted (InModel) *)
Record binary := { name : string; target : string; language : string; binPath : path; outputPathPrefix : string; binaryType : binary_type;
                   blimits : limits; receiveInput : bool; sourceFiles : list path; extraFlags : list string; extraMountPoints : list (path * string) }.

(* runner/runner.go:266-271 *)
Definition extraParentFlags (language : string) : list string :=
  if existsb (String.eqb language) ["c"; "cpp"; "cpp11"] then ["-Wl,-e__entry"] else [].
(* lines 273-278 *)
Definition targetName (language target : string) : string :=
  if existsb (String.eqb language) ["py"; "py2"; "py3"; "java"] then target ++ "_entry" else target.
(* path.Base *)
Fixpoint drop_empty (l : list string) : list string := match l with "" :: l => drop_empty l | _ => l end.
Definition base (s : string) : string :=
  if s =? "" then "." else match drop_empty (rev (split "/" s)) with [] => "/" | x :: _ => x end.

Section Grade.
Variable root : path.          (* runRoot, lines 454-458: of this attempt only *)
Variable input : path.         (* input.Path() *)
Variable preserve : bool.      (* PreserveFiles *)
Variable set : settings.
Variable run : request.
Variable archive_ok : bool.    (* whether parseOutputOnlyFile succeeds (C26) *)
(* Ranging over a map: in what order.  Lines 509, 565, 572. *)
Variable order1 order2 : list (string * list (string * iface)) -> list (string * list (string * iface)).
Variable order3 : list string -> list string.

Notation ext := LanguageFileExtension.
Definition in_root (s : string) : path := path_join root s.
(* lines 280-292; None: MakefileRules[0] panics *)
Definition normalizedSourceFiles (nm : string) (i : iface) : option (list path) :=
  match MakefileRules i with
  | [] => None
  | r :: _ => Some (map (fun q => path_join (path_join (in_root nm) "bin") (base q)) r)
  end.
(* lines 387-394 *)
Definition generateMountpoint (nm : string) : list (path * string) := [(path_join (in_root nm) "pipes", "/home/" ++ nm ++ "_pipes")].
(* lines 371-385 *)
Definition generateParentMountpoints (it : interactive_settings) : list (path * string) :=
  flat_map (fun x => if fst x =? Main it then [] else generateMountpoint (fst x)) (Interfaces it).
Fixpoint find {A} (k : string) (l : list (string * A)) : option A :=
  match l with [] => None | (k', v) :: l => if k =? k' then Some v else find k l end.

(* ---- Files ---- *)
(* Where the contents of a file come from. *)
Inductive origin :=
| Initial (p : path)             (* it was there before, at p *)
| Submission                     (* the contestant's source, or what it has for a case *)
| Library (nm file : string)     (* generated by libinteractive for an interface *)
| Pipe
| Runner                         (* a constant *)
| MadeBy (l : label)             (* written by a process *)
(* Processes: a compiler, a program run for a case, the validator for a case. *)
with label := Compiler (b : binary) | Program (b : binary) (c : string) | Judge (c : string).
(* A file can have several names (os.Link).  It is known by the name it was created
   with, and a number if that was during the run. *)
Inductive inode := Old (p : path) | New (p : path) (n : nat).
Record fs := { names : path -> option inode; data : inode -> origin; next : nat }.
Definition inode_eqb (i j : inode) : bool :=
  match i, j with Old p, Old q => path_eqb p q | New p n, New q m => path_eqb p q && (n =? m)%nat | _, _ => false end.
Definition rename (f : fs) (p : path) (i : option inode) : fs :=
  {| names := fun q => if path_eqb p q then i else names f q; data := data f; next := next f |}.
(* Creating p, or overwriting what it names (O_TRUNC). *)
Definition put (f : fs) (p : path) (o : origin) : fs :=
  match names f p with
  | Some i => {| names := names f; data := fun j => if inode_eqb i j then o else data f j; next := next f |}
  | None => {| names := fun q => if path_eqb p q then Some (New p (next f)) else names f q;
               data := fun j => if inode_eqb (New p (next f)) j then o else data f j; next := S (next f) |}
  end.
Definition content (f : fs) (p : path) : option origin := match names f p with Some i => Some (data f i) | None => None end.
(* copyFile, lines 422-445: it also returns nil when one of the files cannot be
   opened.  [ok]: nil is returned. *)
Inductive copyFile (f : fs) (src dst : path) : bool -> fs -> Prop :=
| copy_links : forall i, names f src = Some i -> names f dst = None -> copyFile f src dst true (rename f dst (Some i))
| copy_copies : forall i, names f src = Some i -> copyFile f src dst true (put f dst (data f i))
| copy_nothing : copyFile f src dst true f
| copy_fails : forall i, names f src = Some i -> copyFile f src dst false (put f dst (data f i)).

(* ---- Preparation, lines 463-742 ---- *)
Inductive op := Mkdir (p : path) | Copy (src dst : path) | Write (p : path) (o : origin) | Mkfifo (p : path).
Inductive ending := Ready (bs : list binary) (l : limits) | CompileError | Panic.
(* lines 493-507 *)
Definition parent_binary (it : interactive_settings) (sources : list path) : binary :=
  {| name := Main it; target := targetName (lang run) (Main it);
     language := if Parent it =? "cpp" then "cpp11" else Parent it;
     binPath := path_join (in_root (Main it)) "bin"; outputPathPrefix := ""; binaryType := Problemsetter;
     blimits := validatorLimits (problem_limits set) (validator_limits set); receiveInput := true; sourceFiles := sources;
     extraFlags := extraParentFlags (Parent it); extraMountPoints := generateParentMountpoints it |}.
(* lines 524-544 *)
Definition child_binary (nm : string) (sources : list path) : binary :=
  {| name := nm; target := targetName (lang run) nm; language := lang run;
     binPath := path_join (in_root nm) "bin"; outputPathPrefix := nm; binaryType := Contestant;
     blimits := problem_limits set; receiveInput := false; sourceFiles := sources;
     extraFlags := []; extraMountPoints := generateMountpoint nm |}.
(* lines 509-545: None is a panic, Some None a compile error *)
Fixpoint child_binaries (it : interactive_settings) (l : list (string * list (string * iface))) : option (option (list binary)) :=
  match l with
  | [] => Some (Some [])
  | (nm, m) :: l =>
      if nm =? Main it then child_binaries it l
      else match find (ext (lang run)) m with
           | None => Some None
           | Some i => match normalizedSourceFiles nm i with
                       | None => None
                       | Some src => match child_binaries it l with
                                     | Some (Some bs) => Some (Some (child_binary nm src :: bs))
                                     | r => r
                                     end
                       end
           end
  end.
(* lines 547-613; false: a nil interface is dereferenced after these operations *)
Fixpoint interface_ops (it : interactive_settings) (l : list (string * list (string * iface))) : list op * bool :=
  match l with
  | [] => ([], true)
  | (nm, m) :: l =>
      match find (if nm =? "Main" then ext (Parent it) else ext (lang run)) m with
      | None => ([], false)
      | Some i =>
          let writes := map (fun f => Write (in_root (nm ++ "/bin/" ++ base f)) (Library nm f)) (order3 (IfaceFiles i)) in
          let rest := interface_ops it l in
          if nm =? "Main" then
            (writes ++ flat_map (fun x => if fst x =? "Main" then [] else [Mkdir (in_root (nm ++ "/bin/" ++ fst x ++ "_pipes"))]) (Interfaces it) ++ fst rest, snd rest)%list
          else
            (writes ++ [Write (in_root (nm ++ "/bin/" ++ Module it ++ "." ++ ext (lang run))) Submission;
                        Mkdir (in_root (nm ++ "/bin/" ++ nm ++ "_pipes")); Mkdir (path_join (in_root nm) "pipes");
                        Mkfifo (path_join (path_join (in_root nm) "pipes") "in"); Mkfifo (path_join (path_join (in_root nm) "pipes") "out")] ++ fst rest, snd rest)%list
      end
  end.
(* lines 659-677: ASan *)
Definition c_like : bool := existsb (String.eqb (lang run)) ["c"; "cpp"; "cpp11"].
Definition limits_of_run : limits :=
  match interactive set with
  | Some _ => problem_limits set
  | None => if negb (lang run =? "cat") && debug run && c_like then
              {| ExtraWallTime := ExtraWallTime (problem_limits set); MemoryLimit := -1; OutputLimit := OutputLimit (problem_limits set) + 16 * 1024;
                 OverallWallTimeLimit := OverallWallTimeLimit (problem_limits set); TimeLimit := TimeLimit (problem_limits set) * 2 + Second |}
            else problem_limits set
  end.
(* lines 678-693 *)
Definition main_binary : binary :=
  {| name := "Main"; target := "Main"; language := lang run; binPath := path_join (in_root "Main") "bin"; outputPathPrefix := ""; binaryType := Contestant;
     blimits := limits_of_run; receiveInput := true; sourceFiles := [path_join (path_join (in_root "Main") "bin") ("Main." ++ ext (lang run))];
     extraFlags := if debug run && c_like then ["-static-libasan"; "-fsanitize=address"] else []; extraMountPoints := [] |}.
(* lines 721-735 *)
Definition validator_binary (vl : string) : binary :=
  {| name := "validator"; target := "validator"; language := vl; binPath := path_join (in_root "validator") "bin"; outputPathPrefix := "validator"; binaryType := Validator;
     blimits := validatorLimits limits_of_run (validator_limits set); receiveInput := false;
     sourceFiles := [path_join (path_join (in_root "validator") "bin") ("validator." ++ ext vl)]; extraFlags := []; extraMountPoints := [] |}.
(* lines 697-737 *)
Definition with_validator (ops : list op) (bs : list binary) : list op * ending :=
  if validator_name set =? "custom" then
    match validator_lang set with
    | None => (ops ++ [Mkdir (path_join (in_root "validator") "bin")], Panic)%list
    | Some vl => (ops ++ [Mkdir (path_join (in_root "validator") "bin");
                          Copy (path_join input ("validator." ++ vl)) (path_join (path_join (in_root "validator") "bin") ("validator." ++ ext vl))],
                  Ready (bs ++ [validator_binary vl]) limits_of_run)%list
    end
  else (ops, Ready bs limits_of_run).
Definition prepare : list op * ending :=
  match interactive set with
  | Some it =>
      match match find (Main it) (Interfaces it) with None => None | Some m => find (Parent it) m end with
      | None => ([], Panic)
      | Some i =>
          match normalizedSourceFiles (Main it) i with
          | None => ([], Panic)
          | Some src =>
              match child_binaries it (order1 (Interfaces it)) with
              | None => ([], Panic)
              | Some None => ([], CompileError)
              | Some (Some bs) =>
                  let bs := parent_binary it src :: bs in
                  let ops := (map (fun b => Mkdir (path_join (in_root (name b)) "bin")) bs ++
                              [Copy (path_join input ("interactive/Main." ++ ext (Parent it))) (in_root ("Main/bin/Main." ++ ext (Parent it)))] ++
                              fst (interface_ops it (order2 (Interfaces it))))%list in
                  if snd (interface_ops it (order2 (Interfaces it))) then with_validator ops bs else (ops, Panic)
              end
          end
      end
  | None =>
      let ops := [Mkdir (path_join (in_root "Main") "bin"); Write (path_join (path_join (in_root "Main") "bin") ("Main." ++ ext (lang run))) Submission] in
      if lang run =? "cat" then if archive_ok then with_validator ops [] else (ops, CompileError)
      else with_validator ops [main_binary]
  end.

(* ---- Processes ---- *)
(* What the sandbox is asked for (runner/sandbox.go:125-145).  Of a compiler the
   program's directory is mounted writable, otherwise read-only (lines 181, 307). *)
Record call := { c_limits : option limits; c_lang : string; c_chdir : path; c_stdin : option path; (* None: /dev/null, or a compiler's *)
                 c_out : path; c_err : path; c_meta : path; c_target : string; c_params : list string; c_mounts : list (path * string); c_writable : bool;
                 c_sources : list path }.
(* lines 876-925, 1097-1130; lines 753-770 *)
Definition out_path (prefix c e : string) : path := path_join (in_root prefix) (c ++ e).
Definition call_of (l : label) : call :=
  match l with
  | Compiler b =>
      {| c_limits := None; c_lang := match binaryType b with Validator => if language b =? "cpp" then "cpp11" else language b | _ => language b end;
         c_chdir := path_join (in_root (name b)) "bin"; c_stdin := None;
         c_out := path_join (in_root (name b)) "compile.out"; c_err := path_join (in_root (name b)) "compile.err"; c_meta := path_join (in_root (name b)) "compile.meta";
         c_target := target b; c_params := extraFlags b; c_mounts := []; c_writable := true; c_sources := sourceFiles b |}
  | Program b c =>
      {| c_limits := Some (blimits b); c_lang := language b; c_chdir := binPath b;
         c_stdin := if receiveInput b then Some (path_join (path_join input "cases") (c ++ ".in")) else None;
         c_out := out_path (outputPathPrefix b) c ".out"; c_err := out_path (outputPathPrefix b) c ".err"; c_meta := out_path (outputPathPrefix b) c ".meta";
         c_target := target b; c_params := match binaryType b with Problemsetter => [c; lang run] | _ => [] end;
         c_mounts := extraMountPoints b; c_writable := false; c_sources := [] |}
  | Judge c =>
      {| c_limits := Some (validatorLimits limits_of_run (validator_limits set));
         c_lang := match validator_lang set with Some vl => vl | None => "" end;
         c_chdir := path_join (in_root "validator") "bin"; c_stdin := Some (out_path "" c ".out");
         c_out := out_path "validator" c ".out"; c_err := out_path "validator" c ".err"; c_meta := out_path "validator" c ".meta";
         c_target := "validator"; c_params := [c; lang run]; c_mounts := []; c_writable := false; c_sources := [] |}
  end.
Definition under (p q : path) : Prop := exists r, q = (p ++ r)%list.
(* What a process finds in the file system. *)
Definition sees (l : label) (p : path) : Prop :=
  under (c_chdir (call_of l)) p \/ exists m t, In (m, t) (c_mounts (call_of l)) /\ under m p.
(* Where it, or the sandbox for it, writes (.omegajail: lines 355-373). *)
Definition writes (l : label) (p : path) : Prop :=
  In p [c_out (call_of l); c_err (call_of l); c_meta (call_of l); with_ext (c_err (call_of l)) ".omegajail"] \/
  c_writable (call_of l) = true /\ under (c_chdir (call_of l)) p.
(* The files that Run puts into the validator's directory, lines 262-300 (and 1090-1102
   of runner.go: an expected output that does not exist is /dev/null, and left out). *)
Definition vdir : path := path_join (in_root "validator") "bin".
Definition file_links (f : fs) (c : string) : list (path * path) :=
  ([(path_join (path_join input "cases") (c ++ ".in"), path_join vdir "data.in")] ++
   match names f (path_join (path_join input "cases") (c ++ ".out")) with
   | Some _ => [(path_join (path_join input "cases") (c ++ ".out"), path_join vdir "data.out")]
   | None => []
   end ++
   [(out_path "" c ".meta", path_join vdir "meta.in")])%list.

(* ---- Grade ---- *)
Inductive place :=
| Preparing (ops : list op) (e : ending)
| Compiling (bs : list binary)                     (* lines 744-790; the first one next *)
| CompilingNow (b : binary) (bs : list binary)
| Cases (cs : list string)                         (* lines 795-1078 *)
| RunningCase (c : string) (bs : list binary) (cs : list string)
| Validating (cs : list string)                    (* lines 1080-1226 *)
| Linking (c : string) (ls : list (path * path)) (cs : list string)
| JudgingNow (c : string) (cs : list string)
| Uploading                                        (* line 1251 *)
| Finished                                         (* returned, but for the deferred RemoveAll *)
| Gone.
Record state := { files : fs; live : list label; started : list label; generated : list string; at_ : place; bins : list binary;
                  archive : option (list (string * origin)) }.
Definition go (s : state) (f : fs) (a : place) : state :=
  {| files := f; live := live s; started := started s; generated := generated s; at_ := a; bins := bins s; archive := archive s |}.
Definition launch (s : state) (l : label) (a : place) : state :=
  {| files := files s; live := l :: live s; started := l :: started s; generated := generated s; at_ := a; bins := bins s; archive := archive s |}.
Definition finish (s : state) (lv : list label) (gen : list string) (a : place) : state :=
  {| files := files s; live := lv; started := started s; generated := generated s ++ gen; at_ := a; bins := bins s; archive := archive s |}.
Definition join2 (prefix s : string) : string := if prefix =? "" then s else prefix ++ "/" ++ s.   (* path.Join of two clean relative names *)
Definition generated_by (l : label) : list string :=
  match l with
  | Compiler b => [join2 (name b) "compile.out"; join2 (name b) "compile.err"; join2 (name b) "compile.meta"]
  | Program b c => [join2 (outputPathPrefix b) (c ++ ".out"); join2 (outputPathPrefix b) (c ++ ".err"); join2 (outputPathPrefix b) (c ++ ".meta")]
  | Judge c => ["validator/" ++ c ++ ".out"; "validator/" ++ c ++ ".err"; "validator/" ++ c ++ ".meta"]
  end.
Definition put_if (b : bool) (f : fs) (p : path) (o : origin) : fs := if b then put f p o else f.
(* lines 810-878 *)
Definition cat_files (f : fs) (c : string) (present a b d : bool) : fs :=
  put_if d (put_if b (put_if a f (out_path "" c ".out") (if present then Submission else Runner)) (out_path "" c ".meta") Runner) (out_path "" c ".err") Runner.
Definition regular (bs : list binary) : list binary := filter (fun b => match binaryType b with Validator => false | _ => true end) bs.
(* createZipFile, lines 1284-1310: files that cannot be opened are left out: those that
   do not exist, and those for which os.Open fails for another reason (all files stay
   open until the function returns, line 1298, so there may be no descriptor left). *)
Variable opens : string -> bool.
Inductive zipped (f : fs) : list string -> list (string * origin) -> Prop :=
| zip_nil : zipped f [] []
| zip_skip : forall n l z, content f (in_root n) = None \/ opens n = false -> zipped f l z -> zipped f (n :: l) z
| zip_add : forall n l z o, content f (in_root n) = Some o -> opens n = true -> zipped f l z -> zipped f (n :: l) ((n, o) :: z).
Definition remove_all (f : fs) (p : path) : fs :=
  {| names := fun q => match strip p q with Some _ => None | None => names f q end; data := data f; next := next f |}.

Inductive step (s : state) : state -> Prop :=
(* preparation *)
| makes_dir : forall p os e, at_ s = Preparing (Mkdir p :: os) e -> step s (go s (files s) (Preparing os e))
| copies : forall a b os e f, at_ s = Preparing (Copy a b :: os) e -> copyFile (files s) a b true f -> step s (go s f (Preparing os e))
| copy_error : forall a b os e f, at_ s = Preparing (Copy a b :: os) e -> copyFile (files s) a b false f -> step s (go s f Finished)
| writes_file : forall p o os e, at_ s = Preparing (Write p o :: os) e -> step s (go s (put (files s) p o) (Preparing os e))
| makes_fifo : forall p os e, at_ s = Preparing (Mkfifo p :: os) e -> names (files s) p = None -> step s (go s (put (files s) p Pipe) (Preparing os e))
| op_fails : forall o os e, at_ s = Preparing (o :: os) e -> step s (go s (files s) Finished)
| prepared : forall bs l, at_ s = Preparing [] (Ready bs l) -> step s
    {| files := files s; live := live s; started := started s; generated := generated s; at_ := Compiling bs; bins := bs; archive := archive s |}
| not_prepared : forall e, at_ s = Preparing [] e -> match e with Ready _ _ => False | _ => True end -> step s (go s (files s) Finished)
(* a process writes, or, where it may, removes *)
| process_writes : forall l p, In l (live s) -> writes l p -> step s (go s (put (files s) p (MadeBy l)) (at_ s))
| process_removes : forall l p, In l (live s) -> writes l p -> step s (go s (rename (files s) p None) (at_ s))
(* compilation *)
| compile : forall b bs, at_ s = Compiling (b :: bs) -> step s (launch s (Compiler b) (CompilingNow b bs))
| compiled : forall b bs, at_ s = CompilingNow b bs -> step s (finish s [] (generated_by (Compiler b)) (Compiling bs))
| compile_error : forall b bs, at_ s = CompilingNow b bs -> step s (finish s [] (generated_by (Compiler b)) Finished)
| all_compiled : at_ s = Compiling [] -> step s (go s (files s) (Cases (cases set)))
(* the cases; one is left out when the time is up (C24) *)
| leaves_out : forall c cs, at_ s = Cases (c :: cs) -> step s (go s (files s) (Cases cs))
| output_only : forall c cs present a b d, at_ s = Cases (c :: cs) -> lang run = "cat" ->
    step s (finish (go s (cat_files (files s) c present a b d) (at_ s)) (live s) [c ++ ".out"; c ++ ".err"; c ++ ".meta"] (Cases cs))
| begins_case : forall c cs, at_ s = Cases (c :: cs) -> lang run <> "cat" -> step s (go s (files s) (RunningCase c (regular (bins s)) cs))
| starts_program : forall c b bs bs' cs, at_ s = RunningCase c (bs ++ b :: bs') cs -> step s (launch s (Program b c) (RunningCase c (bs ++ bs') cs))
| program_ends : forall c bs cs l1 l l2, at_ s = RunningCase c bs cs -> live s = (l1 ++ l :: l2)%list ->
    step s (finish s (l1 ++ l2) (generated_by l) (at_ s))
| case_done : forall c cs, at_ s = RunningCase c [] cs -> live s = [] -> step s (go s (files s) (Cases cs))
| cases_done : at_ s = Cases [] -> step s (go s (files s) (Validating (cases set)))
(* the validator *)
| not_validated : forall c cs, at_ s = Validating (c :: cs) -> step s (go s (files s) (Validating cs))
| validates : forall c cs, at_ s = Validating (c :: cs) -> validator_name set = "custom" -> step s (go s (files s) (Linking c (file_links (files s) c) cs))
| links : forall c a b ls cs f, at_ s = Linking c ((a, b) :: ls) cs -> copyFile (rename (files s) b None) a b true f -> step s (go s f (Linking c ls cs))
| link_error : forall c a b ls cs f, at_ s = Linking c ((a, b) :: ls) cs -> copyFile (rename (files s) b None) a b false f ->
    step s (finish (go s f (at_ s)) (live s) (generated_by (Judge c)) (Validating cs))
| judges : forall c cs, at_ s = Linking c [] cs -> step s (launch s (Judge c) (JudgingNow c cs))
| judged : forall c cs, at_ s = JudgingNow c cs -> step s (finish s [] (generated_by (Judge c)) (Validating cs))
| validated : at_ s = Validating [] -> step s (go s (files s) Uploading)
(* the upload *)
| uploads : forall z, at_ s = Uploading -> zipped (files s) (generated s) z -> step s
    {| files := files s; live := live s; started := started s; generated := generated s; at_ := Finished; bins := bins s; archive := Some z |}
| upload_fails : at_ s = Uploading -> step s (go s (files s) Finished)
| cleans_up : at_ s = Finished -> step s (go s (if preserve then files s else remove_all (files s) root) Gone).

(* At the start there are some files, each with one name, and none of this attempt. *)
Variable there : path -> bool.
Definition start_files : fs := {| names := fun p => if there p then Some (Old p) else None; data := fun i => match i with Old p => Initial p | New _ _ => Runner end; next := 0 |}.
Definition start : state :=
  {| files := start_files; live := []; started := []; generated := []; at_ := Preparing (fst prepare) (snd prepare); bins := []; archive := None |}.
Inductive reachable : state -> Prop :=
| reach_start : reachable start
| reach_step : forall s s', reachable s -> step s s' -> reachable s'.
Inductive steps (s : state) : state -> Prop :=
| steps_none : steps s s
| steps_more : forall s1 s2, steps s s1 -> step s1 s2 -> steps s s2.
End Grade.

(* ---- The command line, runner/sandbox.go:255-335 ---- *)
(* base.Duration is in nanoseconds; Milliseconds() truncates. *)
Definition milliseconds (d : Z) : Z := Z.quot d 1000000.
Record jail := { j_memory : Z; j_time : Z; j_extra : Z; j_output : Z }.     (* -m, -t, -w, -O *)
Definition jail_limits (lng : string) (l : limits) : jail :=
  {| j_memory := Z.min (640 * Mebibyte) (MemoryLimit l);
     j_time := milliseconds (if lng =? "java" then TimeLimit l + 1000 else TimeLimit l);
     j_extra := milliseconds (ExtraWallTime l); j_output := OutputLimit l |}.

(* The runner's one-shot mode: cmd/omegaup-runner/main.go:63-284 and oneshot_input.go. *)
From Coq Require Import String Ascii List Bool Arith NArith QArith.
Import ListNotations.
Local Open Scope string_scope.

(* common/run.go:24-32 *)
Record Run := { AttemptID : N; Source : string; Language : string; ProblemName : string; InputHash : string; MaxScore : option Q; Debug : bool }.

(* path.Ext: from the last byte on to the left, until a slash. *)
Fixpoint ext_from (rev_path acc : list ascii) : string :=
  match rev_path with
  | [] => ""
  | c :: l => if Ascii.eqb c "/" then "" else if Ascii.eqb c "." then string_of_list_ascii (c :: acc) else ext_from l (c :: acc)
  end.
Definition Ext (p : string) : string := ext_from (rev (list_ascii_of_string p)) [].
(* s[1:] *)
Definition tail (s : string) : string := match s with String _ s => s | "" => "" end.

(* ---- Files ---- *)
Notation path := (list string).         (* relative to the directory in question *)
(* What is in a directory, in the order of readDirNames (sorted).  Of a symbolic link
   what os.Open finds at its end: nothing, a directory, a file. *)
Inductive target := Nothing | Directory | Regular (data : string).
Inductive node := File (data : string) | Fifo | Link (to : target) | Dir (entries : list (string * node)).
(* The directory of -results: there are no symbolic links, pipes and devices in it. *)
Inductive entry := AFile (data : string) | ADir.
Definition dir := path -> option entry.
Fixpoint path_eqb (p q : path) : bool :=
  match p, q with [], [] => true | x :: p, y :: q => String.eqb x y && path_eqb p q | _, _ => false end.
Definition set (d : dir) (p : path) (e : entry) : dir := fun q => if path_eqb p q then Some e else d q.

(* What the operating system refuses for no reason that can be seen from the files
   (permissions, a full disk): at most one thing for each path. *)
Inductive trouble := Fine | NoList | NoMkdir | NoOpen | NoCreate | CopyStops (n : nat).

Section Oneshot.
Variable troubles : path -> trouble.

(* os.MkdirAll(q/p): q is there.  None: an error, the first directories may have been made *)
Fixpoint mkdirs (d : dir) (q p : path) : dir * bool :=
  match d q with
  | Some (AFile _) => (d, false)
  | Some ADir => match p with [] => (d, true) | x :: p => mkdirs d (q ++ [x]) p end
  | None => let d := set d q ADir in match p with [] => (d, true) | x :: p => mkdirs d (q ++ [x]) p end
  end.
(* Whether Walk returns nil, an error, or does not return. *)
Inductive ended := Done | Stopped | Hangs.
Definition is_ (t : trouble) (p : path) : bool :=
  match t, troubles p with NoList, NoList | NoMkdir, NoMkdir | NoOpen, NoOpen | NoCreate, NoCreate => true | _, _ => false end.
(* main.go:211-226: os.Create and io.Copy of what os.Open gave (None: a directory,
   which cannot be read) *)
Definition create_copy (d : dir) (p : path) (src : option string) : dir * ended :=
  if is_ NoCreate p then (d, Stopped)
  else match d p with
       | Some ADir => (d, Stopped)
       | _ => match src with
              | None => (set d p (AFile ""), Stopped)
              | Some s => match troubles p with
                          | CopyStops n => (set d p (AFile (substring 0 n s)), Stopped)
                          | _ => (set d p (AFile s), Done)
                          end
              end
       end.
(* main.go:182-227, of what is not a directory *)
Definition copy_node (d : dir) (p : path) (n : node) : dir * ended :=
  if is_ NoMkdir p then (d, Stopped)
  else match mkdirs d [] (removelast p) with
       | (d, false) => (d, Stopped)
       | (d, true) =>
           if is_ NoOpen p then (d, Stopped)
           else match n with
                | Fifo => (d, Hangs)                       (* open(2) waits for a writer *)
                | Link Nothing => (d, Stopped)
                | Link Directory => create_copy d p None
                | Link (Regular s) | File s => create_copy d p (Some s)
                | Dir _ => (d, Done)                       (* lines 178-180; not called so *)
                end
       end.
(* filepath.Walk with that function: a directory, then what is in it. *)
Fixpoint walk (d : dir) (p : path) (n : node) {struct n} : dir * ended :=
  match n with
  | Dir l =>
      if is_ NoList p then (d, Stopped)
      else (fix entries d l {struct l} :=
              match l with
              | [] => (d, Done)
              | (x, n) :: l => match walk d (p ++ [x]) n with (d, Done) => entries d l | r => r end
              end) d l
  | _ => copy_node d p n
  end.

(* ---- The program ---- *)
Variables Settings Result Bench : Type.
(* The command line, main.go:35-52. *)
Variables version debug : bool.
Variables oneshot request source input results : string.
(* What is at the paths of the command line, and how JSON is read. *)
Variable read_file : string -> option string.
Variable read_run : string -> option Run.
Variable settings_json : option string.    (* input/settings.json *)
Variable read_settings : string -> option Settings.
(* The configuration file: cannot be opened, cannot be decoded, or PreserveFiles. *)
Variable config : option (option bool).
Variable PRESERVE : string.                (* of the environment *)
Variable temp_ok : bool.                   (* ioutil.TempDir works *)
(* runner.Grade and what it leaves in runRoot if files are preserved (C68). *)
Inductive graded := Success (r : Result) | Failure | Panicked.
Variable Grade : Run -> Settings -> graded * option node.
Variable RunHostBenchmark : option Bench.
Variable encodes : Result -> bool.         (* whether JSON can say it *)
Variable before : dir.                     (* the directory of -results *)

(* main.go:63-65 *)
Definition isOneShotMode : bool := String.eqb oneshot "benchmark" || String.eqb oneshot "run".

(* oneshot_input.go:17 *)
Definition oneshotInputHash : string := "0000000000000000000000000000000000000000".
(* main.go:112-147: what is to be graded *)
Definition the_run : option Run :=
  match
    (if negb (String.eqb request "") then match read_file request with None => None | Some s => read_run s end
    else if negb (String.eqb source "") then
      match read_file source with
      | None => None
      | Some b =>
          let extension := Ext source in
          if String.eqb extension "" then None
          else Some {| AttemptID := 0; Source := b; Language := tail extension; ProblemName := ""; InputHash := ""; MaxScore := Some 100%Q; Debug := false |}
      end
    else None)
  with
  | None => None
  | Some r => Some {| AttemptID := AttemptID r; Source := Source r; Language := Language r; ProblemName := ProblemName r;
                      InputHash := oneshotInputHash; MaxScore := MaxScore r; Debug := if debug then true else Debug r |}
  end.
(* oneshot_input.go:67-89, by InputManager.Add (common/inputmanager.go:277-315): the
   input is not committed, Verify and Delete fail, and Persist decides. *)
Definition Persist : option Settings := match settings_json with None => None | Some s => read_settings s end.

Inductive exit := Exits (status : nat) | Never | Serves.
(* What the program does, as seen from outside: what Grade is called with, what is
   written to the standard output, the directory of -results, and what is left of the
   temporary directory: it is there, and in it that of the run. *)
Record outcome := { calls : option (Run * Settings); stdout : option (Result + Bench + unit); copied : dir; tmp : bool; run_dir : option node; ends : exit }.
(* Most returns: nothing has been done. *)
Definition quits : outcome := {| calls := None; stdout := None; copied := before; tmp := true; run_dir := None; ends := Exits 0 |}.

(* main.go:107-235.  keep: PreserveFiles.  Deferred functions also run when Grade
   panics (status 2), but not while the program hangs. *)
Definition runOneshotRun (keep : bool) : outcome :=
  if String.eqb input "" then quits
  else match the_run with
       | None => quits
       | Some run =>
           match Persist with
           | None => quits
           | Some settings =>
               (* lines 163-166 *)
               let remove_root := negb (String.eqb results "") && negb keep in
               let keep := if remove_root then true else keep in
               let (r, tree) := Grade run settings in
               let left := if keep then tree else None in              (* runner.go:459-461 *)
               let after (ends : exit) := match ends with Never => left | _ => if remove_root then None else left end in
               let o out d e := {| calls := Some (run, settings); stdout := out; copied := d; tmp := true; run_dir := after e; ends := e |} in
               match r with
               | Panicked => o None before (Exits 2)
               | Failure => o None before (Exits 0)
               | Success r =>
                   let out := if encodes r then Some (inl (inl r)) else None in
                   if String.eqb results "" then o out before (Exits 0)
                   else match left with
                        | None => o out before (Exits 0)               (* Walk: Lstat(runRoot) fails *)
                        | Some t => match walk before [] t with
                                    | (d, Hangs) => o out d Never
                                    | (d, _) => o out d (Exits 0)
                                    end
                        end
               end
           end
       end.
(* main.go:90-105 *)
Definition runOneshotBenchmark : outcome :=
  {| calls := None; stdout := match RunHostBenchmark with None => None | Some b => Some (inl (inr b)) end;
     copied := before; tmp := true; run_dir := None; ends := Exits 0 |}.
(* main.go:237-284.  The panics of lines 251, 259 and the nil dereference of line 75 or
   82 end with status 2. *)
Definition main : outcome :=
  let dies := {| calls := None; stdout := None; copied := before; tmp := false; run_dir := None; ends := Exits 2 |} in
  if version then {| calls := None; stdout := Some (inr tt); copied := before; tmp := false; run_dir := None; ends := Exits 0 |}
  else match config with
       | None | Some None => dies
       | Some (Some preserve) =>
           if isOneShotMode then
             if negb temp_ok then dies
             else
               let keep := if negb (String.eqb PRESERVE "") then true else preserve in
               let o := if String.eqb oneshot "benchmark" then runOneshotBenchmark else runOneshotRun keep in
               match ends o with
               | Never => o
               | _ => if negb keep then {| calls := calls o; stdout := stdout o; copied := copied o; tmp := false; run_dir := None; ends := ends o |} else o
               end
           else {| calls := None; stdout := None; copied := before; tmp := false; run_dir := None; ends := Serves |}
       end.
End Oneshot.

(* Model of what is said about a failed compilation: invokeOmegajail, appendFile and
   Compile of runner/sandbox.go (lines 153-243, 350-399), Grade's loop over the
   binaries and getCompileError of runner/runner.go (lines 742-794, 1312-1323).

   Simplifications: a file is named by the directory of the binary it is in (binRoot)
   and its place there; the sandbox writes only the files it is given and into the
   directory it may write (C67); contents are byte strings; a disk that fills up takes
   a number of bytes more; other failures are those of opening a file.  What the meta
   file means is MetaModel.  os.Stat fails only because there is no such file; the
   sources are within the chroot, or there is one that is not (CeModel.sources_ok). *)
From Coq Require Import String Ascii List Bool Arith ZArith.
From Verif Require Import GoStr NumModel GradeModel MetaModel.
Import ListNotations.
Local Open Scope string_scope.

Definition NL : string := String LF "".

(* A file of a binary: compile.out, compile.err, compile.meta, compile.err.omegajail,
   or one in bin. *)
Inductive place := OutFile | ErrFile | MetaFile_ | LogFile | InBin (f : string).
Definition place_eqb (a b : place) : bool :=
  match a, b with
  | OutFile, OutFile | ErrFile, ErrFile | MetaFile_, MetaFile_ | LogFile, LogFile => true
  | InBin f, InBin g => String.eqb f g
  | _, _ => false
  end.
Definition name := (string * place)%type.
Definition name_eqb (a b : name) : bool := String.eqb (fst a) (fst b) && place_eqb (snd a) (snd b).
Definition files := name -> option string.
Definition put (f : files) (n : name) (s : string) : files := fun m => if name_eqb n m then Some s else f m.
Definition put_opt (f : files) (n : name) (s : option string) : files := match s with Some s => put f n s | None => f end.
Definition del (f : files) (n : name) : files := fun m => if name_eqb n m then None else f m.
Definition old (f : files) (n : name) : string := match f n with Some s => s | None => "" end.
Fixpoint put_all (f : files) (b : string) (l : list (string * string)) : files :=
  match l with [] => f | (x, s) :: l => put_all (put f (b, InBin x) s) b l end.

(* What becomes of one call of the sandbox.  [starts]: the program could be executed;
   what it makes of its files (None: it does not touch it), and says on its own
   standard error.  [log_ok]: os.Create, sandbox.go:356; [err_ok], [room]: opening the
   error file in appendFile, :391, and how much can be written to it; [class_ok],
   [class_room]: the same on :235. *)
Record sandbox_call := {
  starts : bool;
  j_out : option string; j_err : option string; j_meta : option string;
  j_bin : list (string * string);
  j_says : string;
  log_ok : bool; err_ok : bool; room : nat; class_ok : bool; class_room : nat
}.

(* What a write of s leaves of it. *)
Definition fits (n : nat) (s : string) : string := MetaModel.take n s.

(* appendFile, runner/sandbox.go:378-399. *)
Definition appendFile (f : files) (c : sandbox_call) (dest src : name) : files :=
  match f src with
  | None => f
  | Some s => if String.eqb s "" then f
              else if err_ok c then put f dest (old f dest ++ fits (room c) (NL ++ s)) else f
  end.

(* What the sandbox does, once started, with the files of binary b. *)
Definition jail (f : files) (b : string) (c : sandbox_call) : files :=
  put_all (put_opt (put_opt (put_opt f (b, OutFile) (j_out c)) (b, ErrFile) (j_err c)) (b, MetaFile_) (j_meta c)) b (j_bin c).

(* invokeOmegajail, runner/sandbox.go:350-376. *)
Definition invokeOmegajail (f : files) (b : string) (c : sandbox_call) : files :=
  let f := if log_ok c then put f (b, LogFile) "" else f in
  let f := if starts c then jail f b c else f in
  if log_ok c then
    let f := if starts c then put f (b, LogFile) (j_says c) else f in
    del (appendFile f c (b, ErrFile) (b, LogFile)) (b, LogFile)
  else f.

(* A binary, runner/runner.go:240-252. *)
Record binary := { b_name : string; b_language : string; b_validator : bool; b_target : string; sources_ok : bool }.

(* runner/sandbox.go:226-242 *)
Definition class_error (target : string) : string :=
  "Class `" ++ target ++ "` not found. Make sure your class is named `" ++ target ++ "` and outside all packages".

Section Compile.
Variable pf : string -> float64.       (* ParseFloat(s, 64) / 1e6 *)

(* Compile, runner/sandbox.go:153-243: the files, the metadata and whether there is
   an error. *)
Definition Compile (f : files) (lang : string) (b : binary) (c : sandbox_call) : files * (metadata * bool) :=
  let n := b_name b in
  let runtimeconfig := (n, InBin (b_target b ++ ".runtimeconfig.json")) in
  let f := if String.eqb lang "cs" then match f runtimeconfig with None => put f runtimeconfig "link" | Some _ => f end else f in
  if negb (sources_ok b) then (f, MetaModel.Compile pf lang OutsideChroot false false)
  else
    let f := invokeOmegajail f n c in
    match f (n, MetaFile_) with
    | None => (f, MetaModel.Compile pf lang CNoMetaFile false false)
    | Some meta =>
      let class_exists := match f (n, InBin (b_target b ++ ".class")) with Some _ => true | None => false end in
      let r := MetaModel.Compile pf lang (CMetaFile meta) class_exists (class_ok c) in
      let missing := String.eqb lang "java" && veqb (d_verdict (fst (parseMetaFile pf None lang meta false false))) OK && negb class_exists in
      (if missing && class_ok c
       then put f (n, ErrFile) (old f (n, ErrFile) ++ fits (class_room c) (NL ++ class_error (b_target b)))
       else f, r)
    end.

Variable root : string.                (* runRoot *)
(* path.Join(binRoot, ...) of the files of a binary *)
Definition path_of (n : name) : string :=
  root ++ "/" ++ fst n ++ "/" ++
  match snd n with
  | OutFile => "compile.out" | ErrFile => "compile.err" | MetaFile_ => "compile.meta" | LogFile => "compile.err.omegajail"
  | InBin f => "bin/" ++ f
  end.
(* getCompileError, runner/runner.go:1312-1323. *)
Definition getCompileError (f : files) (n : name) : string :=
  match f n with Some s => s | None => "open " ++ path_of n ++ ": no such file or directory" end.

(* runner/runner.go:779-784 *)
Definition compileErrorFile (language : string) : place :=
  if String.eqb language "pas" || String.eqb language "cs" then OutFile else ErrFile.

(* The loop of runner/runner.go:742-793: the files, the metadata of the binaries, and
   the text of the compile error, if there is one, with whether an error is returned. *)
Fixpoint compile_binaries (f : files) (l : list (binary * sandbox_call)) : files * list (string * metadata) * option (string * bool) :=
  match l with
  | [] => (f, [], None)
  | (b, c) :: l =>
    let lang := if b_validator b && String.eqb (b_language b) "cpp" then "cpp11" else b_language b in
    let '(f, (m, err)) := Compile f lang b c in
    if err || negb (veqb (d_verdict m) OK)
    then (f, [(b_name b, m)], Some (b_name b ++ ":" ++ NL ++ getCompileError f (b_name b, compileErrorFile (b_language b)), err))
    else let '(f, ms, r) := compile_binaries f l in (f, (b_name b, m) :: ms, r)
  end.
End Compile.

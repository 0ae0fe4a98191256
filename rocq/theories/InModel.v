(* Inputs on disk: common/inputmanager.go (Add, PreloadInputs), runner/input.go,
   grader/input.go and the inMemoryInput of common/literalinput.go. *)
From Coq Require Import String Ascii List Bool ZArith.
From Verif Require Import GoStr.
Import ListNotations.
Local Open Scope string_scope.

(* ---- Paths ---- *)
(* A rooted path in canonical form, as the list of its segments. *)
Notation path := (list string).

(* path.Join(p, name) = path.Clean(p + "/" + name) for a rooted canonical p. *)
Definition join_seg (p : path) (s : string) : path :=
  if (s =? "") || (s =? ".") then p else if s =? ".." then removelast p else (p ++ [s])%list.
Definition path_join (p : path) (name : string) : path := fold_left join_seg (split "/" name) p.
(* The text of a path. *)
Definition path_text (p : path) : string := "/" ++ join "/" p.
(* fmt.Sprintf("%s.ext", p). *)
Definition with_ext (p : path) (ext : string) : path := (removelast p ++ [(last p "" ++ ext)%string])%list.

Fixpoint path_eqb (p q : path) : bool :=
  match p, q with
  | [], [] => true
  | a :: p, b :: q => (a =? b) && path_eqb p q
  | _, _ => false
  end.
(* The rest of q after p. *)
Fixpoint strip (p q : path) : option path :=
  match p, q with
  | [], q => Some q
  | a :: p, b :: q => if a =? b then strip p q else None
  | _ :: _, [] => None
  end.

(* ---- The filesystem and its operations ---- *)
Inductive node := File (content : string) | Dir.
Notation fs := (path -> option node).
Definition set (f : fs) (p : path) (n : option node) : fs := fun q => if path_eqb p q then n else f q.
Definition is_dir (f : fs) (p : path) : bool := match f p with Some Dir => true | _ => false end.

(* os.MkdirAll, os.Create, one byte of a write to a file, os.Remove of a file,
   os.RemoveAll, os.Rename.  A write of several bytes is a sequence of such steps. *)
Inductive op := MkdirAll (p : path) | Create (p : path) | Append (p : path) (c : ascii)
  | Remove (p : path) | RemoveAll (p : path) | Rename (p q : path).

Fixpoint prefixes (p : path) : list path :=
  match p with [] => [[]] | a :: p => [] :: map (cons a) (prefixes p) end.
Definition apply (o : op) (f : fs) : option fs :=
  match o with
  | MkdirAll p =>
      if forallb (fun q => match f q with Some (File _) => false | _ => true end) (prefixes p)
      then Some (fun q => if existsb (path_eqb q) (prefixes p) then Some Dir else f q) else None
  | Create p =>
      if is_dir f (removelast p) && negb (is_dir f p) then Some (set f p (Some (File ""))) else None
  | Append p c => match f p with Some (File s) => Some (set f p (Some (File (s ++ String c "")))) | _ => None end
  | Remove p => match f p with Some (File _) => Some (set f p None) | _ => None end
  | RemoveAll p => Some (fun q => match strip p q with Some _ => None | None => f q end)
  | Rename p q =>
      match f p with
      | None => None
      | Some (File s) => if is_dir f (removelast q) && negb (is_dir f q) then Some (set (set f p None) q (Some (File s))) else None
      | Some Dir =>
          if is_dir f (removelast q) && match f q with None => true | _ => false end
          then Some (fun r => match strip q r with
                              | Some t => f (p ++ t)%list
                              | None => match strip p r with Some _ => None | None => f r end
                              end) else None
      end
  end.
(* A crash during RemoveAll leaves any part of the tree; the other operations are
   atomic (the process is killed; the machine and its disk keep running). *)
Definition partly (o : op) (kept : path -> bool) (f : fs) : fs :=
  match o with
  | RemoveAll p => fun q => match strip p q with Some _ => if kept q then f q else None | None => f q end
  | _ => f
  end.

(* Programs: operations, whose success the program sees, and reading.  An oracle
   says what happens at each operation: it is carried out (or fails for its own
   reasons), the system reports an error and nothing is done, or the process
   crashes; it also crashes where the oracle ends. *)
Inductive answer := Err | Nil (committed : option Z). (* the error returned; if it is nil, the size committed, if any *)
Inductive prog := Ret (r : answer) | Do (o : op) (k : bool -> prog) | Look (k : fs -> prog).
Inductive outcome := Works | Fails | Crashes (kept : path -> bool).
Inductive result := Crashed (f : fs) | Finished (r : answer) (f : fs).
Fixpoint exec (p : prog) (os : list outcome) (f : fs) {struct p} : result :=
  match p with
  | Ret r => Finished r f
  | Look k => exec (k f) os f
  | Do o k =>
      match os with
      | [] => Crashed f
      | Works :: os => match apply o f with Some f' => exec (k true) os f' | None => exec (k false) os f end
      | Fails :: os => exec (k false) os f
      | Crashes kept :: os => Crashed (partly o kept f)
      end
  end.

(* Writing a text to a file, byte by byte. *)
Fixpoint write (p : path) (s : string) (ok fail : prog) : prog :=
  match s with
  | "" => ok
  | String c s => Do (Append p c) (fun b => if b then write p s ok fail else fail)
  end.

(* ---- Reading the files ---- *)
Definition LF : ascii := ascii_of_nat 10.
Definition CR : ascii := ascii_of_nat 13.
Definition lf : string := String LF "".
(* bufio.ScanLines: the lines, without their line feed and a carriage return
   before it; what follows the last line feed is a line unless it is empty.
   (Lines over 64 KiB are not modelled.) *)
Fixpoint strip_cr (s : string) : string :=
  match s with
  | "" => ""
  | String c "" => if Ascii.eqb c CR then "" else s
  | String c s => String c (strip_cr s)
  end.
Fixpoint drop_empty_last (l : list string) : list string :=
  match l with [] => [] | [x] => if x =? "" then [] else [x] | x :: l => x :: drop_empty_last l end.
Definition scan_lines (s : string) : list string := map strip_cr (drop_empty_last (split LF s)).

(* White space: \s of package regexp. *)
Definition is_space (c : ascii) : bool := existsb (fun n => Nat.eqb (nat_of_ascii c) n) [9; 10; 12; 13; 32]%nat.
Fixpoint skip_space (s : string) : string :=
  match s with "" => "" | String c s' => if is_space c then skip_space s' else s end.
Definition is_hex (c : ascii) : bool :=
  let n := nat_of_ascii c in (Nat.leb 48 n && Nat.leb n 57) || (Nat.leb 97 n && Nat.leb n 102).
Fixpoint take_hex (n : nat) (s : string) : option (string * string) :=
  match n, s with
  | O, _ => Some ("", s)
  | S n, String c s => if is_hex c then match take_hex n s with Some (h, r) => Some (String c h, r) | None => None end else None
  | S _, "" => None
  end.
(* runner/input.go:149: ^\s*([a-f0-9]{40}) [ *](.+)\s*$ on a line. *)
Definition parse_line (l : string) : option (string * string) :=
  match take_hex 40 (skip_space l) with
  | Some (h, String a (String b rest)) =>
      if Ascii.eqb a " " && (Ascii.eqb b " " || Ascii.eqb b "*") && negb (rest =? "") then Some (h, rest) else None
  | _ => None
  end.
(* bufio.ScanWords: the first word (ASCII white space; '\v' and the non-ASCII
   spaces do not occur in what is written here and are not modelled). *)
Fixpoint take_word (s : string) : string :=
  match s with "" => "" | String c s => if is_space c then "" else String c (take_word s) end.
Definition first_word (s : string) : option string :=
  match skip_space s with "" => None | s => Some (take_word s) end.
Definition first_line (s : string) : option string := match scan_lines s with [] => None | l :: _ => Some l end.

Section Inputs.
Variable digest : string -> string.      (* %0x of the SHA-1 of the bytes *)
Variable settings_ok : string -> bool.   (* json: settings.json can be decoded *)

(* ---- The runner's inputs (runner/input.go) ---- *)
(* Go map from string to string: the last value of a key counts. *)
Fixpoint put (m : list (path * string)) (p : path) (h : string) : list (path * string) :=
  match m with
  | [] => [(p, h)]
  | (q, g) :: m => if path_eqb q p then (q, h) :: m else (q, g) :: put m p h
  end.
(* runner/input.go:137-176, getStoredHashes, after reading the file. *)
Fixpoint stored_hashes (p : path) (m : list (path * string)) (ls : list string) : option (list (path * string)) :=
  match ls with
  | [] => Some m
  | l :: ls =>
      match parse_line l with
      | None => None
      | Some (h, name) =>
          let q := path_join (removelast p) name in
          if prefix (path_text p) (path_text q) then stored_hashes p (put m q h) ls else None
      end
  end.
(* runner/input.go:94-112: the loop over the hashes (in any order: it is a map). *)
Fixpoint check_hashes (f : fs) (m : list (path * string)) (size : Z) : option Z :=
  match m with
  | [] => Some size
  | (q, h) :: m =>
      match f q with
      | Some (File c) => if digest c =? h then check_hashes f m (size + Z.of_nat (String.length c)) else None
      | _ => None
      end
  end.
(* runner/input.go:89-124.  The result is the size committed. *)
Definition runner_Verify (p : path) (f : fs) : option Z :=
  match f (with_ext p ".sha1") with
  | Some (File s) =>
      match stored_hashes p [] (scan_lines s) with
      | None => None
      | Some m =>
          match check_hashes f m 0 with
          | None => None
          | Some size =>
              match f (p ++ ["settings.json"])%list with
              | Some (File c) => if settings_ok c then Some size else None
              | _ => None
              end
          end
      end
  | _ => None
  end.
(* runner/input.go:127-131. *)
Definition runner_Delete (p : path) (k : prog) : prog :=
  Do (RemoveAll (with_ext p ".tmp")) (fun _ => Do (RemoveAll (with_ext p ".sha1")) (fun _ => Do (RemoveAll p) (fun _ => k))).

(* What archive/tar reads: entries, a directory or a file with its contents. *)
Inductive entry := EDir (name : string) | EFile (name content : string).

(* The line of the .sha1 file of a file entry: runner/input.go:243-249. *)
Definition sha1_line (p : path) (name content : string) : string :=
  digest content ++ " *" ++ last p "" ++ "/" ++ name ++ lf.
(* runner/input.go:210-252, the loop; the archive ends well (io.EOF) or not. *)
Fixpoint extract (p : path) (es : list entry) (size : Z) (ok : Z -> prog) (fail : prog) : prog :=
  match es with
  | [] => ok size
  | EDir name :: es =>
      Do (MkdirAll (path_join (with_ext p ".tmp") name)) (fun b => if b then extract p es size ok fail else fail)
  | EFile name content :: es =>
      let q := path_join (with_ext p ".tmp") name in
      Do (MkdirAll (removelast q)) (fun b => if negb b then fail else
      Do (Create q) (fun b => if negb b then fail else
      write q content
        (write (with_ext p ".sha1") (sha1_line p name content)
           (extract p es (size + Z.of_nat (String.length content)) ok fail) fail) fail))
  end.
(* runner/input.go:178-277, persistFromTarStream: readable says whether the
   decompressor accepts the start of the stream, es are the entries of the
   archive and clean whether it ends with io.EOF after them. *)
Definition persist_tar (p : path) (stream : string) (readable : bool) (es : list entry) (clean : bool) (streamHash : string) : prog :=
  let tmp := with_ext p ".tmp" in
  Do (MkdirAll tmp) (fun b => if negb b then Ret Err else
  let fail := Do (RemoveAll tmp) (fun _ => Ret Err) in (* defer os.RemoveAll(tmpPath) *)
  if negb readable then fail else
  Do (Create (with_ext p ".sha1")) (fun b => if negb b then fail else
  extract p es 0 (fun size =>
    if negb clean then fail
    else if negb (streamHash =? digest stream) then fail
    else Look (fun f => match f (tmp ++ ["settings.json"])%list with
           | Some (File c) =>
               if settings_ok c then
                 Do (Rename tmp p) (fun b => if negb b then fail else
                 Do (RemoveAll tmp) (fun _ => Ret (Nil (Some size))))
               else fail
           | _ => fail end)) fail)).

(* common/inputmanager.go:283-319, the function passed to the cache, for an input
   that is not committed yet.  (The errors of Delete are ignored, line 296.) *)
Definition add (verify : fs -> option Z) (delete : prog -> prog) (persist : prog) : prog :=
  Look (fun f => match verify f with Some size => Ret (Nil (Some size)) | None => delete persist end).
Definition runner_add (p : path) stream readable es clean streamHash : prog :=
  add (runner_Verify p) (runner_Delete p) (persist_tar p stream readable es clean streamHash).

(* common/literalinput.go:497-533: an in-memory input persisted for a runner,
   with its files in the iteration order of the map. *)
Fixpoint persist_files (p : path) (files : list (string * string)) (size : Z) : prog :=
  match files with
  | [] => Ret (Nil (Some size))
  | (name, content) :: files =>
      let q := path_join p name in
      Do (MkdirAll (removelast q)) (fun b => if negb b then Ret Err else
      Do (Create q) (fun b => if negb b then Ret Err else
      write q content
        (write (with_ext p ".sha1") (sha1_line p name content)
           (persist_files p files (size + Z.of_nat (String.length content + String.length (sha1_line p name content)))) (Ret Err)) (Ret Err)))
  end.
Definition literal_runner_Persist (p : path) (files : list (string * string)) : prog :=
  Do (MkdirAll (removelast p)) (fun b => if negb b then Ret Err else
  Do (Create (with_ext p ".sha1")) (fun b => if negb b then Ret Err else persist_files p files 0)).

(* ---- The grader's inputs (grader/input.go); a is the path of the archive ---- *)
(* grader/input.go:200-226: the size committed, the hash and the length. *)
Definition grader_Verify (a : path) (f : fs) : option (Z * string * Z) :=
  match f a with
  | Some (File c) =>
      match f (with_ext a ".sha1") with
      | Some (File s) =>
          match first_word s with
          | Some w =>
              if w =? digest c then
                match f (with_ext a ".len") with
                | Some (File l) => match first_line l with
                                   | Some l => match ParseInt l with Some n => Some (Z.of_nat (String.length c), w, n) | None => None end
                                   | None => None end
                | _ => None
                end
              else None
          | None => None
          end
      | _ => None
      end
  | _ => None
  end.
(* grader/input.go:262-267 *)
Definition grader_Delete (a : path) (k : prog) : prog :=
  Do (Remove (with_ext a ".tmp")) (fun _ => Do (Remove (with_ext a ".sha1")) (fun _ =>
  Do (Remove (with_ext a ".len")) (fun _ => Do (Remove a) (fun _ => k)))).

(* Writing that ignores errors: the closing of the tar and gzip writers,
   grader/input.go:108-112 (deferred calls whose results are dropped); after an
   error nothing more is written. *)
Fixpoint write_ignoring (p : path) (s : string) (k : prog) : prog :=
  match s with
  | "" => k
  | String c s => Do (Append p c) (fun b => if b then write_ignoring p s k else k)
  end.
(* grader/input.go:299-351 with CreateArchiveFromGit (80-191): body are the bytes
   of the archive written while walking the tree, trailer those written when the
   writers are closed, total the sizes of the blobs; walk_ok: the repository
   could be read and has a settings.json. *)
Definition grader_Persist (a : path) (body trailer : string) (total : Z) (walk_ok : bool) : prog :=
  let tmp := with_ext a ".tmp" in
  Do (MkdirAll (removelast a)) (fun b => if negb b then Ret Err else
  let fail := Do (Remove tmp) (fun _ => Ret Err) in (* defer os.Remove(tmpPath) *)
  Do (Create tmp) (fun b => if negb b then fail else
  write tmp body
    (write_ignoring tmp trailer
      (if negb walk_ok then fail else
       Look (fun f => match f tmp with
         | Some (File c) =>
             Do (Create (with_ext a ".sha1")) (fun b => if negb b then fail else
             write (with_ext a ".sha1") (digest c ++ " *" ++ last a "" ++ lf)
               (Do (Create (with_ext a ".len")) (fun b => if negb b then fail else
                write (with_ext a ".len") (fmt_int total ++ lf)
                  (Do (Rename tmp a) (fun b => if negb b then fail else
                   Do (Remove tmp) (fun _ => Ret (Nil (Some (Z.of_nat (String.length c))))))) fail)) fail)
         | _ => fail end)))
    (write_ignoring tmp trailer fail))).
Definition grader_add (a : path) body trailer total walk_ok : prog :=
  add (fun f => match grader_Verify a f with Some (size, _, _) => Some size | None => None end)
      (grader_Delete a) (grader_Persist a body trailer total walk_ok).

(* common/literalinput.go:470-495: an in-memory input persisted for the grader;
   errors while writing are answered with nil (lines 475, 479, 487). *)
Definition literal_grader_Persist (a : path) (hash tarfile : string) (total : Z) : prog :=
  Do (MkdirAll (removelast a)) (fun b => if negb b then Ret Err else
  let fail := Ret (Nil None) in
  Do (Create a) (fun b => if negb b then fail else
  write a tarfile
   (Do (Create (with_ext a ".len")) (fun b => if negb b then fail else
    write (with_ext a ".len") (fmt_int total)
     (Do (Create (with_ext a ".sha1")) (fun b => if negb b then fail else
      write (with_ext a ".sha1") (hash ++ " *" ++ last a "" ++ ".tar.gz" ++ lf)
        (Ret (Nil (Some (Z.of_nat (String.length tarfile))))) fail)) fail)) fail)).
(* common/literalinput.go:453-455 (Verify always fails) and 555-568 (Delete; of the
   .sha1 file with Remove instead of RemoveAll, which for a file is the same),
   with common/inputmanager.go:283-319. *)
Definition literal_grader_add (a : path) (hash tarfile : string) (total : Z) : prog :=
  add (fun _ => None) (grader_Delete a) (literal_grader_Persist a hash tarfile total).
Definition literal_runner_add (p : path) (files : list (string * string)) : prog :=
  add (fun _ => None) (runner_Delete p) (literal_runner_Persist p files).
End Inputs.

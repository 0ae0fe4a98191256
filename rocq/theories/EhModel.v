(* cmd/omegaup-grader/ephemeral.go: the requests for ephemeral runs. *)
From Coq Require Import String Ascii List Bool ZArith QArith.
From Verif Require Import GoStr InModel LitModel.
Import ListNotations.
Local Open Scope string_scope.

(* ---- Which request is for what, lines 231-291 ---- *)
Inductive demand := New | GetFile (token name : string) | Refused (status : Z).
(* lines 20-26 *)
Definition validEphemeralRunFilenames : list string := ["details.json"; "files.zip"; "logs.txt"; "request.json"; "tracing.json"].
Definition demand_of (urlpath method contentType : string) : demand :=
  match split "/" urlpath with
  | [_; _; _; token; name] =>
      if (token =? "new") && (name =? "") then
        if negb (method =? "POST") then Refused 405
        else if negb (contentType =? "application/json") then Refused 400
        else New
      else if negb (method =? "GET") then Refused 405
      else if negb (existsb (String.eqb name) validEphemeralRunFilenames) then Refused 404
      else GetFile token name
  | _ => Refused 404
  end.
(* Lines 271-287.  [kept]: the keys of the map of the manager (grader/queue.go:224-236);
   [exists_]: whether os.Stat finds a file. *)
Record file_answer := { fa_path : path; fa_type : string; fa_encoding : string }.   (* "": not set by the handler *)
Definition HasSuffix (suffix s : string) : bool :=
  let n := String.length s in let m := String.length suffix in
  (m <=? n)%nat && (substring (n - m) m s =? suffix).
Definition get_file (ephemeralPath : path) (kept exists_ : path -> bool) (token name : string) : option file_answer :=
  let runDirectory := path_join ephemeralPath token in
  if negb (kept runDirectory) then None
  else
    let filename := path_join runDirectory name in
    if exists_ (with_ext filename ".gz") then
      Some {| fa_path := with_ext filename ".gz"; fa_encoding := "gzip";
              fa_type := if HasSuffix ".txt" (last filename "") then "text/plain" else if HasSuffix ".json" (last filename "") then "application/json" else "" |}
    else Some {| fa_path := filename; fa_type := ""; fa_encoding := "" |}.

(* ---- A new run: addAndWaitForRun, lines 87-229 ---- *)
(* Lines 99-102: the weights are added in some order. *)
Fixpoint max_score (cases : list (string * option literal_case)) (sum : Q) : option Q :=
  match cases with
  | [] => Some sum
  | (_, Some c) :: cases => match Weight c with Some w => max_score cases (Qred (sum + w)) | None => None end
  | (_, None) :: _ => None
  end.
(* What happens before anything else can interfere: lines 92-128. *)
Record new_request := { Source : string; Language : string; Input : option literal_input }.
Inductive preparation := Crashes | Invalid (r : reason) (MaxScore : Q) | Prepared (hash : string) (MaxScore : Q).
Section Request.
Variable factory_of : literal_input -> outcome factory.    (* NewLiteralInputFactory, LitModel *)
Variable order : list (string * option literal_case) -> list (string * option literal_case).
Variable cfg : ephemeral_config.
Definition prepare (r : new_request) : preparation :=
  match Input r with
  | None => Crashes                       (* line 68: nil is dereferenced *)
  | Some input =>
      let input := validateRequest cfg input in
      match max_score (order (Cases input)) 0 with
      | None => Crashes                   (* line 101 *)
      | Some m => match factory_of input with
                  | Rejected e => Invalid e m
                  | Panics => Crashes
                  | Accepted f => Prepared (f_hash f) m
                  end
      end
  end.
End Request.

(* The rest, together with what happens to the run meanwhile.  Only one request is
   looked at: others have other directories (EphModel), and the queue and the inputs
   are oracles here. *)
Notation dir := (string -> option string)%type (only parsing).  (* the files of the run *)
Inductive seen :=
| Status (code : Z) (token : option string)
| Field (value : string)
| FilePart (name content : string).
Inductive phase :=
| Unqueued
| Queued                (* in the queue, or being run *)
| Closing               (* RunContext.Close released the input, grader/queue.go:394-397 *)
| ReadyClosed           (* close(run.ready), grader/queue.go:458 *)
| Stuck.                (* Close returned because of an error, lines 398-456: ready is never closed *)
Inductive place :=
| Adding                (* line 129 *)
| MakingDir             (* line 142 *)
| Announcing            (* lines 158-177 *)
| Enqueueing            (* line 179 *)
| Reporting             (* lines 184-187 *)
| Waiting1              (* the select of lines 190-198 *)
| Waiting2              (* line 199 *)
| Sending (names : list string)  (* lines 202-218 *)
| Saving                (* line 221 *)
| Committing            (* line 224 *)
| CleaningUp            (* the deferred function of line 149, without a commit *)
| Returned.
Record state := {
  at_ : place;
  out : list seen;                 (* what was sent, latest last; whether the client still reads it does not matter *)
  grade_dir : option dir;          (* GradeDir, if it exists *)
  ref : bool;                      (* a reference to the input is held *)
  run : phase; running : bool;
  committed : bool;                (* EphemeralRunManager.Commit was called: from here on the directory is the manager's *)
  submitted : bool                 (* the run was queued *)
}.
Definition go (s : state) (p : place) (l : list seen) : state :=
  {| at_ := p; out := out s ++ l; grade_dir := grade_dir s; ref := ref s; run := run s; running := running s; committed := committed s; submitted := submitted s |}.
Definition store_file (d : dir) (n c : string) : dir := fun m => if m =? n then Some c else d m.
Definition empty : dir := fun _ => None.
Definition set_dir (s : state) (d : option dir) : state :=
  {| at_ := at_ s; out := out s; grade_dir := d; ref := ref s; run := run s; running := running s; committed := committed s; submitted := submitted s |}.
Definition set_ref (s : state) (b : bool) : state :=
  {| at_ := at_ s; out := out s; grade_dir := grade_dir s; ref := b; run := run s; running := running s; committed := committed s; submitted := submitted s |}.
Definition set_run (s : state) (ph : phase) : state :=
  {| at_ := at_ s; out := out s; grade_dir := grade_dir s; ref := ref s; run := ph; running := running s; committed := committed s; submitted := submitted s |}.
Definition set_running (s : state) : state :=
  {| at_ := at_ s; out := out s; grade_dir := grade_dir s; ref := ref s; run := run s; running := true; committed := committed s; submitted := submitted s |}.
Definition commit (s : state) : state :=
  {| at_ := at_ s; out := out s; grade_dir := grade_dir s; ref := ref s; run := run s; running := running s; committed := true; submitted := submitted s |}.
Definition submit (s : state) : state :=
  {| at_ := at_ s; out := out s; grade_dir := grade_dir s; ref := ref s; run := Queued; running := running s; committed := committed s; submitted := true |}.
Fixpoint take (n : nat) (s : string) : string := match n, s with S n, String c s => String c (take n s) | _, _ => "" end.

Section System.
Variable token : string.
(* Whether opening and reading a file that exists always works, and removing a
   directory. *)
Variable reads_work removes_work : bool.
Variable details logs tracing request_json : string.   (* what Close, and saveEphemeralRunRequest, write *)
Definition start : state := {| at_ := Adding; out := []; grade_dir := None; ref := false; run := Unqueued; running := false; committed := false; submitted := false |}.
(* The handler. *)
Inductive handler (s : state) : state -> Prop :=
| adds : at_ s = Adding -> handler s (go (set_ref s true) MakingDir [])
| add_fails : at_ s = Adding -> handler s (go s Returned [Status 400 None])
| makes_dir : at_ s = MakingDir -> handler s (go (set_dir s (Some empty)) Announcing [])
| make_dir_fails : at_ s = MakingDir -> handler s (go s Returned [Status 500 None])
(* AddRunContext never fails *)
| announces : at_ s = Announcing -> handler s (go s Enqueueing [Status 200 (Some token); Field "waiting"])
| enqueues : at_ s = Enqueueing -> handler s (go (submit s) Reporting [])
| reports : at_ s = Reporting -> handler s (go s Waiting1 [Field "queueing"])
| sees_running : at_ s = Waiting1 -> running s = true -> handler s (go s Waiting2 [Field "running"])
| sees_ready : at_ s = Waiting1 -> run s = ReadyClosed -> handler s (go s Waiting2 [])
| waited : at_ s = Waiting2 -> run s = ReadyClosed -> handler s (go s (Sending ["logs.txt.gz"; "files.zip"; "details.json"]) [])
(* a file that cannot be opened is skipped; one that cannot be read is sent in part *)
| skips : forall n ns, at_ s = Sending (n :: ns) -> (reads_work = true -> forall d, grade_dir s = Some d -> d n = None) -> handler s (go s (Sending ns) [])
| sends : forall n ns d c, at_ s = Sending (n :: ns) -> grade_dir s = Some d -> d n = Some c -> handler s (go s (Sending ns) [FilePart n c])
| sends_part : forall n ns d c k, at_ s = Sending (n :: ns) -> reads_work = false -> grade_dir s = Some d -> d n = Some c -> handler s (go s (Sending ns) [FilePart n (take k c)])
| all_sent : at_ s = Sending [] -> handler s (go s Saving [])
(* O_CREATE without O_TRUNC: the file does not exist before, or is of an attempt
   whose upload had it; saving can fail with a part of it written *)
| saves : forall d, at_ s = Saving -> grade_dir s = Some d -> handler s (go (set_dir s (Some (store_file d "request.json.gz" request_json))) Committing [])
| save_fails : at_ s = Saving -> handler s (go s CleaningUp [])
| save_fails_half : forall d k, at_ s = Saving -> grade_dir s = Some d -> handler s (go (set_dir s (Some (store_file d "request.json.gz" (take k request_json)))) CleaningUp [])
(* the result of Commit is not looked at: C11 says what can happen then *)
| commits : at_ s = Committing -> handler s (go (commit s) Returned [])
(* os.RemoveAll; an error is only logged *)
| cleans_up : at_ s = CleaningUp -> handler s (go (set_dir s None) Returned [])
| clean_up_fails : forall d, at_ s = CleaningUp -> removes_work = false -> handler s (go (set_dir s d) Returned []).
(* The run: runners take it, upload their files (which replaces the directory), and
   at some time it is closed. *)
Inductive others (s : state) : state -> Prop :=
| picked_up : run s = Queued -> others s (set_running s)
| uploaded : forall d, run s = Queued -> others s (set_dir s d)
| closes : run s = Queued -> others s (set_run (set_ref s false) Closing)
| closed_well : forall d, run s = Closing -> (grade_dir s = Some d \/ grade_dir s = None /\ d = empty) ->
    others s (set_run (set_dir s (Some (store_file (store_file (store_file d "details.json" details) "logs.txt.gz" logs) "tracing.json.gz" tracing))) ReadyClosed)
| close_fails : forall d, run s = Closing -> others s (set_run (set_dir s d) Stuck).
Inductive reachable : state -> Prop :=
| reach_start : reachable start
| reach_handler : forall s s', reachable s -> handler s s' -> reachable s'
| reach_others : forall s s', reachable s -> others s s' -> reachable s'.
End System.

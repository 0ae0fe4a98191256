(* cmd/omegaup-grader/runner_handler.go: what a runner uploads about a run, which
   requests are taken for what, and the handler that sends inputs to runners. *)
From Coq Require Import String Ascii List Bool ZArith.
From Verif Require Import GoStr InModel.
From Verif Require TrcModel.
Import ListNotations.
Local Open Scope string_scope.

(* ---- processRun, lines 22-149 ---- *)
(* The multipart body of a request, as multipartReader gives it.  A part can be cut
   off: reading it, and asking for the part after it, fails.  FileName is what the
   request says: it is only since Go 1.17 that mime/multipart drops its directories,
   and go.mod asks for 1.13. *)
Inductive parts := Ends | Breaks | Part (FileName body : string) (rest : parts) | CutPart (FileName body : string).

(* What decoding the events does (TrcModel.UnmarshalJSON of the first value of a text). *)
Inductive tracing := Undecodable | Crashes | Decoded (l : list TrcModel.event).
(* How processRun ends: processRunStatus {status, retry}, or by a panic. *)
Inductive status := Answer (st : Z) (retry : bool) | Panic.
Section Upload.
Variable res : Type.                          (* runner.RunResult without JudgedBy *)
Variable Verdict : res -> string.
Variable decode_result : string -> option res. (* json.Decoder.Decode of the first value of a text *)
Variable decode_tracing : string -> tracing.
(* What is kept of a run, grader/queue.go:267-297: its result, who judged it, the
   sections of its log and its tracing events. *)
Record run := { Result : res; JudgedBy : string; Logs : list (string * string); Traced : list TrcModel.event }.
(* What the operating system does: which files RemoveAll fails to remove, whether
   MkdirAll and the creation of the file of part k can work, and how many bytes of it
   can be written before an error, if there is one; and which of the events of part k
   is the first that cannot be written to the grader's own trace, if there is one (the
   run has got it by then, but does not get those after it). *)
Record world := { trace_stops : nat -> option nat; kept : path -> bool; mkdir_works : bool; create_works : nat -> bool; write_stops : nat -> option nat }.

Fixpoint take (n : nat) (s : string) : string := match n, s with S n, String c s => String c (take n s) | _, _ => "" end.
Definition put (f : fs) (p : path) (c : string) : fs := set f p (Some (File c)).

(* processRunStatus: (status, retry) *)
Definition finish (r : run) : status := Answer 200 (Verdict (Result r) =? "JE").   (* lines 133-148 *)
Section Parts.
Variable WriteGradeFiles : bool.
Variable gradeDir : path.
Variable runnerName : string.
Variable w : world.
(* Lines 95-104. *)
Definition trace (r : run) (k : nat) (l : list TrcModel.event) : run :=
  {| Result := Result r; JudgedBy := JudgedBy r; Logs := Logs r;
     Traced := (Traced r ++ match trace_stops w k with None => l | Some n => firstn (S n) l end)%list |}.
(* Lines 48-132.  [k] numbers the parts. *)
Fixpoint read_parts (k : nat) (p : parts) (r : run) (f : fs) : status * run * fs :=
  let bad := Answer 400 true in
  let other FileName body (next : fs -> status * run * fs) :=       (* lines 105-131 *)
    if WriteGradeFiles then
      let q := path_join gradeDir FileName in
      match (if create_works w k then apply (Create q) f else None) with
      | None => (Answer 500 false, r, f)
      | Some f => match write_stops w k with Some n => (bad, r, put f q (take n body)) | None => next (put f q body) end
      end
    else next f in
  match p with
  | Ends => (finish r, r, f)
  | Breaks => (bad, r, f)
  | Part FileName body rest =>
      if FileName =? "details.json" then
        match decode_result body with
        | None => (bad, r, f)
        | Some x => read_parts (S k) rest {| Result := x; JudgedBy := runnerName; Logs := Logs r; Traced := Traced r |} f
        end
      else if FileName =? "logs.txt" then read_parts (S k) rest {| Result := Result r; JudgedBy := JudgedBy r; Logs := (Logs r ++ [(runnerName, body)])%list; Traced := Traced r |} f
      else if FileName =? "tracing.json" then 
        match decode_tracing body with
        | Undecodable => (bad, r, f)
        | Crashes => (Panic, r, f)
        | Decoded l => read_parts (S k) rest (trace r k l) f
        end
      else other FileName body (fun f => read_parts (S k) rest r f)
  | CutPart FileName body =>
      if FileName =? "details.json" then
        match decode_result body with
        | None => (bad, r, f)
        | Some x => (bad, {| Result := x; JudgedBy := runnerName; Logs := Logs r; Traced := Traced r |}, f)
        end
      else if FileName =? "logs.txt" then (bad, r, f)
      else if FileName =? "tracing.json" then match decode_tracing body with Undecodable => (bad, r, f) | Crashes => (Panic, r, f) | Decoded l => (bad, trace r k l, f) end
      else other FileName body (fun f => (bad, r, f))
  end.
(* Lines 22-47.  body: None, if it is not a multipart body. *)
Definition processRun (body : option parts) (r : run) (f : fs) : status * run * fs :=
  let f := partly (RemoveAll gradeDir) (kept w) f in
  match (if mkdir_works w then apply (MkdirAll gradeDir) f else None) with
  | None => (Answer 500 false, r, f)
  | Some f => match body with None => (Answer 400 true, r, f) | Some p => read_parts 0 p r f end
  end.
End Parts.
End Upload.
Arguments Result {res}. Arguments JudgedBy {res}. Arguments Logs {res}. Arguments Traced {res}.

(* ---- Which request is for what, lines 188-199 and 226-246 ---- *)
(* regexp.FindStringSubmatch of an expression that is not anchored: the leftmost
   place where it matches. *)
Fixpoint search {A} (m : string -> option A) (s : string) : option A :=
  match m s with
  | Some x => Some x
  | None => match s with "" => None | String _ s => search m s end
  end.
Fixpoint drop_prefix (p s : string) : option string :=
  match p, s with
  | "", s => Some s
  | String a p, String b s => if Ascii.eqb a b then drop_prefix p s else None
  | String _ _, "" => None
  end.
(* The longest beginning made of certain characters, and the rest. *)
Fixpoint span (p : ascii -> bool) (s : string) : string * string :=
  match s with
  | String c s' => if p c then let '(a, b) := span p s' in (String c a, b) else ("", s)
  | "" => ("", "")
  end.
(* /run/([0-9]+)/results/? at the beginning of s *)
Definition match_results (s : string) : option string :=
  match drop_prefix "/run/" s with
  | None => None
  | Some s => match span is_digitb s with
              | ("", _) => None
              | (d, rest) => match drop_prefix "/results" rest with Some _ => Some d | None => None end
              end
  end.
(* strconv.ParseUint(d, 10, 64) of digits, the error being ignored *)
Definition ParseUint_clamped (d : string) : Z := match digits d 0 with Some z => Z.min z (2 ^ 64 - 1) | None => 0%Z end.
Definition results_attempt (urlpath : string) : option Z :=
  match search match_results urlpath with Some d => Some (ParseUint_clamped d) | None => None end.

Definition is_word (c : ascii) : bool :=
  let n := N_of_ascii c in
  (((48 <=? n) && (n <=? 57)) || ((65 <=? n) && (n <=? 90)) || ((97 <=? n) && (n <=? 122)) || (n =? 95) || (n =? 45))%N.
Definition is_hex (c : ascii) : bool := let n := N_of_ascii c in (((48 <=? n) && (n <=? 57)) || ((97 <=? n) && (n <=? 102)))%N.
Fixpoint take_hex (n : nat) (s : string) : option string :=
  match n, s with
  | O, _ => Some ""
  | S n, String c s => if is_hex c then match take_hex n s with Some t => Some (String c t) | None => None end else None
  | S _, "" => None
  end.
(* The expression of line 226 at the beginning of s: "/input/", optionally any number
   of word characters and "/", then 40 hexadecimal digits, and an optional "/": with a
   problem, if that is possible *)
Definition match_input (s : string) : option (string * string) :=
  match drop_prefix "/input/" s with
  | None => None
  | Some s =>
      let '(p, rest) := span is_word s in
      let with_problem := match drop_prefix "/" rest with Some t => take_hex 40 t | None => None end in
      match with_problem with
      | Some h => Some (p, h)
      | None => match take_hex 40 s with Some h => Some ("", h) | None => None end
      end
  end.
Definition input_request (urlpath : string) : option (string * string) := search match_input urlpath.
(* What a runner asks for: runner/input.go:53-59 and cmd/omegaup-runner/main.go:489,
   with a base URL that ends in a slash. *)
Definition input_url (problem hash : string) : string := if problem =? "" then "/input/" ++ hash ++ "/" else "/input/" ++ problem ++ "/" ++ hash ++ "/".
Definition results_url (attempt : Z) : string := "/run/" ++ fmt_int attempt ++ "/results/".

(* ---- Sending inputs, lines 236-258 ---- *)
(* err is the variable of registerRunnerHandlers (line 152): one for all requests. *)
Inductive stage :=
| Asked
| Added (ref : bool)       (* after the assignment of inputRef and err: inputRef is not nil *)
| Sending                  (* after the test of err: Transmit *)
| Releasing                (* the deferred Release, line 252 *)
| Over.
Inductive answer := NotFound | Sent | SendError | Panicked.
Inductive event := Asks (i : nat) | Acquires (i : nat) | Fails (i : nat) | Releases (i : nat) | Responds (i : nat) (a : answer) | Silent.
Record state := { requests : list stage; err : bool }.
Fixpoint upd {A} (l : list A) (i : nat) (x : A) : list A :=
  match l, i with [], _ => [] | _ :: l, O => x :: l | y :: l, S i => y :: upd l i x end.
Definition at_ (s : state) (i : nat) (t : stage) (e : bool) : state := {| requests := upd (requests s) i t; err := e |}.
Inductive step (s : state) : event -> state -> Prop :=
| asks : step s (Asks (length (requests s))) {| requests := requests s ++ [Asked]; err := err s |}
(* InputManager.Add, lines 236-246 *)
| adds : forall i, nth_error (requests s) i = Some Asked -> step s (Acquires i) (at_ s i (Added true) false)
| add_fails : forall i, nth_error (requests s) i = Some Asked -> step s (Fails i) (at_ s i (Added false) true)
(* lines 247-251 *)
| refuses : forall i r, nth_error (requests s) i = Some (Added r) -> err s = true -> step s (Responds i NotFound) (at_ s i Over (err s))
(* lines 252-253: without an error, inputRef is dereferenced *)
| accepts : forall i, nth_error (requests s) i = Some (Added true) -> err s = false -> step s Silent (at_ s i Sending (err s))
| derefs_nil : forall i, nth_error (requests s) i = Some (Added false) -> err s = false -> step s (Responds i Panicked) (at_ s i Over (err s))
(* lines 253-257; every input of the grader can be transmitted *)
| sends : forall i a, nth_error (requests s) i = Some Sending -> (a = Sent \/ a = SendError) -> step s (Responds i a) (at_ s i Releasing (err s))
| releases : forall i, nth_error (requests s) i = Some Releasing -> step s (Releases i) (at_ s i Over (err s)).
(* Executions all of whose states satisfy [ok]. *)
Inductive exec (ok : state -> Prop) : list event -> state -> Prop :=
| exec_nil : exec ok [] {| requests := []; err := false |}
| exec_snoc : forall es s e s', exec ok es s -> step s e s' -> ok s' -> exec ok (es ++ [e]) s'.

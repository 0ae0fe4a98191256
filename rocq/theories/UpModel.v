(* cmd/omegaup-runner/main.go: the buffer between a runner's grading and its
   upload, the backoff between runs, and what is uploaded. *)
From Coq Require Import List Bool ZArith QArith Qround.
Import ListNotations.
Local Open Scope list_scope.
Local Open Scope nat_scope.

(* ---- channelBuffer, lines 380-458 ---- *)
Section Buffer.
Variable byte : Type.
Notation bytes := (list byte).

(* What the reading goroutine is doing. *)
Inductive call :=
| Idle
| Reading (size : nat)      (* Read, with a buffer of this size, lines 440-458 *)
| Copying                   (* WriteTo, lines 408-430 *)
| Closing.                  (* Close, lines 432-438 *)

(* The channel has no buffer: Write (lines 398-406) copies its argument and stands
   at the channel with the copy (blocked) until someone receives it. *)
Record state := {
  todo : list bytes;         (* what the writing goroutine still has to Write, before it closes the channel *)
  blocked : option bytes;
  closed : bool;
  currentChunk : option bytes;
  doing : call
}.
Definition start (chunks : list bytes) : state := {| todo := chunks; blocked := None; closed := false; currentChunk := None; doing := Idle |}.

(* What is seen: a call of the reader begins, or bytes reach it (returned by Read,
   or passed by WriteTo to the writer it was given), or a call ends. *)
Inductive seen :=
| Calls (c : call)
| Gets (b : bytes)
| ReadEOF                   (* Read returned 0, io.EOF *)
| CopyEnd                   (* WriteTo returned without error *)
| CopyFailed                (* the writer given to WriteTo returned an error *)
| CloseEnd
| Writes (b : bytes)        (* a call of Write begins *)
| Written                   (* ... and returns *)
| Closes.                   (* closeChannel, lines 394-396 *)

(* A receive from the channel: from a blocked Write, or, if it is closed, nothing. *)
Inductive receive : state -> list seen -> option bytes -> state -> Prop :=
| receive_chunk : forall s b, blocked s = Some b ->
    receive s [Written] (Some b) {| todo := todo s; blocked := None; closed := closed s; currentChunk := currentChunk s; doing := doing s |}
| receive_closed : forall s, closed s = true -> blocked s = None -> receive s [] None s.

Definition set_current (s : state) (c : option bytes) (d : call) : state :=
  {| todo := todo s; blocked := blocked s; closed := closed s; currentChunk := c; doing := d |}.
(* if written == len(cb.currentChunk) { nil } else { currentChunk[written:] } *)
Definition rest (c : bytes) (written : nat) : option bytes := if written =? length c then None else Some (skipn written c).

Inductive step : state -> list seen -> state -> Prop :=
(* the writing goroutine *)
| write : forall s b t, todo s = b :: t -> blocked s = None ->
    step s [Writes b] {| todo := t; blocked := Some b; closed := closed s; currentChunk := currentChunk s; doing := doing s |}
| closeChannel : forall s, todo s = [] -> blocked s = None -> closed s = false ->
    step s [Closes] {| todo := []; blocked := None; closed := true; currentChunk := currentChunk s; doing := doing s |}
(* the reading goroutine calls something *)
| calls : forall s c, doing s = Idle -> c <> Idle -> step s [Calls c] (set_current s (currentChunk s) c)
(* Read, lines 441-447: nothing is left of the last chunk *)
| read_receive : forall s n e b s', doing s = Reading n -> currentChunk s = None -> receive s e (Some b) s' -> step s e (set_current s' (Some b) (Reading n))
| read_eof : forall s n e s', doing s = Reading n -> currentChunk s = None -> receive s e None s' -> step s (e ++ [ReadEOF]) (set_current s' None Idle)
(* lines 449-457; copy() copies as much as fits *)
| read_copy : forall s n c, doing s = Reading n -> currentChunk s = Some c ->
    step s [Gets (firstn n c)] (set_current s (rest c (length (firstn n c))) Idle)
(* WriteTo, lines 411-417 *)
| copy_receive : forall s e b s', doing s = Copying -> currentChunk s = None -> receive s e (Some b) s' -> step s e (set_current s' (Some b) Copying)
| copy_end : forall s e s', doing s = Copying -> currentChunk s = None -> receive s e None s' -> step s (e ++ [CopyEnd]) (set_current s' None Idle)
(* lines 419-428: the writer takes any part of the chunk, and may fail.  (With a
   failure, currentChunk is left as it is.) *)
| copy_write : forall s c written, doing s = Copying -> currentChunk s = Some c -> written <= length c ->
    step s [Gets (firstn written c)] (set_current s (rest c written) Copying)
| copy_fails : forall s c written, doing s = Copying -> currentChunk s = Some c -> written <= length c ->
    step s [Gets (firstn written c); CopyFailed] (set_current s (Some c) Idle)
(* Close *)
| close_drain : forall s e b s', doing s = Closing -> receive s e (Some b) s' -> step s e s'
| close_end : forall s e s', doing s = Closing -> receive s e None s' -> step s (e ++ [CloseEnd]) (set_current s' (currentChunk s') Idle).

Inductive steps : state -> list seen -> state -> Prop :=
| steps_nil : forall s, steps s [] s
| steps_cons : forall s e s1 es s2, step s e s1 -> steps s1 es s2 -> steps s (e ++ es) s2.
End Buffer.
Arguments todo {byte}. Arguments blocked {byte}. Arguments closed {byte}. Arguments currentChunk {byte}. Arguments doing {byte}.
Arguments start {byte}. Arguments step {byte}. Arguments steps {byte}. Arguments receive {byte}. Arguments rest {byte}. Arguments set_current {byte}.
Arguments Calls {byte}. Arguments Gets {byte}. Arguments ReadEOF {byte}. Arguments CopyEnd {byte}. Arguments CopyFailed {byte}. Arguments CloseEnd {byte}. Arguments Writes {byte}. Arguments Written {byte}. Arguments Closes {byte}.

(* ---- The main loop, lines 358-377 ---- *)
(* How a call of processRun ends.  An error comes with the number that rand.Float32
   will return. *)
Inductive ending := Success | Timeout | Failure (random : Q).
(* sleepTime is a float32; all its values are powers of two, for which the float32
   product with a float32 is exact.  A pass of the loop: the new sleepTime, and how
   many seconds it slept: time.Duration(x) truncates. *)
Definition pass (sleepTime : Q) (e : ending) : Q * option Z :=
  match e with
  | Success => (1%Q, None)
  | Timeout => (1%Q, None)
  | Failure r => ((if negb (Qle_bool 64 sleepTime) then sleepTime * 2 else sleepTime)%Q, Some (Qfloor (r * sleepTime)%Q))
  end.
Fixpoint loop (sleepTime : Q) (es : list ending) : list (option Z) :=
  match es with [] => [] | e :: es => let '(s, d) := pass sleepTime e in d :: loop s es end.
Definition main_loop : list ending -> list (option Z) := loop 1%Q.

(* ---- gradeAndUploadResults, lines 505-580, processRun, lines 460-503 ---- *)
(* The parts of the upload, in order. *)
Inductive part := FilesZip | Details (je : bool) | Logs | Tracing.
(* The buffer's Write never fails, so neither does CreateFormFile; only encoding the
   result can.  input_ok: the input was found (gradeRun fails before its part is
   created otherwise); graded: runner.Grade gave a result; encodes: the result can
   be encoded (the result for a failed run can).  Lines 533-579. *)
Definition upload_parts (input_ok graded encodes has_logs has_trace : bool) : list part * bool :=
  let files := if input_ok then [FilesZip] else [] in
  let je := negb (input_ok && graded) in
  if negb (encodes || je) then (files ++ [Details je], false)
  else (files ++ [Details je] ++ (if has_logs then [Logs] else []) ++ (if has_trace then [Tracing] else []), true).
(* The uploading goroutine, lines 516-534: the status of the answer is not looked at. *)
Inductive answer := NoAnswer | Answer (status : Z).
Definition finished (a : answer) : bool := match a with NoAnswer => false | Answer _ => true end.
(* processRun after the run has been received: nil or an error. *)
Definition processRun (uploaded : bool) (a : answer) : bool := if uploaded then finished a else false.

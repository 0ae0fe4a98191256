(* From a runner's grading to the grader's record of it, byte by byte:
   cmd/omegaup-runner/main.go:459-643 (processRun, gradeAndUploadResults and the goroutine
   that uploads, gradeRun), the format of mime/multipart in between, and the connection.
   What the grader then does with the parts is RhModel.processRun. *)
From Coq Require Import String Ascii List Bool ZArith.
From Verif Require Import GoStr InModel RhModel.
From Verif Require RrModel.
Import ListNotations.
Local Open Scope string_scope.

Definition CR : ascii := "013".
Definition LF : ascii := "010".
Definition CRLF : string := String CR (String LF "").
Definition quote : ascii := """".

Section Multipart.
(* multipart.Writer's boundary: 60 random hexadecimal digits.  The request's Content-Type
   (main.go:528) tells it to the reader. *)
Variable boundary : string.
Definition dashBoundary : string := "--" ++ boundary.
Definition nlDashBoundary : string := CRLF ++ dashBoundary.

(* ---- mime/multipart's Writer ---- *)
(* CreateFormFile("file", name) writes this at once; none of the names has a character
   that would be escaped. *)
Definition form_file : string := "Content-Disposition: form-data; name=""file""; filename=""".
Definition form_type : string := CRLF ++ "Content-Type: application/octet-stream".
Definition header (name : string) : string := form_file ++ name ++ String quote form_type.
Definition create (first : bool) (name : string) : string :=
  (if first then "" else CRLF) ++ dashBoundary ++ CRLF ++ header name ++ CRLF ++ CRLF.
(* Close *)
Definition finish_body : string := CRLF ++ dashBoundary ++ "--" ++ CRLF.

(* ---- mime/multipart's Reader ---- *)
(* ReadSlice('\n'): a line with its end, and what follows. *)
Fixpoint read_line (s : string) : option (string * string) :=
  match s with
  | "" => None
  | String c t => if Ascii.eqb c LF then Some (String c "", t)
                  else match read_line t with Some (l, r) => Some (String c l, r) | None => None end
  end.
Fixpoint skipLWSP (s : string) : string :=
  match s with String c t => if Ascii.eqb c " " || Ascii.eqb c "009" then skipLWSP t else s | "" => "" end.
(* isBoundaryDelimiterLine.  (A body whose lines end in LF alone is read too; the
   runner's do not.) *)
Definition delimiter_line (l : string) : bool :=
  match drop_prefix dashBoundary l with Some r => skipLWSP r =? CRLF | None => false end.
(* isFinalBoundary *)
Definition final_line (l : string) : bool :=
  match drop_prefix (dashBoundary ++ "--") l with Some r => (skipLWSP r =? "") || (skipLWSP r =? CRLF) | None => false end.
(* The headers of a part end with an empty line. *)
Fixpoint read_header (s : string) : option (string * string) :=
  match drop_prefix (CRLF ++ CRLF) s with
  | Some r => Some ("", r)
  | None => match s with "" => None | String c t => match read_header t with Some (h, r) => Some (String c h, r) | None => None end end
  end.
(* Part.FileName: of headers as the runner's, the name; of others, something. *)
Variable other_name : string -> string.
Definition name_of (h : string) : string :=
  match drop_prefix form_file h with
  | None => other_name h
  | Some t => let '(n, r) := span (fun c => negb (Ascii.eqb c quote)) t in if r =? String quote form_type then n else other_name h
  end.
(* matchAfterPrefix: what may follow a delimiter. *)
Definition follows (r : string) : bool :=
  match r with "" => true | String c _ => Ascii.eqb c " " || Ascii.eqb c "009" || Ascii.eqb c CR || Ascii.eqb c LF || Ascii.eqb c "-" end.
(* scanUntilBoundary: the content up to the delimiter, and what begins there; without a
   delimiter all but what could be the beginning of one.  (After something that is not a
   delimiter Go goes on behind it, which is the same as the boundary has no CR.) *)
Fixpoint scan (s : string) : string * option string :=
  match drop_prefix nlDashBoundary s with
  | Some r => if follows r then ("", Some s) else match s with "" => ("", None) | String c t => let '(b, z) := scan t in (String c b, z) end
  | None => match drop_prefix s nlDashBoundary with
            | Some _ => ("", None)
            | None => match s with "" => ("", None) | String c t => let '(b, z) := scan t in (String c b, z) end
            end
  end.
(* ... at the beginning of a part its line end may be missing *)
Definition scan_part (s : string) : string * option string :=
  match drop_prefix dashBoundary s with
  | Some r => if follows r then ("", Some s) else scan s
  | None => match drop_prefix s dashBoundary with Some _ => ("", None) | None => scan s end
  end.
(* NextPart, until it gives no more.  whole: the data ends with io.EOF, rather than with
   another error. *)
Inductive place := Preamble | AfterPart | Expecting.
Fixpoint next_parts (fuel : nat) (m : place) (s : string) (whole : bool) : parts :=
  match fuel with
  | O => Breaks
  | S fuel =>
      match read_line s with
      | None => if whole && final_line s then Ends else Breaks
      | Some (line, rest) =>
          if delimiter_line line then
            match read_header rest with
            | None => Breaks
            | Some (h, body) =>
                match scan_part body with
                | (b, None) => CutPart (name_of h) b
                | (b, Some rest) => Part (name_of h) b (next_parts fuel AfterPart rest whole)
                end
            end
          else if final_line line then Ends
          else match m with
               | Preamble => next_parts fuel Preamble rest whole
               | AfterPart => if line =? CRLF then next_parts fuel Expecting rest whole else Breaks
               | Expecting => Breaks
               end
      end
  end.
Definition read_multipart (s : string) (whole : bool) : parts := next_parts (S (String.length s)) Preamble s whole.

(* ---- the runner ---- *)
Section Runner.
Variable res : Type.
Variable je : res.                                   (* NewRunResult("JE", run.MaxScore) *)
Variable fixup : res -> option res.                  (* with the no-op sandbox NoopSandboxFixupResult (None: a panic), else nothing *)
Variable encode : res -> RrModel.outcome string.     (* json.Encoder.Encode *)

(* How gradeRun (lines 593-643) ends, and what Grade has written to files.zip by then. *)
Inductive grading :=
| NoInput                               (* inputManager.Add fails, lines 624-630: the part is not created *)
| Failed (zip : list string)            (* runner.Grade returns an error *)
| Graded (zip : list string) (x : res)
| Panics (zip : option (list string)).  (* a panic before or after line 635 *)
Inductive ending := ReturnsNil | ReturnsErr | Dies.
Definition files_part (g : grading) : list (string * list string) :=
  match g with
  | NoInput | Panics None => []
  | Failed zip | Graded zip _ | Panics (Some zip) => [("files.zip", zip)]
  end.
Definition optional (name : string) (b : option string) : list (string * list string) := match b with Some b => [(name, [b])] | None => [] end.
(* Lines 540-590: the parts, each with the Writes to it, and how the function ends. *)
Definition send (g : grading) (logs tracing : option string) : list (string * list string) * ending :=
  match g with
  | Panics _ => (files_part g, Dies)
  | _ =>
      match fixup (match g with Graded _ x => x | _ => je end) with
      | None => (files_part g, Dies)
      | Some x =>
          match encode x with
          | RrModel.Crash => (files_part g ++ [("details.json", [])], Dies)
          | RrModel.Err => (files_part g ++ [("details.json", [])], ReturnsErr)
          | RrModel.Ok text => (files_part g ++ [("details.json", [text])] ++ optional "logs.txt" logs ++ optional "tracing.json" tracing, ReturnsNil)
          end
      end
  end%list.
(* What it does with the buffer; the two last are the deferred calls of lines 519 and
   517, in this order, which happen also when it panics. *)
Inductive op := Write (b : string) | CloseChannel.
Fixpoint write_parts (first : bool) (l : list (string * list string)) : list op :=
  match l with
  | [] => []
  | (n, cs) :: l => Write (create first n) :: map Write cs ++ write_parts false l
  end%list.
Definition program (g : grading) (logs tracing : option string) : list op :=
  (write_parts true (fst (send g logs tracing)) ++ [Write finish_body; CloseChannel])%list.

(* ---- the system ---- *)
(* The goroutine of lines 520-538. *)
Inductive uploading :=
| Starting
| Doing               (* client.Do *)
| Closing_finished    (* close(finished) *)
| Draining            (* the deferred requestBody.Close() *)
| Gone.
(* net/http's transport. *)
Inductive sending := Off | Streaming | Closing | Closed.
Inductive main := Running | Waiting (* <-finished, line 506 *) | Returned (ok : bool) | Dead.
Record state := {
  todo : list op;
  stands : option string;    (* Write, lines 398-406, stands at the channel with this *)
  closed : bool;
  chunk : option string;     (* currentChunk *)
  transport : sending;
  sent : string;             (* what was read from the buffer and sent *)
  ended : bool;              (* ... and the end of the body with it *)
  handled : option (string * bool);  (* what the grader's handler saw: data, and whether it then saw the end *)
  reply : option Z;
  upload : uploading;
  finished : list bool; finished_closed : bool;   (* the channel, with room for one; true: nil *)
  main_at : main;
  panicked : bool
}.
Definition start (g : grading) (logs tracing : option string) : state :=
  {| todo := program g logs tracing; stands := None; closed := false; chunk := None; transport := Off; sent := ""; ended := false; handled := None; reply := None;
     upload := Starting; finished := []; finished_closed := false; main_at := Running; panicked := false |}.
Definition to_do (s : state) t st c :=
  {| todo := t; stands := st; closed := c; chunk := chunk s; transport := transport s; sent := sent s; ended := ended s; handled := handled s; reply := reply s;
     upload := upload s; finished := finished s; finished_closed := finished_closed s; main_at := main_at s; panicked := panicked s |}.
Definition moves (s : state) u f fc m :=
  {| todo := todo s; stands := stands s; closed := closed s; chunk := chunk s; transport := transport s; sent := sent s; ended := ended s; handled := handled s; reply := reply s;
     upload := u; finished := f; finished_closed := fc; main_at := m; panicked := panicked s |}.
Definition takes (s : state) st ch t x e :=
  {| todo := todo s; stands := st; closed := closed s; chunk := ch; transport := t; sent := x; ended := e; handled := handled s; reply := reply s;
     upload := upload s; finished := finished s; finished_closed := finished_closed s; main_at := main_at s; panicked := panicked s |}.
Definition serves (s : state) h r :=
  {| todo := todo s; stands := stands s; closed := closed s; chunk := chunk s; transport := transport s; sent := sent s; ended := ended s; handled := h; reply := r;
     upload := upload s; finished := finished s; finished_closed := finished_closed s; main_at := main_at s; panicked := panicked s |}.
Definition panics (s : state) :=
  {| todo := todo s; stands := stands s; closed := closed s; chunk := chunk s; transport := transport s; sent := sent s; ended := ended s; handled := handled s; reply := reply s;
     upload := upload s; finished := finished s; finished_closed := finished_closed s; main_at := Dead; panicked := true |}.

Fixpoint drop (n : nat) (s : string) : string := match n, s with S n, String _ t => drop n t | _, _ => s end.

(* Steps of the runner's own goroutines. *)
Inductive own (how : ending) (s : state) : state -> Prop :=
| own_write : forall b t, main_at s = Running -> todo s = Write b :: t -> stands s = None -> closed s = false -> own how s (to_do s t (Some b) false)
| own_write_panics : forall b t, main_at s = Running -> todo s = Write b :: t -> stands s = None -> closed s = true -> own how s (panics s)
| own_close : forall t, main_at s = Running -> todo s = CloseChannel :: t -> stands s = None -> closed s = false -> own how s (to_do s t None true)
| own_close_panics : forall t, main_at s = Running -> todo s = CloseChannel :: t -> stands s = None -> closed s = true -> own how s (panics s)
(* lines 496-506 *)
| own_returns : main_at s = Running -> todo s = [] -> stands s = None ->
    own how s (moves s (upload s) (finished s) (finished_closed s) (match how with ReturnsNil => Waiting | ReturnsErr => Returned false | Dies => Dead end))
| own_told : forall v q, main_at s = Waiting -> finished s = v :: q -> own how s (moves s (upload s) q (finished_closed s) (Returned v))
| own_told_nil : main_at s = Waiting -> finished s = [] -> finished_closed s = true -> own how s (moves s (upload s) [] true (Returned true))
(* lines 522-530 *)
| own_no_request : main_at s <> Dead -> upload s = Starting -> finished s = [] -> own how s (moves s Closing_finished [false] (finished_closed s) (main_at s))
| own_does : main_at s <> Dead -> upload s = Starting -> own how s (moves s Doing (finished s) (finished_closed s) (main_at s))
(* close(finished), lines 525, 532 and 537 *)
| own_close_finished : main_at s <> Dead -> upload s = Closing_finished -> finished_closed s = false -> own how s (moves s Draining (finished s) true (main_at s))
| own_close_finished_panics : main_at s <> Dead -> upload s = Closing_finished -> finished_closed s = true -> own how s (panics s)
(* the deferred Close, lines 432-438 *)
| own_drains : forall b, main_at s <> Dead -> upload s = Draining -> stands s = Some b -> own how s (to_do s (todo s) None (closed s))
| own_drained : main_at s <> Dead -> upload s = Draining -> stands s = None -> closed s = true -> own how s (moves s Gone (finished s) (finished_closed s) (main_at s)).

(* Steps of net/http, the network and the grader.  client.Do gives an error only when the
   body is not being read (any more), and an answer only when the grader gave one; it
   closes the body, also on an error. *)
Variable serve : string -> bool -> option Z.   (* the handler's answer to what it saw; None: it panics *)
Inductive net (s : state) : state -> Prop :=
| net_starts : main_at s <> Dead -> upload s = Doing -> transport s = Off -> net s (takes s (stands s) (chunk s) Streaming (sent s) (ended s))
| net_receives : forall b, main_at s <> Dead -> transport s = Streaming -> chunk s = None -> stands s = Some b -> net s (takes s None (Some b) Streaming (sent s) (ended s))
(* Read, lines 449-457, or a pass of WriteTo, lines 419-428 *)
| net_sends : forall c n, main_at s <> Dead -> transport s = Streaming -> chunk s = Some c -> n <= String.length c ->
    net s (takes s (stands s) (if Nat.eqb n (String.length c) then None else Some (drop n c)) Streaming (sent s ++ take n c) (ended s))
| net_ends : main_at s <> Dead -> transport s = Streaming -> chunk s = None -> stands s = None -> closed s = true -> net s (takes s None None Closing (sent s) true)
(* the connection breaks, cannot be made, or is not needed any more *)
| net_stops : main_at s <> Dead -> upload s <> Starting -> transport s = Streaming \/ transport s = Off -> net s (takes s (stands s) (chunk s) Closing (sent s) (ended s))
| net_drains : forall b, main_at s <> Dead -> transport s = Closing -> stands s = Some b -> net s (takes s None (chunk s) Closing (sent s) (ended s))
| net_drained : main_at s <> Dead -> transport s = Closing -> stands s = None -> closed s = true -> net s (takes s None (chunk s) Closed (sent s) (ended s))
(* the handler has seen a beginning of what was sent, or all of it *)
| net_handles : forall data z e, transport s <> Off -> handled s = None -> sent s = data ++ z -> (e = true -> ended s = true /\ z = "") -> net s (serves s (Some (data, e)) None)
| net_replies : forall data e st, handled s = Some (data, e) -> serve data e = Some st -> reply s = None -> net s (serves s (handled s) (Some st))
(* client.Do returns, lines 529-537: whatever the status of the answer *)
| net_answers : forall st, main_at s <> Dead -> upload s = Doing -> reply s = Some st -> finished s = [] -> net s (moves s Closing_finished [true] (finished_closed s) (main_at s))
| net_fails : main_at s <> Dead -> upload s = Doing -> transport s = Closing \/ transport s = Closed -> finished s = [] ->
    net s (moves s Closing_finished [false] (finished_closed s) (main_at s)).

Definition step (how : ending) (s s' : state) : Prop := own how s s' \/ net s s'.
Inductive reach (how : ending) (s0 : state) : state -> Prop :=
| reach_start : reach how s0 s0
| reach_step : forall s s', reach how s0 s -> step how s s' -> reach how s0 s'.
Definition upload_of (g : grading) (logs tracing : option string) : state -> Prop := reach (snd (send g logs tracing)) (start g logs tracing).
End Runner.
End Multipart.
Arguments NoInput {res}. Arguments Failed {res}. Arguments Graded {res}. Arguments Panics {res}.

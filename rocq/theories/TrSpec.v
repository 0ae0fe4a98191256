(* C48, C49: transports. *)
From Coq Require Import String Ascii List Bool.
From Verif Require Import TrModel.
Import ListNotations.
Local Open Scope string_scope.

(* The messages among the frames written, in order. *)
Fixpoint data (w : list frame) : list string :=
  match w with [] => [] | Data m :: w => m :: data w | _ :: w => data w end.

(* How a browser reads a text/event-stream (WHATWG HTML, "Interpreting an event
   stream"), for the fields this server uses: lines end with LF, CR or CR LF; an
   empty line dispatches the event collected, if it has data; a line starting
   with ':' is a comment; a "data" field, with one leading space of its value
   removed, is appended to the data with a line feed; the last line feed is
   removed when dispatching; other fields do not change the data.  What follows
   the last complete event is discarded. *)
Fixpoint lines (cur : string) (s : string) : list string :=
  match s with
  | EmptyString => [] (* an unterminated line is not processed *)
  | String c s =>
      if Ascii.eqb c LF then cur :: lines "" s
      else if Ascii.eqb c CR then
        cur :: match s with
               | String d s' => if Ascii.eqb d LF then lines "" s' else lines "" s
               | EmptyString => []
               end
      else lines (cur ++ String c "") s
  end.
Definition field (line : string) : string * string :=
  match index 0 ":" line with
  | Some n => let v := substring (n + 1) (String.length line) line in
              (substring 0 n line, if prefix " " v then substring 1 (String.length v) v else v)
  | None => (line, "")
  end.
Definition drop_last (s : string) : string := substring 0 (String.length s - 1) s.
Fixpoint dispatch (buf : string) (ls : list string) : list string :=
  match ls with
  | [] => []
  | l :: ls =>
      if (l =? "")%string then (if (buf =? "")%string then dispatch "" ls else drop_last buf :: dispatch "" ls)
      else if prefix ":" l then dispatch buf ls
      else let '(name, value) := field l in
           if (name =? "data")%string then dispatch (buf ++ value ++ lf) ls else dispatch buf ls
  end.
Definition browser_events (stream : string) : list string := dispatch "" (lines "" stream).

(* A message that fits in one line. *)
Definition one_line (m : string) : Prop := forall c, In c (list_ascii_of_string m) -> c <> LF /\ c <> CR.

(* The log of a run: what the contexts made by DebugContext collect, the sections added
   for the logs of the runners, and what Close stores (common/context.go:317-361,
   grader/queue.go:415-433,462-466). *)
From Coq Require Import String Ascii List Bool Arith.
Import ListNotations.
Local Open Scope string_scope.

Section Log.
(* A record is what a logger gives to its handler (with the logger's own context, such
   as the id of the run); render: what log15.LogfmtFormat says of it, at the handler of
   a given context (the handlers on the way add the origin of an error to it). *)
Variable record : Type.
Variable render : nat -> record -> string.
(* The handler of the context made by NewContext: whether the record passes its level. *)
Variable passes : record -> bool.

(* log15's handlers, as context.go:333-339 puts them together: the stream handler of the
   buffer of context number buf, then those of the context it was made from.
   ErrorCallerStackHandler(LvlDebug) lets every level through. *)
Inductive handler := Main | MultiHandler (buf : nat) (rest : handler).
(* common.Context, as far as its log goes.  Contexts are numbered in order of creation;
   number 0 is that of NewContext, which has no buffer. *)
Record context := { logBuffer : option string; Log : handler }.
Record state := { contexts : list context; main_log : list record }.
Definition NewContext : state := {| contexts := [{| logBuffer := None; Log := Main |}]; main_log := [] |}.

Fixpoint update {A} (n : nat) (f : A -> A) (l : list A) : list A :=
  match n, l with _, [] => [] | O, x :: l => f x :: l | S n, x :: l => x :: update n f l end.
Definition append_to (s : string) (c : context) : context :=
  {| logBuffer := match logBuffer c with None => None | Some b => Some (b ++ s) end; Log := Log c |}.
Definition write (buf : nat) (s : string) (st : state) : state :=
  {| contexts := update buf (append_to s) (contexts st); main_log := main_log st |}.
(* log15.MultiHandler: the handlers in order.  Each writes its line with one Write. *)
Fixpoint emit (r : record) (h : handler) (st : state) : state :=
  match h with
  | Main => if passes r then {| contexts := contexts st; main_log := main_log st ++ [r] |} else st
  | MultiHandler buf rest => emit r rest (write buf (render buf r) st)
  end.

(* What may happen, one atomic step at a time.  Line: something is logged with the
   logger of a context.  Write: one Write of AppendLogSection to the context's buffer.
   bytes.Buffer itself is not locked; Writes are taken to be atomic. *)
Inductive op := DebugContext (c : nat) | Line (c : nat) (r : record) | Write (c : nat) (s : string).
(* None: there is no such context, or a nil dereference (a Write without a buffer). *)
Definition step (st : state) (o : op) : option state :=
  match o with
  | DebugContext c =>                                            (* context.go:320-343 *)
      match nth_error (contexts st) c with
      | None => None
      | Some p =>
          Some {| contexts := contexts st ++ [{| logBuffer := Some ""; Log := MultiHandler (length (contexts st)) (Log p) |}];
                  main_log := main_log st |}
      end
  | Line c r => match nth_error (contexts st) c with None => None | Some x => Some (emit r (Log x) st) end
  | Write c s =>
      match nth_error (contexts st) c with
      | None => None
      | Some x => match logBuffer x with None => None | Some _ => Some (write c s st) end
      end
  end.
Fixpoint run (h : list op) (st : state) : option state :=
  match h with [] => Some st | o :: h => match step st o with None => None | Some st => run h st end end.

(* context.go:347-351.  The three Writes of a call. *)
Definition newline : string := String "010" "".
Definition opening (sectionName : string) : string := "================  " ++ sectionName ++ "  ================" ++ newline.
Definition closing (sectionName : string) : string := "================ /" ++ sectionName ++ "  ================" ++ newline.
Definition AppendLogSection (c : nat) (sectionName contents : string) : list op :=
  [Write c (opening sectionName); Write c contents; Write c (closing sectionName)].
(* context.go:354-359 *)
Definition LogBuffer (c : nat) (st : state) : option string :=
  match nth_error (contexts st) c with None => None | Some x => logBuffer x end.
(* queue.go:425: what logs.txt.gz has, if nothing fails, of the run whose context is c.
   A nil slice writes nothing. *)
Definition stored (c : nat) (st : state) : string := match LogBuffer c st with Some b => b | None => "" end.
End Log.
Arguments DebugContext {record}. Arguments Line {record}. Arguments Write {record}. Arguments AppendLogSection {record}.

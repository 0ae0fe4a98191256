(* Transports and the per-subscriber loop: broadcaster/transport.go and
   broadcaster/subscriber.go:329-375. *)
From Coq Require Import String Ascii List Bool.
Import ListNotations.
Local Open Scope string_scope.

(* transport.go:35-107, 109-178. *)
Inductive kind := WebSocket | SSE.

(* What a transport was asked to put on the wire. *)
Inductive frame := Data (m : string) | PingFrame | CloseFrame.

(* One subscriber.  send: the messages in its send channel; send_closed: the
   broadcaster closed it (after which it queues nothing more); peer_gone: the
   connection is broken or closed by the peer; close_closed: the channel
   s.close, shared by Run and ReadLoop, is closed; run_done, read_done: the two
   goroutines have returned; panicked: a closed channel was closed.  wire: frames
   written; queued: all messages ever queued (ghost). *)
Record state := St {
  send : list string; send_closed : bool; peer_gone : bool; close_closed : bool;
  run_done : bool; read_done : bool; panicked : bool; wire : list frame; queued : list string }.
Definition init : state := St [] false false false false false false [] [].

(* close(t.close): transport.go:92, 130, 168. *)
Definition close_close (s : state) : state :=
  match s with St sd sc pg cc rn rd pn w q => St sd sc pg true rn rd (pn || cc) w q end.

(* Steps of the broadcaster (Enqueue, CloseSend: broadcaster.go), of the network
   (PeerGone), of the ReadLoop goroutine and of the three cases of the select in
   Run.  ok says whether the write succeeds.  A websocket's ReadMessage returns
   an error only once the connection is broken or closed (PeerGone); the SSE
   close notifier fires then too, if the ResponseWriter has one (notifier). *)
Inductive step_label :=
  | Enqueue (m : string) | CloseSend | PeerGone
  | ReadLoopStep | RunClose | RunSend (ok : bool) | RunPing (ok : bool).

Definition write (s : state) (f : frame) : state :=
  match s with St sd sc pg cc rn rd pn w q => St sd sc pg cc rn rd pn (w ++ [f]) q end.
Definition return_ (s : state) : state :=
  match s with St sd sc pg cc rn rd pn w q => St sd sc pg cc true rd pn w q end.

Section Run.
Variable k : kind.
Variable notifier : bool.

(* transport.go:52-64 and 128-131. *)
Definition Close (s : state) : state := match k with WebSocket => write s CloseFrame | SSE => close_close s end.

Definition step (s : state) (l : step_label) : state :=
  if panicked s then s else
  match l, s with
  | Enqueue m, St sd sc pg cc rn rd pn w q => if sc then s else St (sd ++ [m]) sc pg cc rn rd pn w (q ++ [m])
  | CloseSend, St sd sc pg cc rn rd pn w q => St sd true pg cc rn rd pn w q
  | PeerGone, St sd sc pg cc rn rd pn w q => St sd sc true cc rn rd pn w q
  | ReadLoopStep, St sd sc pg cc rn rd pn w q =>                               (* transport.go:82-93, 160-169 *)
      if rd then s
      else match k with
           | WebSocket => if pg then close_close (St sd sc pg cc rn true pn w q) else s
           | SSE => if negb notifier then St sd sc pg cc rn true pn w q
                    else if pg then close_close (St sd sc pg cc rn true pn w q) else s
           end
  | RunClose, _ => if run_done s then s else if close_closed s then return_ s else s  (* subscriber.go:352-353 *)
  | RunSend ok, St sd sc pg cc rn rd pn w q =>                                 (* subscriber.go:355-363 *)
      if rn then s
      else match sd with
           | [] => if sc then return_ (Close s) else s
           | m :: sd => let s := write (St sd sc pg cc rn rd pn w q) (Data m) in if ok then s else return_ s
           end
  | RunPing ok, _ =>                                                           (* subscriber.go:365-369 *)
      if run_done s then s else let s := write s PingFrame in if ok then s else return_ s
  end.
Definition run (ls : list step_label) : state := fold_left step ls init.
End Run.

(* The bytes of an SSE stream: transport.go:147 (ping), 174 (data).  A close
   writes nothing. *)
Definition LF : ascii := ascii_of_nat 10.
Definition CR : ascii := ascii_of_nat 13.
Definition lf : string := String LF EmptyString.
Definition sse_frame (f : frame) : string :=
  match f with
  | Data m => "data: " ++ m ++ lf ++ lf
  | PingFrame => ":" ++ lf
  | CloseFrame => ""
  end.
Definition sse_stream (fs : list frame) : string := String.concat "" (map sse_frame fs).

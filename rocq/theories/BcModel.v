(* Model of the Broadcaster, broadcaster/subscriber.go:73-207, and of the channel
   between it and each Subscriber (subscriber.go:226-244, 353-366).

   Goroutines communicate by buffered channels only; the subscriber map and the
   gauges are used by the goroutine of Run alone.  A scheduler event is one call
   of Broadcast/Subscribe/Unsubscribe/Deauthenticate, one iteration of Run's loop
   (which of the ready channels its select picks is chosen by the event, and so
   is the order in which the map is iterated), or one receive by a subscriber's
   goroutine.  Events that are not enabled leave the state as it is.

   Simplifications: subscribers are numbers, [info] gives their rights and
   filters, [websocket] their transport; latency metrics and logs are left out. *)
From Coq Require Import String List Arith ZArith Bool.
From Verif Require Import BcFilterModel.
Import ListNotations.

Section Broadcaster.
Variable info : nat -> subscriber.
Variable websocket : nat -> bool.
Variable channelLength : nat.             (* Config.Broadcaster.ChannelLength *)

(* What Run's loop did, in order (not part of the program). *)
Inductive action := Registered (s : nat) | Removed (s : nat) | Processed (m : message).

Record state := St {
  registered : list nat;                  (* b.subscribers *)
  chan : nat -> list message;             (* contents of s.send *)
  closed : nat -> bool;                   (* s.send is closed *)
  got : nat -> list message;              (* what the subscriber's goroutine received, oldest first *)
  finished : nat -> bool;                 (* it saw the channel closed *)
  q_subscribe : list nat; q_unsubscribe : list nat; q_deauth : list string; q_messages : list message;
  ws : Z; sse : Z;                        (* the gauges *)
  panicked : bool;                        (* send on or close of a closed channel *)
  log : list action;                      (* ghost *)
  accepted : list message                 (* messages for which Broadcast returned true (ghost) *)
}.
(* NewBroadcaster, subscriber.go:86-96. *)
Definition init : state := St [] (fun _ => []) (fun _ => false) (fun _ => []) (fun _ => false) [] [] [] [] 0 0 false [] [].

Definition set {A} (f : nat -> A) (s : nat) (v : A) : nat -> A := fun x => if Nat.eqb x s then v else f x.
Definition mem (s : nat) (l : list nat) : bool := existsb (Nat.eqb s) l.
Definition del (s : nat) (l : list nat) : list nat := List.filter (fun x => negb (Nat.eqb s x)) l.

(* remove, subscriber.go:98-106. *)
Definition remove (st : state) (s : nat) : state :=
  St (del s (registered st)) (chan st) (set (closed st) s true) (got st) (finished st)
     (q_subscribe st) (q_unsubscribe st) (q_deauth st) (q_messages st)
     (if websocket s then (ws st - 1)%Z else ws st) (if websocket s then sse st else (sse st - 1)%Z)
     (panicked st || closed st s) (log st ++ [Removed s]) (accepted st).
(* One subscriber of the message loop, subscriber.go:136-150. *)
Definition offer (m : message) (st : state) (s : nat) : state :=
  if negb (matches (info s) m) then st
  else if closed st s then
    St (registered st) (chan st) (closed st) (got st) (finished st) (q_subscribe st) (q_unsubscribe st) (q_deauth st) (q_messages st)
       (ws st) (sse st) true (log st) (accepted st)
  else if length (chan st s) <? channelLength then
    St (registered st) (set (chan st) s (chan st s ++ [m])) (closed st) (got st) (finished st)
       (q_subscribe st) (q_unsubscribe st) (q_deauth st) (q_messages st) (ws st) (sse st) (panicked st) (log st) (accepted st)
  else remove st s.

Inductive event :=
| CallSubscribe (s : nat) | CallUnsubscribe (s : nat) | CallDeauthenticate (u : string) | CallBroadcast (m : message)
| LoopSubscribe | LoopUnsubscribe | LoopDeauth (order : list nat) | LoopMessage (order : list nat)
| Receive (s : nat).

(* An order in which a Go map with these keys may be iterated. *)
Fixpoint nodupb (l : list nat) : bool := match l with [] => true | x :: l' => negb (mem x l') && nodupb l' end.
Definition is_order (l keys : list nat) : bool := nodupb l && forallb (fun x => mem x keys) l && forallb (fun x => mem x l) keys.

Definition step (st : state) (ev : event) : state :=
  let '(St R C CL G F qs qu qd qm w e p lg ac) := st in
  match ev with
  | CallSubscribe s =>                                    (* subscriber.go:183-193; capacity 5, line 92 *)
      if length qs <? 5 then St R C CL G F (qs ++ [s]) qu qd qm w e p lg ac else st
  | CallUnsubscribe s =>                                  (* subscriber.go:196-206 *)
      if length qu <? 5 then St R C CL G F qs (qu ++ [s]) qd qm w e p lg ac else st
  | CallDeauthenticate u =>                               (* subscriber.go:159-161; blocks when full *)
      if length qd <? 5 then St R C CL G F qs qu (qd ++ [u]) qm w e p lg ac else st
  | CallBroadcast m =>                                    (* subscriber.go:164-180 *)
      if length qm <? channelLength then St R C CL G F qs qu qd (qm ++ [m]) w e p lg (ac ++ [m]) else st
  | LoopSubscribe =>                                      (* subscriber.go:114-120 *)
      match qs with
      | s :: qs' =>
          St (s :: del s R) C CL G F qs' qu qd qm (if websocket s then (w + 1)%Z else w) (if websocket s then e else (e + 1)%Z)
             p (lg ++ [Registered s]) ac
      | [] => st
      end
  | LoopUnsubscribe =>                                    (* subscriber.go:129-133 *)
      match qu with
      | s :: qu' =>
          let st' := St R C CL G F qs qu' qd qm w e p lg ac in
          if mem s R then remove st' s else st'
      | [] => st
      end
  | LoopDeauth order =>                                   (* subscriber.go:122-127 *)
      match qd with
      | u :: qd' =>
          if is_order order R then
            fold_left (fun st s => if String.eqb (s_user (info s)) u then remove st s else st) order
                      (St R C CL G F qs qu qd' qm w e p lg ac)
          else st
      | [] => st
      end
  | LoopMessage order =>                                  (* subscriber.go:135-153 *)
      match qm with
      | m :: qm' =>
          if is_order order R then
            let '(St R1 C1 CL1 G1 F1 qs1 qu1 qd1 qm1 w1 e1 p1 lg1 ac1) :=
              fold_left (offer m) order (St R C CL G F qs qu qd qm' w e p lg ac) in
            St R1 C1 CL1 G1 F1 qs1 qu1 qd1 qm1 w1 e1 p1 (lg1 ++ [Processed m]) ac1
          else st
      | [] => st
      end
  | Receive s =>                                          (* subscriber.go:358-366 *)
      match C s with
      | m :: c => St R (set C s c) CL (set G s (G s ++ [m])) F qs qu qd qm w e p lg ac
      | [] => if CL s then St R C CL G (set F s true) qs qu qd qm w e p lg ac else st
      end
  end.
Definition run (evs : list event) : state := fold_left step evs init.
End Broadcaster.

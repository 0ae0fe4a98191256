(* grader/queue.go, lines 791-999: the two broadcasters (RunPostProcessor and the
   event part of QueueManager, which are the same program) and the registry of
   queues. *)
From Coq Require Import List Bool Arith.
Import ListNotations.
Local Open Scope list_scope.

(* ---- RunPostProcessor, lines 791-860; QueueManager.AddEventListener, AddEvent,
   Close, run, lines 957-999 ---- *)
Section Broadcast.
Variables (L E : Type).     (* the listening channels; the runs or events *)
Variable L_dec : forall a b : L, {a = b} + {a <> b}.

(* Where the goroutine run (lines 833-853, 979-999) is. *)
Inductive place :=
| Select
| Delivering (e : E) (todo : list L)   (* for _, listener := range listeners { listener <- run } *)
| Closing (todo : list L)              (* ... { close(listener) } *)
| Done.

Record state := {
  posting : list E;          (* calls of PostProcess (AddEvent) that have not returned *)
  ebuf : option E;           (* finishedRuns (events): a channel with room for one *)
  eclosed : bool;
  adding : list L;           (* calls of AddListener that have not sent yet *)
  lbuf : option L;           (* listenerChan: a channel with room for one *)
  acked : list L;            (* calls of AddListener whose added channel has been closed *)
  listeners : list L;
  at_ : place;
  lclosed : list L;          (* listening channels that have been closed *)
  crashed : bool             (* a goroutine panicked *)
}.
(* NewRunPostProcessor, lines 807-813, with its goroutine started *)
Definition start : state :=
  {| posting := []; ebuf := None; eclosed := false; adding := []; lbuf := None; acked := []; listeners := []; at_ := Select; lclosed := []; crashed := false |}.

(* What the callers and the listeners see. *)
Inductive seen :=
| Posts (e : E) | Posted (e : E)       (* PostProcess is called, returns *)
| Adds (l : L) | Added (l : L)         (* AddListener is called, returns *)
| CloseCalled
| Delivers (l : L) (e : E)
| Closes (l : L)
| Panics.

Definition set_posts (s : state) p b : state :=
  {| posting := p; ebuf := b; eclosed := eclosed s; adding := adding s; lbuf := lbuf s; acked := acked s; listeners := listeners s; at_ := at_ s; lclosed := lclosed s; crashed := crashed s |}.
Definition set_adds (s : state) a b k ls : state :=
  {| posting := posting s; ebuf := ebuf s; eclosed := eclosed s; adding := a; lbuf := b; acked := k; listeners := ls; at_ := at_ s; lclosed := lclosed s; crashed := crashed s |}.
Definition set_at (s : state) b p c : state :=
  {| posting := posting s; ebuf := b; eclosed := eclosed s; adding := adding s; lbuf := lbuf s; acked := acked s; listeners := listeners s; at_ := p; lclosed := c; crashed := crashed s |}.
Definition set_closed (s : state) : state :=
  {| posting := posting s; ebuf := ebuf s; eclosed := true; adding := adding s; lbuf := lbuf s; acked := acked s; listeners := listeners s; at_ := at_ s; lclosed := lclosed s; crashed := crashed s |}.
Definition crash (s : state) : state :=
  {| posting := posting s; ebuf := ebuf s; eclosed := eclosed s; adding := adding s; lbuf := lbuf s; acked := acked s; listeners := listeners s; at_ := at_ s; lclosed := lclosed s; crashed := true |}.

(* New calls, made by anybody at any time. *)
Inductive call : state -> list seen -> state -> Prop :=
| call_post : forall s e, call s [Posts e] (set_posts s (e :: posting s) (ebuf s))
| call_add : forall s l, call s [Adds l] (set_adds s (l :: adding s) (lbuf s) (acked s) (listeners s))
(* Close, lines 857-860, 973-976: closing a closed channel panics *)
| call_close : forall s, eclosed s = false -> call s [CloseCalled] (set_closed s)
| call_close_again : forall s, eclosed s = true -> call s [CloseCalled; Panics] (crash s).

(* Steps of the calls in progress and of the goroutine.  (Any of the waiting senders
   may be next; Go serves them in order.  A listener takes what it is sent when it
   likes, which is when the step is made.) *)
Inductive work : state -> list seen -> state -> Prop :=
(* PostProcess, lines 829-831; sending on a closed channel panics *)
| post_send : forall s a e b, posting s = a ++ e :: b -> eclosed s = false -> ebuf s = None -> work s [Posted e] (set_posts s (a ++ b) (Some e))
| post_panics : forall s e, In e (posting s) -> eclosed s = true -> work s [Panics] (crash s)
(* AddListener, lines 817-825 *)
| add_send : forall s a l b, adding s = a ++ l :: b -> lbuf s = None -> work s [] (set_adds s (a ++ b) (Some l) (acked s) (listeners s))
| add_returns : forall s a l b, acked s = a ++ l :: b -> work s [Added l] (set_adds s (adding s) (lbuf s) (a ++ b) (listeners s))
(* run: a new listener, lines 836-841 *)
| run_registers : forall s l, at_ s = Select -> lbuf s = Some l -> work s [] (set_adds s (adding s) None (l :: acked s) (listeners s ++ [l]))
(* run: a run to broadcast, lines 842, 849-851 *)
| run_takes : forall s e, at_ s = Select -> ebuf s = Some e -> work s [] (set_at s None (Delivering e (listeners s)) (lclosed s))
| run_delivers : forall s e l t, at_ s = Delivering e (l :: t) -> work s [Delivers l e] (set_at s (ebuf s) (Delivering e t) (lclosed s))
| run_delivered : forall s e, at_ s = Delivering e [] -> work s [] (set_at s (ebuf s) Select (lclosed s))
(* run: the channel is closed and empty, lines 843-848 *)
| run_closing : forall s, at_ s = Select -> eclosed s = true -> ebuf s = None -> work s [] (set_at s None (Closing (listeners s)) (lclosed s))
| run_closes : forall s l t, at_ s = Closing (l :: t) -> ~ In l (lclosed s) -> work s [Closes l] (set_at s (ebuf s) (Closing t) (l :: lclosed s))
| run_closes_again : forall s l t, at_ s = Closing (l :: t) -> In l (lclosed s) -> work s [Panics] (crash s)
| run_returns : forall s, at_ s = Closing [] -> work s [] (set_at s (ebuf s) Done (lclosed s)).

Inductive steps : state -> list seen -> state -> Prop :=
| steps_nil : forall s, steps s [] s
| steps_snoc : forall s es s1 e s2, steps s es s1 -> crashed s1 = false -> call s1 e s2 \/ work s1 e s2 -> steps s (es ++ e) s2.
End Broadcast.
Arguments Select {L E}. Arguments Delivering {L E}. Arguments Closing {L E}. Arguments Done {L E}.
Arguments posting {L E}. Arguments ebuf {L E}. Arguments eclosed {L E}. Arguments adding {L E}. Arguments lbuf {L E}. Arguments acked {L E}. Arguments listeners {L E}. Arguments at_ {L E}. Arguments lclosed {L E}. Arguments crashed {L E}.
Arguments start {L E}. Arguments set_posts {L E}. Arguments set_adds {L E}. Arguments set_at {L E}. Arguments set_closed {L E}. Arguments crash {L E}.
Arguments Posts {L E}. Arguments Posted {L E}. Arguments Adds {L E}. Arguments Added {L E}. Arguments CloseCalled {L E}. Arguments Delivers {L E}. Arguments Closes {L E}. Arguments Panics {L E}.
Arguments call {L E}. Arguments work {L E}. Arguments steps {L E}.

(* ---- The registry of queues, QueueManager, lines 875-955 ---- *)
(* A queue is what Add made: it is known by its number; mapping is a Go map, and
   lengths are the numbers of runs in its channels (C01-C05 are about those). *)
Section Registry.
Variable name : Type.
Variable name_eqb : name -> name -> bool.
Record manager := { mapping : name -> option nat; made : nat }.
Definition defaultQueue (n : name) : manager := {| mapping := fun x => if name_eqb n x then Some 0 else None; made := 1 |}.
(* Add, lines 902-917: it always makes a queue, and puts it in the map *)
Definition Add (m : manager) (n : name) : manager * nat :=
  ({| mapping := fun x => if name_eqb n x then Some (made m) else mapping m x; made := S (made m) |}, made m).
(* Get, lines 920-929 *)
Definition Get (m : manager) (n : name) : option nat := mapping m n.
End Registry.

(* Model of the per-name run queue of the grader: grader/queue.go:518-594 and
   the channel creation in QueueManager.Add, grader/queue.go:904-917.

   A Go buffered channel is a FIFO list with a capacity; a send blocks (is not
   enabled) when the list has reached the capacity, a receive blocks when it is
   empty, a select with default takes the default exactly when the operation
   would block.  One scheduler event executes one channel operation of one
   goroutine, so every interleaving of the goroutines' channel operations is a
   list of events.  An event that is not enabled leaves the state unchanged
   (the goroutine is blocked).

   Simplifications: the run is an abstract identifier of type R (the fields the
   queue writes, run.queue and run.QueueTime, do not influence the queue);
   events sent to the queueManager and monitor.Add are modelled elsewhere
   (ListenersModel, RunModel). *)
From Coq Require Import List Arith Bool.
From Verif Require Import GoBase.
Import ListNotations.

(* QueueCount: grader/queue.go:44. *)
Definition QueueCount : nat := 4.

Section Queue.
  Variable R : Type.

  (* Program counters of the goroutines that call into the queue.
     PBlock: enqueueBlocking before line 570; PTry: enqueue before the select of
     line 586; PSent: run already in queue.runs[p], before queue.ready <-
     (line 571 or 588); PDone/PRejected: returned (true / false);
     PPanic: queue.runs[p] with p out of range.
     CWait: GetRun before the select of line 533; CScan i: GetRun about to
     execute iteration i of the loop of lines 539-546 (i = QueueCount means the
     loop is over); CGot p r: returned r found in runs[p]; CGone: returned
     because of closeNotifier (line 535); CPanic: line 547. *)
  Inductive thread : Type :=
  | PBlock (p : nat) (r : R)
  | PTry (p : nat) (r : R)
  | PSent (p : nat) (r : R)
  | PDone (p : nat) (r : R)
  | PRejected (p : nat) (r : R)
  | PPanic (p : nat) (r : R)
  | CWait
  | CScan (i : nat)
  | CGot (p : nat) (r : R)
  | CGone
  | CPanic.

  (* Queue struct, grader/queue.go:518-523; [cap] is manager.channelLength.
     [chans] are queue.runs, [tokens] the number of elements in queue.ready. *)
  Record state : Type := mk {
    cap : nat;
    chans : list (list R);
    tokens : nat;
    threads : list thread
  }.

  (* QueueManager.Add, grader/queue.go:904-917: QueueCount channels of capacity
     channelLength and a ready channel of capacity QueueCount*channelLength. *)
  Definition init (channelLength : nat) : state :=
    mk channelLength (repeat [] QueueCount) 0 [].

  (* Calls that client code may start at any time, and scheduler choices. *)
  Inductive event : Type :=
  | EAddRun (p : nat) (r : R)   (* AddRun on a run with Priority p: queue.go:551-562 *)
  | EEnqueue (p : nat) (r : R)  (* enqueue(run, p), called by Requeue: queue.go:581-594 *)
  | EGetRun                     (* GetRun: queue.go:528-548 *)
  | EStep (t : nat)             (* goroutine t executes its next channel operation *)
  | EGone (t : nat).            (* closeNotifier fires for a waiting GetRun: queue.go:534-535 *)

  Inductive obs : Type :=
  | OIns (p : nat) (r : R)      (* r was sent on runs[p] *)
  | ODel (p : nat) (r : R).     (* r was received from runs[p] *)

  Definition set_thread (s : state) (t : nat) (th : thread) : state :=
    mk (cap s) (chans s) (tokens s) (upd (threads s) t th).

  (* One channel operation of a goroutine. *)
  Definition step_thread (s : state) (t : nat) (th : thread) : state * list obs :=
    match th with
    | PBlock p r =>                               (* queue.runs[run.Priority] <- run, :570 *)
      match nth_error (chans s) p with
      | None => (set_thread s t (PPanic p r), [])
      | Some q =>
        if length q <? cap s
        then (mk (cap s) (upd (chans s) p (q ++ [r])) (tokens s)
                 (upd (threads s) t (PSent p r)), [OIns p r])
        else (s, [])
      end
    | PTry p r =>                                 (* select { case runs[p] <- run: default: }, :586-593 *)
      match nth_error (chans s) p with
      | None => (set_thread s t (PPanic p r), [])
      | Some q =>
        if length q <? cap s
        then (mk (cap s) (upd (chans s) p (q ++ [r])) (tokens s)
                 (upd (threads s) t (PSent p r)), [OIns p r])
        else (set_thread s t (PRejected p r), [])
      end
    | PSent p r =>                                (* queue.ready <- struct{}{}, :571 and :588 *)
      if tokens s <? QueueCount * cap s
      then (mk (cap s) (chans s) (S (tokens s)) (upd (threads s) t (PDone p r)), [])
      else (s, [])
    | CWait =>                                    (* case <-queue.ready, :536 *)
      match tokens s with
      | 0 => (s, [])
      | S n => (mk (cap s) (chans s) n (upd (threads s) t (CScan 0)), [])
      end
    | CScan i =>                                  (* :539-547 *)
      match nth_error (chans s) i with
      | None => (set_thread s t CPanic, [])
      | Some [] => (set_thread s t (CScan (S i)), [])
      | Some (r :: q) =>
        (mk (cap s) (upd (chans s) i q) (tokens s) (upd (threads s) t (CGot i r)), [ODel i r])
      end
    | _ => (s, [])
    end.

  Definition spawn (s : state) (th : thread) : state :=
    mk (cap s) (chans s) (tokens s) (threads s ++ [th]).

  Definition step (s : state) (e : event) : state * list obs :=
    match e with
    | EAddRun p r => (spawn s (PBlock p r), [])
    | EEnqueue p r => (spawn s (PTry p r), [])
    | EGetRun => (spawn s CWait, [])
    | EStep t =>
      match nth_error (threads s) t with
      | None => (s, [])
      | Some th => step_thread s t th
      end
    | EGone t =>
      match nth_error (threads s) t with
      | Some CWait => (set_thread s t CGone, [])
      | _ => (s, [])
      end
    end.

  (* Execution of a schedule; the observations are collected in order. *)
  Fixpoint exec (s : state) (es : list event) : state * list obs :=
    match es with
    | [] => (s, [])
    | e :: es' =>
      let (s1, o1) := step s e in
      let (s2, o2) := exec s1 es' in (s2, o1 ++ o2)
    end.
End Queue.

Arguments PBlock {R}. Arguments PTry {R}. Arguments PSent {R}. Arguments PDone {R}.
Arguments PRejected {R}. Arguments PPanic {R}. Arguments CWait {R}. Arguments CScan {R}.
Arguments CGot {R}. Arguments CGone {R}. Arguments CPanic {R}.
Arguments mk {R}. Arguments cap {R}. Arguments chans {R}. Arguments tokens {R}. Arguments threads {R}.
Arguments EAddRun {R}. Arguments EEnqueue {R}. Arguments EGetRun {R}. Arguments EStep {R}. Arguments EGone {R}.
Arguments OIns {R}. Arguments ODel {R}.
Arguments set_thread {R}. Arguments step_thread {R}. Arguments spawn {R}. Arguments step {R}. Arguments exec {R}.

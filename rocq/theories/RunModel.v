(* Model of the life of runs in the grader: RunContext (grader/queue.go:299-516),
   InflightMonitor (grader/queue.go:596-758), attempt IDs (common/run.go:16-21,
   84-95) and the result handler (cmd/omegaup-grader/runner_handler.go:188-213).

   Goroutines are threads with an explicit program counter; one scheduler event
   executes one atomic operation (an atomic swap, a mutex-protected section, a
   channel operation or one plain statement) of one thread.

   Simplifications: the queue is the multiset of runs waiting to be handed out
   (its ordering is QueueModel); whether the high-priority queue is full, whether
   a file-system call fails and what verdict a runner uploads are scheduler
   choices; run.tries-- is one step (Go makes no atomicity promise: it is a data
   race if two goroutines requeue the same run); queue events are omitted
   (ListenersModel); timers have the Go 1.13 semantics (go.mod: go 1.13): Stop
   returns false once the timer has expired, and then nothing more is sent on
   its channel. *)
From Coq Require Import List Arith ZArith NArith Bool.
From Verif Require Import GoBase.
Import ListNotations.

(* The mutable part of a RunContext, grader/queue.go:299-334. [nrunning],
   [nready] and [npost] count executed close(run.running), close(run.ready) and
   PostProcess calls (a second close would be a Go panic). *)
Record rstate : Type := mkR {
  maxtries : nat;       (* MaxGradeRetries when the run was created (ghost) *)
  attempt : N;          (* run.Run.AttemptID *)
  tries : Z;            (* run.tries *)
  closedF : bool;       (* run.closedFlag *)
  runningF : bool;      (* run.runningFlag *)
  mon : bool;           (* run.monitor != nil *)
  nrunning : nat;
  nready : nat;
  npost : nat
}.

(* InflightRun, grader/queue.go:598-605: the three channels have capacity 1.
   [iatt] is the key under which it was registered (ghost); [ntclose] counts
   close(inflight.timeout). *)
Record istate : Type := mkI {
  irun : nat;
  iatt : N;
  connected : bool;
  iready : bool;
  tmo : bool;
  ntclose : nat
}.

(* Program counters.  [cont] says what to do when Requeue/Close returns: nothing
   more (handler), or continue InflightMonitor.timeout with its last statement. *)
Inductive cont : Type := KEnd | KTimer (i : nat).

Inductive pc : Type :=
| GR0 (r : nat)                 (* GetRun received r; monitor.Add line 648-650 *)
| GR1 (r : nat)                 (* monitor.Add line 651-663 *)
| TConn (i : nat)               (* timer goroutine in the select of line 672 *)
| TRdy (i : nat)                (* timer goroutine in the select of line 685 *)
| TSend (i : nat)               (* timeout <- struct{}{}, line 714 *)
| TDrain (i : nat)              (* deferred <-timer.C on a drained timer, line 669 / 682 *)
| TFin (i : nat)                (* deferred close(inflight.timeout), line 664 *)
| HProc (r : nat)               (* result handler after InflightMonitor.Get *)
| RQ0 (r : nat) (last : bool) (k : cont)   (* Requeue line 472 *)
| RQ0b (r : nat) (last : bool) (k : cont)  (* line 473 *)
| RQ1 (r : nat) (last : bool) (k : cont)   (* line 475-479 *)
| RQ2 (r : nat) (last : bool) (k : cont)   (* line 480-485 *)
| RQ3 (r : nat) (k : cont)                 (* line 486 *)
| RQ4 (r : nat) (k : cont)                 (* line 489-493 *)
| CL0 (r : nat) (k : cont)                 (* Close line 372-375 *)
| CL1 (r : nat) (k : cont)                 (* line 384 *)
| CL1b (r : nat) (k : cont)                (* line 385 *)
| CL1c (r : nat) (k : cont)                (* line 386 *)
| CL2 (r : nat) (pp : bool) (k : cont)     (* line 388-454 *)
| CL3 (r : nat) (pp : bool) (k : cont)     (* line 456 *)
| CL4 (r : nat) (k : cont)                 (* line 457-459 *)
| Done
| Panic.                        (* nil dereference: run.monitor became nil after the check *)

Record state : Type := mkS {
  counter : N;                  (* common/run.go:14 attemptID *)
  runs : list rstate;
  queue : list nat;             (* runs waiting in the queue *)
  mapping : list (N * nat);     (* InflightMonitor.mapping: attempt -> inflight *)
  inflights : list istate;
  threads : list pc
}.

(* common.NewAttemptID, common/run.go:87-89: atomic.AddUint64(&attemptID, 1). *)
Definition next_id (c : N) : N := ((c + 1) mod 2 ^ 64)%N.

(* common init, common/run.go:18-21: the counter starts at any 63-bit value. *)
Definition init (c0 : N) : state := mkS c0 [] [] [] [] [].

(* Go map operations on monitor.mapping. *)
Definition mget (m : list (N * nat)) (a : N) : option nat :=
  match find (fun e => N.eqb (fst e) a) m with Some e => Some (snd e) | None => None end.
Definition mdel (m : list (N * nat)) (a : N) : list (N * nat) :=
  filter (fun e => negb (N.eqb (fst e) a)) m.
Definition mset (m : list (N * nat)) (a : N) (i : nat) : list (N * nat) := (a, i) :: mdel m a.

Definition set_thread (s : state) (t : nat) (p : pc) : state :=
  mkS (counter s) (runs s) (queue s) (mapping s) (inflights s) (upd (threads s) t p).
Definition set_run (s : state) (r : nat) (x : rstate) : state :=
  mkS (counter s) (upd (runs s) r x) (queue s) (mapping s) (inflights s) (threads s).
Definition set_inf (s : state) (i : nat) (x : istate) : state :=
  mkS (counter s) (runs s) (queue s) (mapping s) (upd (inflights s) i x) (threads s).

Definition with_mon (x : rstate) (b : bool) : rstate :=
  mkR (maxtries x) (attempt x) (tries x) (closedF x) (runningF x) b (nrunning x) (nready x) (npost x).
Definition with_tries (x : rstate) (z : Z) : rstate :=
  mkR (maxtries x) (attempt x) z (closedF x) (runningF x) (mon x) (nrunning x) (nready x) (npost x).
Definition with_attempt (x : rstate) (a : N) : rstate :=
  mkR (maxtries x) a (tries x) (closedF x) (runningF x) (mon x) (nrunning x) (nready x) (npost x).
Definition with_closed (x : rstate) : rstate :=
  mkR (maxtries x) (attempt x) (tries x) true (runningF x) (mon x) (nrunning x) (nready x) (npost x).
Definition with_running (x : rstate) : rstate :=
  mkR (maxtries x) (attempt x) (tries x) (closedF x) true (mon x)
      (if runningF x then nrunning x else S (nrunning x)) (nready x) (npost x).
Definition with_ready (x : rstate) : rstate :=
  mkR (maxtries x) (attempt x) (tries x) (closedF x) (runningF x) (mon x) (nrunning x) (S (nready x)) (npost x).
Definition with_post (x : rstate) : rstate :=
  mkR (maxtries x) (attempt x) (tries x) (closedF x) (runningF x) (mon x) (nrunning x) (nready x) (S (npost x)).

(* InflightMonitor.Remove, grader/queue.go:736-758. *)
Definition remove (s : state) (a : N) : state :=
  match mget (mapping s) a with
  | None => s
  | Some i =>
    match nth_error (inflights s) i with
    | None => s
    | Some x =>
      let runs' := match nth_error (runs s) (irun x) with
                   | Some rx => upd (runs s) (irun x) (with_mon rx false)
                   | None => runs s end in
      mkS (counter s) runs' (queue s) (mdel (mapping s) a)
          (upd (inflights s) i (mkI (irun x) (iatt x) true true (tmo x) (ntclose x)))
          (threads s)
    end
  end.

(* NewEmptyRunContext (grader/queue.go:340-357) followed by Queue.AddRun
   (:551-562): the run draws an attempt ID and enters the queue. *)
Definition new_run (s : state) (m : nat) : state :=
  let a := next_id (counter s) in
  mkS a (runs s ++ [mkR m a (Z.of_nat m) false false false 0 0 0])
      (queue s ++ [length (runs s)]) (mapping s) (inflights s) (threads s).

(* Continuation after Requeue/Close returned (line 699-714). *)
Definition resume (k : cont) : pc :=
  match k with KEnd => Done | KTimer i => TSend i end.

(* One step of a thread.  [ch] is the scheduler's choice:
   TConn/TRdy: true = the timer fires, false = the channel is received;
   HProc: which of the outcomes of processRun (see below); RQ4: true = queue
   full; CL2: true = a file-system call failed. *)
Inductive choice : Type := ChTrue | ChFalse | ChLast.

Definition step_thread (s : state) (t : nat) (p : pc) (ch : choice) : state :=
  match p with
  | GR0 r =>
    match nth_error (runs s) r with
    | Some x => set_thread (set_run s r (with_running x)) t (GR1 r)
    | None => s
    end
  | GR1 r =>
    match nth_error (runs s) r with
    | Some x =>
      let i := length (inflights s) in
      mkS (counter s) (upd (runs s) r (with_mon x true)) (queue s)
          (mset (mapping s) (attempt x) i)
          (inflights s ++ [mkI r (attempt x) false false false 0])
          (upd (threads s) t Done ++ [TConn i])          (* go func(), line 663 *)
    | None => s
    end
  | TConn i =>
    match nth_error (inflights s) i with
    | Some x =>
      match ch with
      | ChTrue => set_thread s t (RQ0 (irun x) false (KTimer i))
      | _ => if connected x
             then set_thread (set_inf s i (mkI (irun x) (iatt x) false (iready x) (tmo x) (ntclose x))) t (TRdy i)
             else s
      end
    | None => s
    end
  | TRdy i =>
    match nth_error (inflights s) i with
    | Some x =>
      match ch with
      | ChTrue => set_thread s t (RQ0 (irun x) false (KTimer i))
      | _ => if iready x
             then set_thread (set_inf s i (mkI (irun x) (iatt x) (connected x) false (tmo x) (ntclose x))) t (TFin i)
             else s
      end
    | None => s
    end
  | TSend i =>
    match nth_error (inflights s) i with
    | Some x =>
      if tmo x then s
      else set_thread (set_inf s i (mkI (irun x) (iatt x) (connected x) (iready x) true (ntclose x))) t (TDrain i)
    | None => s
    end
  | TDrain i => s               (* the timer fired and was drained: blocks forever *)
  | TFin i =>
    match nth_error (inflights s) i with
    | Some x => set_thread (set_inf s i (mkI (irun x) (iatt x) (connected x) (iready x) (tmo x) (S (ntclose x)))) t Done
    | None => s
    end
  | HProc r =>                  (* runner_handler.go:199-213 *)
    match ch with
    | ChTrue => set_thread s t (CL0 r KEnd)              (* result.retry = false *)
    | ChFalse => set_thread s t (RQ0 r false KEnd)       (* retry, status != 200 *)
    | ChLast => set_thread s t (RQ0 r true KEnd)         (* retry, status = 200: JE uploaded *)
    end
  | RQ0 r last k =>
    match nth_error (runs s) r with
    | Some x => set_thread s t (if mon x then RQ0b r last k else RQ1 r last k)
    | None => s
    end
  | RQ0b r last k =>
    match nth_error (runs s) r with
    | Some x => if mon x then set_thread (remove s (attempt x)) t (RQ1 r last k)
                else set_thread s t Panic
    | None => s
    end
  | RQ1 r last k =>
    match nth_error (runs s) r with
    | Some x =>
      let z := (tries x - 1)%Z in
      set_thread (set_run s r (with_tries x z)) t
                 (if (z <=? 0)%Z then CL0 r k else RQ2 r last k)
    | None => s
    end
  | RQ2 r last k =>
    match nth_error (runs s) r with
    | Some x => set_thread (if last then set_run s r (with_tries x 1%Z) else s) t (RQ3 r k)
    | None => s
    end
  | RQ3 r k =>
    match nth_error (runs s) r with
    | Some x =>
      let a := next_id (counter s) in
      let s' := set_run s r (with_attempt x a) in
      set_thread (mkS a (runs s') (queue s') (mapping s') (inflights s') (threads s')) t (RQ4 r k)
    | None => s
    end
  | RQ4 r k =>
    match ch with
    | ChTrue => set_thread s t (CL0 r k)
    | _ => set_thread (mkS (counter s) (runs s) (queue s ++ [r]) (mapping s) (inflights s) (threads s)) t (resume k)
    end
  | CL0 r k =>
    match nth_error (runs s) r with
    | Some x => if closedF x then set_thread s t (resume k)
                else set_thread (set_run s r (with_closed x)) t (CL1 r k)
    | None => s
    end
  | CL1 r k =>
    match nth_error (runs s) r with
    | Some x => set_thread s t (if mon x then CL1b r k else CL2 r false k)
    | None => s
    end
  | CL1b r k =>
    match nth_error (runs s) r with
    | Some x => set_thread s t (if mon x then CL1c r k else Panic)
    | None => s
    end
  | CL1c r k =>
    match nth_error (runs s) r with
    | Some x => if mon x then set_thread (remove s (attempt x)) t (CL2 r true k)
                else set_thread s t Panic
    | None => s
    end
  | CL2 r pp k =>
    match ch with
    | ChTrue => set_thread s t (resume k)
    | _ => set_thread s t (CL3 r pp k)
    end
  | CL3 r pp k =>
    match nth_error (runs s) r with
    | Some x => set_thread (set_run s r (with_ready x)) t (if pp then CL4 r k else resume k)
    | None => s
    end
  | CL4 r k =>
    match nth_error (runs s) r with
    | Some x => set_thread (set_run s r (with_post x)) t (resume k)
    | None => s
    end
  | Done => s
  | Panic => s
  end.

Inductive event : Type :=
| ENew (m : nat)                (* a run with MaxGradeRetries = m is created and added *)
| EGetRun (n : nat)             (* a runner is handed the n-th waiting run *)
| EResult (a : N)               (* POST /run/<a>/results: runner_handler.go:195-199, Get :718-734 *)
| EStep (t : nat) (ch : choice).

Definition spawn (s : state) (p : pc) : state :=
  mkS (counter s) (runs s) (queue s) (mapping s) (inflights s) (threads s ++ [p]).

Definition step (s : state) (e : event) : state :=
  match e with
  | ENew m => new_run s m
  | EGetRun n =>
    match nth_error (queue s) n with
    | Some r =>
      mkS (counter s) (runs s) (firstn n (queue s) ++ skipn (S n) (queue s))
          (mapping s) (inflights s) (threads s ++ [GR0 r])
    | None => s
    end
  | EResult a =>
    match mget (mapping s) a with
    | Some i =>
      match nth_error (inflights s) i with
      | Some x =>
        spawn (set_inf s i (mkI (irun x) (iatt x) true (iready x) (tmo x) (ntclose x))) (HProc (irun x))
      | None => s
      end
    | None => s                 (* 404 *)
    end
  | EStep t ch =>
    match nth_error (threads s) t with
    | Some p => step_thread s t p ch
    | None => s
    end
  end.

Definition exec (s : state) (es : list event) : state := fold_left step es s.

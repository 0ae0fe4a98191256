(* Specification vocabulary for the life of runs. *)
From Coq Require Import List Arith ZArith NArith Bool.
From Verif Require Import GoBase RunModel.
Import ListNotations.

(* All executions from an arbitrary initial counter. *)
Definition reachable (s : state) : Prop := exists c0 es, s = exec (init c0) es.

(* Number of times run r has been handed out to a runner (registered with the
   monitor under an attempt ID and given a timer). *)
Definition handouts (s : state) (r : nat) : nat :=
  length (filter (fun i => Nat.eqb (irun i) r) (inflights s)).

(* The run a goroutine is currently working on: it holds the run between taking
   it from the queue (or looking it up, or being woken by a timer) and being
   done with it. *)
Definition worker (p : pc) : option nat :=
  match p with
  | GR0 r | GR1 r | HProc r
  | RQ0 r _ _ | RQ0b r _ _ | RQ1 r _ _ | RQ2 r _ _ | RQ3 r _ | RQ4 r _
  | CL0 r _ | CL1 r _ | CL1b r _ | CL1c r _ | CL2 r _ _ | CL3 r _ _ | CL4 r _ => Some r
  | _ => None
  end.
Definition works_on (r : nat) (p : pc) : nat :=
  match worker p with Some r' => if Nat.eqb r' r then 1 else 0 | None => 0 end.
Definition workers (s : state) (r : nat) : nat := sumf (works_on r) (threads s).
Definition queued (s : state) (r : nat) : nat := count_occ Nat.eq_dec (queue s) r.

(* An event that does not race with another goroutine holding the same run: no
   second result for an attempt arrives while one is being processed, and a
   timer does not fire for an attempt that was completed or is being processed. *)
Definition race_free (s : state) (e : event) : Prop :=
  match e with
  | EResult a =>
    forall i x, mget (mapping s) a = Some i -> nth_error (inflights s) i = Some x -> workers s (irun x) = 0
  | EStep t ChTrue =>
    forall i x, nth_error (threads s) t = Some (TConn i) \/ nth_error (threads s) t = Some (TRdy i) ->
      nth_error (inflights s) i = Some x ->
      mget (mapping s) (iatt x) = Some i /\ workers s (irun x) = 0
  | _ => True
  end.

Fixpoint race_free_exec (s : state) (es : list event) : Prop :=
  match es with
  | [] => True
  | e :: es' => race_free s e /\ race_free_exec (step s e) es'
  end.

Definition in_flight (s : state) (r : nat) (x : rstate) : Prop :=
  exists i y, mget (mapping s) (attempt x) = Some i /\ nth_error (inflights s) i = Some y /\ irun y = r.

(* A used attempt ID that no longer resolves never resolves again. *)
Definition stale (s : state) (a : N) : Prop :=
  mget (mapping s) a = None /\ exists i y, nth_error (inflights s) i = Some y /\ iatt y = a.

(* A handler that accepts the result of an attempt in flight, with a working
   file system, closes the run, publishes it and unregisters the attempt. *)
Definition close_script (t : nat) : list event :=
  [EStep t ChTrue; EStep t ChFalse; EStep t ChFalse; EStep t ChFalse; EStep t ChFalse; EStep t ChFalse; EStep t ChFalse; EStep t ChFalse].

(* The same for a timeout (or failed attempt) with retries left: the run goes
   back to the queue once, under a fresh attempt ID, with one try fewer. *)
Definition requeue_script (t : nat) : list event :=
  [EStep t ChFalse; EStep t ChFalse; EStep t ChFalse; EStep t ChFalse; EStep t ChFalse; EStep t ChFalse].

(* Attempt IDs drawn during an execution. *)
Fixpoint draws (s : state) (es : list event) : list N :=
  match es with
  | [] => []
  | e :: es' => (if N.eqb (counter (step s e)) (counter s) then [] else [counter (step s e)]) ++ draws (step s e) es'
  end.

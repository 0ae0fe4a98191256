(* Specification vocabulary for the queue metrics. *)
From Coq Require Import List Arith ZArith NArith Bool.
From Verif Require Import GoBase RunModel QmModel.
Import ListNotations.

Definition qtype_eqb (a b : qtype) : bool :=
  match a, b with
  | ManagerAdded, ManagerAdded | ManagerRemoved, ManagerRemoved | QueueAdded, QueueAdded
  | QueueRemoved, QueueRemoved | Retried, Retried | Abandoned, Abandoned => true
  | _, _ => false
  end.

(* Events of type k among es, whatever the run / about run r / about runs in f. *)
Definition events_of (k : qtype) (es : list qevent) : nat :=
  length (filter (fun e => qtype_eqb (fst e) k) es).
Definition events_about (k : qtype) (r : nat) (es : list qevent) : nat :=
  length (filter (fun e => qtype_eqb (fst e) k && Nat.eqb (snd e) r) es).

(* Runs that were added and not closed yet. *)
Definition open_runs (s : state) : nat := length (filter (fun x => negb (closedF x)) (runs s)).
Definition closed_runs (s : state) : nat := length (filter closedF (runs s)).

(* The run a goroutine is closing: it has won the closed flag and has not
   returned from Close yet. *)
Definition closes (p : pc) : option nat :=
  match p with
  | CL1 r _ | CL1b r _ | CL1c r _ | CL2 r _ _ | CL3 r _ _ | CL4 r _ => Some r
  | _ => None
  end.
Definition being_closed (s : state) (r : nat) : nat :=
  length (filter (fun p => match closes p with Some r' => Nat.eqb r' r | None => false end) (threads s)).
Definition closing (s : state) : nat :=
  length (filter (fun p => match closes p with Some _ => true | None => false end) (threads s)).

(* Attempts whose timeout has been handled: their timer goroutine is at (or past)
   the notification of the timeout. *)
Definition timed_out (s : state) : nat :=
  length (filter (fun p => match p with TSend _ | TDrain _ => true | _ => false end) (threads s)).

(* Attempts (handouts of a run to a runner) of runs of one priority, and those
   among them that the in-flight monitor still lists. *)
Definition pri_eqb (a b : priority) : bool :=
  match a, b with High, High | Normal, Normal | Low, Low | Ephemeral, Ephemeral => true | _, _ => false end.
Definition attempts_of (prio : nat -> priority) (p : priority) (s : state) : nat :=
  length (filter (fun i => pri_eqb (prio (irun i)) p) (inflights s)).
Definition inflight_of (prio : nat -> priority) (p : priority) (s : state) : nat :=
  length (filter (fun e => match nth_error (inflights s) (snd e) with
                           | Some i => pri_eqb (prio (irun i)) p | None => false end) (mapping s)).

(* Specification vocabulary for the run queue.  Only the observations and the
   public outcome of calls are used. *)
From Coq Require Import List Arith.
From Verif Require Import GoBase QueueModel.
Import ListNotations.

Section Spec.
  Context {R : Type}.

  (* The runs inserted into / removed from priority p, in order. *)
  Definition inserted (p : nat) (os : list (obs R)) : list R :=
    flat_map (fun o => match o with OIns q r => if Nat.eqb p q then [r] else [] | _ => [] end) os.
  Definition removed (p : nat) (os : list (obs R)) : list R :=
    flat_map (fun o => match o with ODel q r => if Nat.eqb p q then [r] else [] | _ => [] end) os.

  (* Runs whose AddRun/enqueue call got the run into the queue. *)
  Definition accepted_by (t : thread R) : list R :=
    match t with PSent _ r | PDone _ r => [r] | _ => [] end.
  (* Runs returned by GetRun calls. *)
  Definition handed_by (t : thread R) : list R :=
    match t with CGot _ r => [r] | _ => [] end.
  Definition accepted (s : state R) : list R := flat_map accepted_by (threads s).
  Definition handed_out (s : state R) : list R := flat_map handed_by (threads s).
  Definition waiting (s : state R) : list R := concat (chans s).

  Definition reachable (channelLength : nat) (s : state R) : Prop :=
    exists es, s = fst (exec (init R channelLength) es).

  (* The calls client code made, in the order in which it made them; the t-th call
     is the one goroutine t executes. *)
  Inductive call : Type := CallAddRun (p : nat) (r : R) | CallEnqueue (p : nat) (r : R) | CallGetRun.
  Definition call_of (e : event R) : list call :=
    match e with
    | EAddRun p r => [CallAddRun p r]
    | EEnqueue p r => [CallEnqueue p r]
    | EGetRun => [CallGetRun]
    | EStep _ | EGone _ => []
    end.
  Definition calls (es : list (event R)) : list call := flat_map call_of es.

  (* What may have become of a call: an AddRun is still waiting for room, or has
     put its own run into the class it named (with or without having signalled so
     yet); an enqueue may also have been turned away; a class that does not exist
     panics.  A GetRun waits, is looking, holds a run, or was abandoned. *)
  Definition became (c : call) (th : thread R) : Prop :=
    match c with
    | CallAddRun p r => th = PBlock p r \/ th = PSent p r \/ th = PDone p r \/ (th = PPanic p r /\ QueueCount <= p)
    | CallEnqueue p r =>
      th = PTry p r \/ th = PSent p r \/ th = PDone p r \/ th = PRejected p r \/ (th = PPanic p r /\ QueueCount <= p)
    | CallGetRun =>
      th = CWait \/ (exists i, th = CScan i) \/ (exists p r, th = CGot p r /\ p < QueueCount) \/ th = CGone
    end.

  (* The runs that calls put into class p, and that GetRun calls got from it. *)
  Definition put_into (p : nat) (s : state R) : list R :=
    flat_map (fun th => match th with PSent q r | PDone q r => if Nat.eqb p q then [r] else [] | _ => [] end) (threads s).
  Definition got_from (p : nat) (s : state R) : list R :=
    flat_map (fun th => match th with CGot q r => if Nat.eqb p q then [r] else [] | _ => [] end) (threads s).

  (* p is the numerically smallest (= most urgent) priority holding a run, and r
     is its oldest run. *)
  Definition most_urgent (s : state R) (p : nat) (r : R) : Prop :=
    (exists q, nth_error (chans s) p = Some (r :: q)) /\
    forall p', p' < p -> nth_error (chans s) p' = Some [].
End Spec.

(* Model of the grader's queue metrics: the queue events that the operations of
   RunModel post (grader/queue.go:376-382, 551-577, 695-714, 736-758), the
   events processor (cmd/omegaup-grader/main.go:129-163) and the metrics
   registry (cmd/omegaup-grader/metrics.go:16-183).

   Simplifications: Delta (a time difference) is dropped, so a summary is the
   number of its observations; the event is posted in the same atomic step as the
   statement before it; the transport of events to the processor is the
   ListenersModel, and the metrics do not depend on the order of events. *)
From Coq Require Import String List Arith ZArith NArith Bool.
From Verif Require Import GoBase RunModel.
Import ListNotations.
Open Scope string_scope.
Open Scope list_scope.

(* grader/queue.go:48-68 QueueEventType, :862-866 QueueEvent (with the run it is
   about, from which Priority is taken). *)
Inductive qtype : Type := ManagerAdded | ManagerRemoved | QueueAdded | QueueRemoved | Retried | Abandoned.
Notation qevent := (qtype * nat)%type.

(* InflightMonitor.Remove, grader/queue.go:739-745. *)
Definition remove_events (s : state) (a : N) : list qevent :=
  match mget (mapping s) a with
  | Some i => match nth_error (inflights s) i with Some x => [(QueueRemoved, irun x)] | None => [] end
  | None => []
  end.

(* InflightMonitor.timeout after Requeue returned, grader/queue.go:699-713: true
   when the run was requeued.  A result handler posts nothing. *)
Definition timeout_events (requeued : bool) (r : nat) (k : cont) : list qevent :=
  match k with
  | KTimer _ => [((if requeued then Retried else Abandoned), r)]
  | KEnd => []
  end.

(* The deferred function of Close, grader/queue.go:376-382: it runs on every
   return (and panic) once the closed flag was won. *)
Definition deferred (r : nat) : list qevent := [(ManagerRemoved, r)].

(* What one step of a goroutine posts. *)
Definition emits_thread (s : state) (p : pc) (ch : choice) : list qevent :=
  match p with
  | RQ0b r _ _ =>
    match nth_error (runs s) r with
    | Some x => if mon x then remove_events s (attempt x) else []
    | None => []
    end
  | RQ4 r k => match ch with ChTrue => [] | _ => timeout_events true r k end
  | CL0 r k =>
    match nth_error (runs s) r with
    | Some x => if closedF x then timeout_events false r k else []
    | None => []
    end
  | CL1b r k =>
    match nth_error (runs s) r with
    | Some x => if mon x then [] else deferred r
    | None => []
    end
  | CL1c r k =>
    match nth_error (runs s) r with
    | Some x => if mon x then remove_events s (attempt x) else deferred r
    | None => []
    end
  | CL2 r pp k => match ch with ChTrue => deferred r ++ timeout_events false r k | _ => [] end
  | CL3 r pp k =>
    match nth_error (runs s) r with
    | Some _ => if pp then [] else deferred r ++ timeout_events false r k
    | None => []
    end
  | CL4 r k =>
    match nth_error (runs s) r with
    | Some _ => deferred r ++ timeout_events false r k
    | None => []
    end
  | _ => []
  end.

(* Queue.AddRun and enqueueBlocking, grader/queue.go:551-577, for a new run;
   enqueue (:580-594), used by Requeue, posts nothing. *)
Definition emits (s : state) (e : event) : list qevent :=
  match e with
  | ENew _ => [(ManagerAdded, length (runs s)); (QueueAdded, length (runs s))]
  | EStep t ch => match nth_error (threads s) t with Some p => emits_thread s p ch | None => [] end
  | _ => []
  end.

(* All the events posted during an execution, oldest first. *)
Fixpoint posted (s : state) (es : list event) : list qevent :=
  match es with
  | [] => []
  | e :: es' => emits s e ++ posted (step s e) es'
  end.

(* grader/queue.go:30-45. *)
Inductive priority : Type := High | Normal | Low | Ephemeral.

(* cmd/omegaup-grader/metrics.go:16-160: the three registries. *)
Definition gauges : list string :=
  ["cpu_load1"; "cpu_load5"; "cpu_load15"; "mem_total"; "mem_used"; "disk_total"; "disk_used";
   "grader_queue_total_length"; "grader_queue_ephemeral_length"; "grader_queue_low_length";
   "grader_queue_normal_length"; "grader_queue_high_length"].
Definition counters : list string :=
  ["grader_ephemeral_runs_total"; "grader_ci_jobs_total"; "grader_runs_total"; "grader_runs_retry";
   "grader_runs_abandoned"; "grader_runs_je"].
Definition summaries : list string :=
  ["grader_queue_delay_seconds"; "grader_queue_ephemeral_delay_seconds"; "grader_queue_low_delay_seconds";
   "grader_queue_normal_delay_seconds"; "grader_queue_high_delay_seconds"].

(* What /metrics shows: the values of gauges and counters and the number of
   observations of summaries. *)
Record metrics : Type := mkM {
  gauge : string -> Z;
  counter_ : string -> Z;
  observed : string -> nat
}.
Definition start : metrics := mkM (fun _ => 0%Z) (fun _ => 0%Z) (fun _ => 0).

Definition known (names : list string) (n : string) : bool := existsb (String.eqb n) names.

(* metrics.go:165-169. *)
Definition gauge_add (n : string) (v : Z) (m : metrics) : metrics :=
  if known gauges n
  then mkM (fun k => if String.eqb k n then (gauge m k + v)%Z else gauge m k) (counter_ m) (observed m)
  else m.
(* metrics.go:177-181. *)
Definition summary_observe (n : string) (m : metrics) : metrics :=
  if known summaries n
  then mkM (gauge m) (counter_ m) (fun k => if String.eqb k n then S (observed m k) else observed m k)
  else m.

(* main.go:145-154. *)
Definition delay_name (p : priority) : string :=
  match p with
  | Ephemeral => "grader_queue_ephemeral_delay_seconds"
  | Low => "grader_queue_low_delay_seconds"
  | Normal => "grader_queue_normal_delay_seconds"
  | High => "grader_queue_high_delay_seconds"
  end.

(* The switch of queueEventsProcessor, main.go:138-159. *)
Definition process1 (prio : nat -> priority) (m : metrics) (e : qevent) : metrics :=
  match fst e with
  | ManagerAdded => gauge_add "grader_queue_total_length" 1 m
  | ManagerRemoved => summary_observe "grader_queue_delay_seconds" (gauge_add "grader_queue_total_length" (-1) m)
  | QueueRemoved => summary_observe (delay_name (prio (snd e))) m
  | Retried => gauge_add "grader_runs_retry" 1 m
  | Abandoned => gauge_add "grader_runs_abandoned" 1 m
  | QueueAdded => m
  end.
Definition process (prio : nat -> priority) (es : list qevent) : metrics := fold_left (process1 prio) es start.

(* The grader together with the database: rows of runs that are not ready, the service
   that queues runs (FeModel), the runs it has in memory, and its restarts. *)
From Coq Require Import String List Bool ZArith.
From Verif Require Import FeModel.
Import ListNotations.
Local Open Scope Z_scope.

(* A run in the database: Runs.status (cmd/omegaup-grader/frontend_handler.go:62-111, 233-256). *)
Inductive status := Absent | Pending | Recorded.
Record system := {
  service : state;
  rows : Z -> status;
  work : list Z    (* the runs in the grader's memory: queued, with a runner, or finished and on the way to the database (lines 212-231) *)
}.
Definition set_row (rows : Z -> status) (id : Z) (x : status) : Z -> status := fun i => if i =? id then x else rows i.
(* list without its n-th element *)
Fixpoint drop_nth {A} (n : nat) (l : list A) : list A :=
  match l, n with [], _ => [] | _ :: l, O => l | x :: l, S n => x :: drop_nth n l end.

Inductive happening :=
| Serves (e : event)      (* something the service does, see FeModel *)
| Stores (id : Z)         (* the website inserts the row of a run, or puts it back for a rejudge *)
| Records (id : Z)        (* a finished run is written to the database: UPDATE ... SET status = 'ready' *)
| Loses (id : Z).         (* the UPDATE of a finished run fails, which is only logged (lines 85-87, 106-108) *)

Section System.
Variable guid_of : Z -> string.
Variable slow : Z -> bool.

(* One step.  That a run is queued, handed out, graded and comes back finished is
   C06-C09, C74 and C75; here it stays in [work] until then. *)
Inductive sys_step (x : system) : happening -> system -> Prop :=
(* a run is queued only after its row was read (newRunContextFromID, lines 289-350), and rows are not deleted *)
| queues_run : forall i id src p s', step guid_of slow (service x) (Queues i id src p) s' -> rows x id <> Absent ->
    sys_step x (Serves (Queues i id src p)) {| service := s'; rows := rows x; work := work x ++ [id] |}
(* the process dies, with what it has in memory; at the start the runs that are not
   ready are read from the database: getPendingRuns, lines 233-256, 437-440.  If that
   fails the grader does not start. *)
| restarts : forall i pending s', step guid_of slow (service x) (Restarts i pending) s' -> (forall id, In id pending <-> rows x id = Pending) ->
    sys_step x (Serves (Restarts i pending)) {| service := s'; rows := rows x; work := [] |}
| serves : forall e s', step guid_of slow (service x) e s' -> (forall i id src p, e <> Queues i id src p) -> (forall i pending, e <> Restarts i pending) ->
    sys_step x (Serves e) {| service := s'; rows := rows x; work := work x |}
| stores : forall id, sys_step x (Stores id) {| service := service x; rows := set_row (rows x) id Pending; work := work x |}
| records : forall n id, nth_error (work x) n = Some id -> sys_step x (Records id) {| service := service x; rows := set_row (rows x) id Recorded; work := drop_nth n (work x) |}
| loses : forall n id, nth_error (work x) n = Some id -> sys_step x (Loses id) {| service := service x; rows := rows x; work := drop_nth n (work x) |}.

Definition sys0 : system := {| service := {| files := fun _ => None; threads := []; err := false |}; rows := fun _ => Absent; work := [] |}.
Inductive sys_steps : system -> list happening -> system -> Prop :=
| sys_nil : forall x, sys_steps x [] x
| sys_cons : forall x h x1 hs x2, sys_step x h x1 -> sys_steps x1 hs x2 -> sys_steps x (h :: hs) x2.
End System.

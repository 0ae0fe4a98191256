(* Model of what the grader tells about itself: InflightMonitor.GetRunData
   (grader/queue.go:761-784), QueueManager.GetQueueInfo (grader/queue.go:931-948)
   and the page /grader/status/ made of them
   (cmd/omegaup-grader/frontend_handler.go:33-50, 510-540), over the life of runs of
   RunModel.

   Simplifications: a queue is named by its name (each name is registered once); the
   channels of the queues are one list of waiting runs, with the channel each was put
   on (what is read of them is how many there are); RunData.Time and Elapsed, which
   the page does not show, are left out; reading run.tries inside GetRunData is taken
   together with reading the table (a race, as run.tries-- is not done under the
   monitor's lock: RunModel).  A response that cannot be written is logged and lost. *)
From Coq Require Import String List Arith ZArith NArith Bool.
From Verif Require Import GoBase RunModel TrcModel.
Import ListNotations.
Local Open Scope string_scope.
Local Open Scope list_scope.
Local Open Scope nat_scope.

(* [chans]: the runs waiting, each with the channel of its queue it is on
   (queue.runs[i], grader/queue.go:518-523); [homes]: run.queue.Name, :568 and 585;
   [ids]: run.ID; [guids]: run.GUID; [asked]: the name of the runner a goroutine in
   GetRun was called for, :528; [names]: inflight.runner, :651-653. *)
Record sq : Type := mkSq {
  base : RunModel.state;
  chans : list (nat * nat);
  homes : list string;
  ids : list Z;
  guids : list string;
  asked : list (nat * string);
  names : list string
}.

Definition sq_init (c0 : N) : sq := mkSq (RunModel.init c0) [] [] [] [] [] [].

Inductive sq_event : Type :=
| XNew (m : nat) (q : string) (p : nat) (id : Z) (guid : string)
    (* a run with m tries, this ID, GUID and priority p is added to queue q: AddRun, :550-562 *)
| XGetRun (n : nat) (runner : string)   (* GetRun on behalf of a runner receives the n-th waiting run, :528-548 *)
| XResult (a : N)                       (* results for attempt a arrive *)
| XStep (t : nat) (ch : choice).        (* goroutine t goes on *)

Definition base_event (e : sq_event) : RunModel.event :=
  match e with
  | XNew m _ _ _ _ => ENew m
  | XGetRun n _ => EGetRun n
  | XResult a => EResult a
  | XStep t ch => EStep t ch
  end.

Fixpoint asked_for (l : list (nat * string)) (t : nat) : string :=
  match l with [] => "" | (t', n) :: l => if Nat.eqb t' t then n else asked_for l t end.

Definition drop_nth {A} (n : nat) (l : list A) : list A := firstn n l ++ skipn (S n) l.

Definition sq_step (x : sq) (e : sq_event) : sq :=
  let s := base x in
  let s' := RunModel.step s (base_event e) in
  match e with
  | XNew m q p id guid =>
    mkSq s' (chans x ++ [(List.length (runs s), p)]) (homes x ++ [q]) (ids x ++ [id]) (guids x ++ [guid]) (asked x) (names x)
  | XGetRun n runner =>
    match nth_error (queue s) n with
    | Some _ => mkSq s' (drop_nth n (chans x)) (homes x) (ids x) (guids x) ((List.length (threads s), runner) :: asked x) (names x)
    | None => mkSq s' (chans x) (homes x) (ids x) (guids x) (asked x) (names x)
    end
  | XResult _ => mkSq s' (chans x) (homes x) (ids x) (guids x) (asked x) (names x)
  | XStep t ch =>
    match nth_error (threads s) t with
    | Some (RQ4 r _) =>            (* run.queue.enqueue(run, QueuePriorityHigh), :489 and 581-594 *)
      mkSq s' (match ch with ChTrue => chans x | _ => chans x ++ [(r, 0)] end)
           (homes x) (ids x) (guids x) (asked x) (names x)
    | Some (GR1 r) =>              (* inflight := &InflightRun{...}, :653-660 *)
      mkSq s' (chans x) (homes x) (ids x) (guids x) (asked x)
           (match nth_error (runs s) r with Some _ => names x ++ [asked_for (asked x) t] | None => names x end)
    | _ => mkSq s' (chans x) (homes x) (ids x) (guids x) (asked x) (names x)
    end
  end.

Fixpoint sq_exec (x : sq) (es : list sq_event) : sq :=
  match es with [] => x | e :: es => sq_exec (sq_step x e) es end.

(* RunData, grader/queue.go:616-625. *)
Record RunData : Type := mkRD {
  AttemptID : N; ID : Z; GUID : string; Queue : string; AttemptsLeft : Z; Runner : string
}.

(* GetRunData, grader/queue.go:761-784; [order] is the order in which the table is
   gone through (Go does not say which); None: a nil pointer is followed. *)
Definition run_data (x : sq) (e : N * nat) : option RunData :=
  let '(a, i) := e in
  match nth_error (inflights (base x)) i, nth_error (names x) i with
  | Some y, Some runner =>
    let r := irun y in
    match nth_error (runs (base x)) r, nth_error (ids x) r, nth_error (guids x) r, nth_error (homes x) r with
    | Some rx, Some id, Some guid, Some q => Some (mkRD a id guid q (tries rx) runner)
    | _, _, _, _ => None
    end
  | _, _ => None
  end.
Fixpoint GetRunData (x : sq) (order : list (N * nat)) : option (list RunData) :=
  match order with
  | [] => Some []
  | e :: order =>
    match run_data x e, GetRunData x order with Some d, Some l => Some (d :: l) | _, _ => None end
  end.

(* len(queue.runs[c]), grader/queue.go:939-944. *)
Definition chan_len (x : sq) (q : string) (c : nat) : nat :=
  List.length (List.filter (fun w => Nat.eqb (snd w) c &&
     match nth_error (homes x) (fst w) with Some q' => String.eqb q' q | None => false end) (chans x)).

(* The reads of GetQueueInfo, grader/queue.go:936-945, in the order of the queues
   gone through, each after what the other goroutines did since the last one
   ([others]: a list of events for each read).  The page adds them up,
   frontend_handler.go:527-531. *)
Fixpoint read_lengths (x : sq) (reads : list (string * nat)) (others : list (list sq_event)) : nat :=
  match reads with
  | [] => 0
  | (q, c) :: reads =>
    let x := sq_exec x (hd [] others) in
    chan_len x q c + read_lengths x reads (tl others)
  end.
Definition reads_of (queues : list string) : list (string * nat) :=
  flat_map (fun q => [(q, 0); (q, 1); (q, 2); (q, 3)]) queues.

(* graderStatusResponse and its parts, frontend_handler.go:33-50. *)
Record graderRunningStatus : Type := mkGR { RunnerName : string; RunID : Z }.
Record graderStatusResponse : Type := mkResp {
  Status : string;
  BoadcasterSockets : nat;
  EmbeddedRunner : bool;
  Running : list graderRunningStatus;
  RunQueueLength : nat;
  RunnerQueueLength : nat;
  Runners : list string
}.

(* The handler of /grader/status/, frontend_handler.go:511-531; [order] as in
   GetRunData, [queues] the order of the queues, [others] what goes on meanwhile. *)
Definition grader_status (x : sq) (order : list (N * nat)) (queues : list string) (others : list (list sq_event)) :
    option graderStatusResponse :=
  match GetRunData x order with
  | None => None
  | Some data =>
    Some (mkResp "ok" 0 false
            (map (fun d => mkGR (Runner d) (ID d)) data)
            (read_lengths x (reads_of queues) others) 0 [])
  end.

(* The JSON of a response, frontend_handler.go:33-50 (the struct tags) and 532-536;
   [Runners] is []string{}, not nil, and Running is made: both are arrays. *)
Definition status_json (r : graderStatusResponse) : json :=
  JObj [
    ("status", JStr (Status r));
    ("broadcaster_sockets", JInt (Z.of_nat (BoadcasterSockets r)));
    ("embedded_runner", JBool (EmbeddedRunner r));
    ("queue", JObj [
      ("running", JArr (map (fun g => JObj [("name", JStr (RunnerName g)); ("id", JInt (RunID g))]) (Running r)));
      ("run_queue_length", JInt (Z.of_nat (RunQueueLength r)));
      ("runner_queue_length", JInt (Z.of_nat (RunnerQueueLength r)));
      ("runners", JArr (map JStr (Runners r)))])].

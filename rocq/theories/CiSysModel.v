(* cmd/omegaup-grader/ci.go, lines 189-224, 584-588, 713-1019: the continuous
   integration service as a whole: the requests, the goroutine that runs them, the
   files it keeps and the crashes of the process.  Commits (a problem and a hash)
   are numbered: different ones have different directories and keys (C53). *)
From Coq Require Import List Bool Arith ZArith.
From Verif Require Import GoBase CiModel.
Import ListNotations.
Local Open Scope list_scope.

(* A commit's directory: whether .running and report.json.gz are in it, and the
   state the latter shows.  Temporary files of Write are left out. *)
Record dir := { stamp : bool; report : option Z }.

(* Where a request is (ServeHTTP, from line 743 on; its method and path are fine). *)
Inductive answer := Served (state : Z) | NotFound | Failed500 | Accepted.
Inductive request :=
| Arrived (c : nat)             (* before os.Open of the report, line 743 *)
| Missing (c : nat)             (* it was not there: before the checks of lines 761-794 *)
| Checked (c : nat)             (* before MkdirAll, line 801 *)
| Made (c : nat)                (* before OpenFile with O_EXCL of the stamp, line 807 *)
| Stamped (c : nat)             (* before the first Write, line 819 *)
| Sending (c : nat)             (* answered; before reportChan <- report, line 834 *)
| Answered (c : nat) (a : answer).

(* What the goroutine run (lines 941-990) does once the current item is dealt with:
   go on walking the directories, or wait for the next request. *)
Inductive after := ToReload (todo : list nat) | ToIdle.
Inductive place :=
| Reload (todo : list nat)      (* filepath.Walk, lines 949-975: the directories to visit *)
| Caching (c : nat) (a : after)    (* addRunToCache, lines 908-939 *)
| Evicting (a : after)             (* inside lruCache.Get/Put: entries may have to go *)
| Removing (c : nat) (e : bool) (a : after)  (* os.RemoveAll(dir c): of an evicted entry (e) or not *)
| Idle                          (* the select of line 981 *)
| Start (c : nat)               (* processCIRequest, line 837 *)
| Running (c : nat)             (* its loop, line 873 *)
| Finished (c : nat)            (* before os.Remove of the stamp, line 898 *)
| Stopped.                      (* doneChan closed, line 983 *)

Record state := {
  fs : nat -> option dir;
  requests : list request;
  chan : list nat;        (* reportChan, with room for 128 *)
  cache : list nat;       (* the keys in lruCache *)
  at_ : place
}.
Definition set_fs (s : state) (c : nat) (d : option dir) : state :=
  {| fs := fun x => if Nat.eqb x c then d else fs s x; requests := requests s; chan := chan s; cache := cache s; at_ := at_ s |}.
Definition set_req (s : state) (i : nat) (r : request) : state :=
  {| fs := fs s; requests := upd (requests s) i r; chan := chan s; cache := cache s; at_ := at_ s |}.
Definition add_req (s : state) (r : request) : state :=
  {| fs := fs s; requests := requests s ++ [r]; chan := chan s; cache := cache s; at_ := at_ s |}.
Definition set_chan (s : state) (l : list nat) : state :=
  {| fs := fs s; requests := requests s; chan := l; cache := cache s; at_ := at_ s |}.
Definition set_cache (s : state) (l : list nat) : state :=
  {| fs := fs s; requests := requests s; chan := chan s; cache := l; at_ := at_ s |}.
Definition set_at (s : state) (p : place) : state :=
  {| fs := fs s; requests := requests s; chan := chan s; cache := cache s; at_ := p |}.
Definition then_ (a : after) : place := match a with ToReload todo => Reload todo | ToIdle => Idle end.

(* Write, lines 189-224: the new report is put in place by a rename, or nothing
   changes.  It fails if the directory is not there, and can fail anyway. *)
Inductive write (s : state) (c : nat) (v : Z) : bool -> state -> Prop :=
| write_ok : forall d, fs s c = Some d -> write s c v true (set_fs s c (Some {| stamp := stamp d; report := Some v |}))
| write_fails : write s c v false s.

(* What can be seen: the answers, failing writes and removals, and crashes. *)
Inductive event := Answers (c : nat) (a : answer) | OpenFails (c : nat) | WriteFails (c : nat) | RemoveFails (c : nat) | Crash | Tau.

(* lines 743-835 *)
Inductive req_step (s : state) : event -> state -> Prop :=
| rq_arrives : forall c, req_step s Tau (add_req s (Arrived c))
| rq_serve : forall i c d v, nth_error (requests s) i = Some (Arrived c) -> fs s c = Some d -> report d = Some v ->
    req_step s (Answers c (Served v)) (set_req s i (Answered c (Served v)))
| rq_missing : forall i c, nth_error (requests s) i = Some (Arrived c) -> (forall d, fs s c = Some d -> report d = None) ->
    req_step s Tau (set_req s i (Missing c))
| rq_open_fails : forall i c, nth_error (requests s) i = Some (Arrived c) ->   (* any error is taken for a missing report *)
    req_step s (OpenFails c) (set_req s i (Missing c))
| rq_unknown : forall i c, nth_error (requests s) i = Some (Missing c) ->
    req_step s (Answers c NotFound) (set_req s i (Answered c NotFound))
| rq_checked : forall i c, nth_error (requests s) i = Some (Missing c) -> req_step s Tau (set_req s i (Checked c))
| rq_mkdir : forall i c, nth_error (requests s) i = Some (Checked c) ->
    req_step s Tau (set_req (set_fs s c (Some (match fs s c with Some d => d | None => {| stamp := false; report := None |} end))) i (Made c))
| rq_mkdir_fails : forall i c, nth_error (requests s) i = Some (Checked c) ->
    req_step s (Answers c Failed500) (set_req s i (Answered c Failed500))
| rq_stamp : forall i c d, nth_error (requests s) i = Some (Made c) -> fs s c = Some d -> stamp d = false ->
    req_step s Tau (set_req (set_fs s c (Some {| stamp := true; report := report d |})) i (Stamped c))
| rq_stamp_fails : forall i c, nth_error (requests s) i = Some (Made c) ->   (* it exists, or for another reason *)
    req_step s (Answers c Failed500) (set_req s i (Answered c Failed500))
| rq_write : forall i c s', nth_error (requests s) i = Some (Stamped c) -> write s c CIStateWaiting true s' ->
    req_step s (Answers c Accepted) (set_req s' i (Sending c))
| rq_write_fails : forall i c s', nth_error (requests s) i = Some (Stamped c) -> write s c CIStateWaiting false s' ->
    req_step s (Answers c Failed500) (set_req s' i (Answered c Failed500))
| rq_send : forall i c, nth_error (requests s) i = Some (Sending c) -> length (chan s) < 128 ->
    req_step s Tau (set_req (set_chan s (chan s ++ [c])) i (Answered c Accepted)).

Definition wrote (c : nat) (ok : bool) : event := if ok then Tau else WriteFails c.
Definition uncached (l : list nat) (c : nat) : list nat := filter (fun x => negb (Nat.eqb x c)) l.
Inductive run_step (s : state) : event -> state -> Prop :=
(* line 955-973: a directory that is gone or is not one is skipped *)
| rl_gone : forall c todo, at_ s = Reload (c :: todo) -> fs s c = None -> run_step s Tau (set_at s (Reload todo))
| rl_unfinished : forall c todo d, at_ s = Reload (c :: todo) -> fs s c = Some d -> stamp d = true ->
    run_step s Tau (set_at s (Removing c false (ToReload todo)))
| rl_finished : forall c todo d, at_ s = Reload (c :: todo) -> fs s c = Some d -> stamp d = false ->
    run_step s Tau (set_at s (Caching c (ToReload todo)))
| rl_done : at_ s = Reload [] -> run_step s Tau (set_at s Idle)
(* lines 908-939.  The entry's size is taken unless it is in the cache already. *)
| ca_put : forall c a, at_ s = Caching c a -> run_step s Tau (set_at (set_cache s (c :: uncached (cache s) c)) (Evicting a))
| ca_fails : forall c a, at_ s = Caching c a -> ~ In c (cache s) -> run_step s Tau (set_at s (Removing c false a))
(* base.LRUCache, not modelled: any entries can be evicted.  ciSizedEntry.Release, lines 584-588. *)
| ev_one : forall c a, at_ s = Evicting a -> In c (cache s) -> run_step s Tau (set_at (set_cache s (uncached (cache s) c)) (Removing c true a))
| ev_done : forall a, at_ s = Evicting a -> run_step s Tau (set_at s (then_ a))
(* os.RemoveAll: the files in any order, then the directory; or it gives up. *)
| rm_stamp : forall c e a d, at_ s = Removing c e a -> fs s c = Some d -> run_step s Tau (set_fs s c (Some {| stamp := false; report := report d |}))
| rm_report : forall c e a d, at_ s = Removing c e a -> fs s c = Some d -> run_step s Tau (set_fs s c (Some {| stamp := stamp d; report := None |}))
| rm_done : forall c e a, at_ s = Removing c e a -> (forall d, fs s c = Some d -> stamp d = false /\ report d = None) ->
    run_step s Tau (set_at (set_fs s c None) (if e then Evicting a else then_ a))
| rm_fails : forall c e a, at_ s = Removing c e a -> run_step s (RemoveFails c) (set_at s (if e then Evicting a else then_ a))
(* line 981 *)
| id_stop : at_ s = Idle -> run_step s Tau (set_at s Stopped)
| id_take : forall c l, at_ s = Idle -> chan s = c :: l -> run_step s Tau (set_at (set_chan s l) (Start c))
(* processCIRequest, lines 837-906: a commit that cannot be configured *)
| st_fails : forall c v ok s', at_ s = Start c -> In v [CIStateSkipped; CIStateError] -> write s c v ok s' -> run_step s (wrote c ok) (set_at s' Idle)
| st_ok : forall c ok s', at_ s = Start c -> write s c CIStateWaiting ok s' -> run_step s (wrote c ok) (set_at s' (Running c))
| wk_test : forall c ok s', at_ s = Running c -> write s c CIStateRunning ok s' -> run_step s (wrote c ok) s'
| wk_last : forall c v ok s', at_ s = Running c -> In v [CIStatePassed; CIStateFailed; CIStateError] -> write s c v ok s' -> run_step s (wrote c ok) (set_at s' (Finished c))
| wk_unstamp : forall c d, at_ s = Finished c -> fs s c = Some d -> run_step s Tau (set_at (set_fs s c (Some {| stamp := false; report := report d |})) (Caching c ToIdle))
| wk_unstamp_fails : forall c, at_ s = Finished c -> run_step s (RemoveFails c) (set_at s (Caching c ToIdle)).

(* The process dies at any point (also by a panic, C52) and is started again: only
   the files are left.  The walk will visit every directory there is. *)
Inductive crash_step (s : state) : event -> state -> Prop :=
| crashes : forall todo, NoDup todo -> (forall c, fs s c <> None -> In c todo) ->
    crash_step s Crash {| fs := fs s; requests := []; chan := []; cache := []; at_ := Reload todo |}.

Inductive step (s : state) (e : event) (s' : state) : Prop :=
| st_req : req_step s e s' -> step s e s'
| st_run : run_step s e s' -> step s e s'
| st_crash : crash_step s e s' -> step s e s'.

(* The first start: nothing there. *)
Definition init : state := {| fs := fun _ => None; requests := []; chan := []; cache := []; at_ := Reload [] |}.

(* The runner's I/O lock (cmd/omegaup-runner/main.go:55, 613-641, runner/benchmark.go:
   190-237, common/inputmanager.go:323-362): who adds, uses and releases inputs, and when.

   A goroutine that uses inputs is a [code], read off the function it runs; what an input
   does on the disk when it is added is a program of InModel, carried out operation by
   operation.  base.LRUCache is not part of the repository and taken by its contract, as
   in PoolModel.v: Get of a cached entry returns one more reference to it; Get of another
   runs the function it is given, at most one per entry at a time, and keeps what it
   returns; Put takes a reference back and may then, in the same goroutine, evict entries
   without references, which calls their Release, that is, Delete. *)
From Coq Require Import String Ascii List Arith Bool.
From Verif Require Import GoStr InModel PoolModel.
Import ListNotations.
Local Open Scope string_scope.

Inductive code :=
| Stop
| Lock (m : nat) (k : code)                       (* ioLock.Lock(), of the mutex m *)
| Unlock (m : nat) (k : code)
| Add (hash : string) (how : prog) (ok failed : code)   (* inputManager.Add; how: what the cache's function does *)
| Work (ok failed : code)                         (* something else, that ends well or badly *)
| Release (k : code)                              (* inputRef.Release() of the reference taken last *)
| RemoveEntry (p : path) (k : code).              (* os.RemoveAll *)
Definition ioLock : nat := 0.

(* gradeRun, main.go:593-641, from the lock (line 615) on: the input, the header of the upload, the
   grading.  Unlock and Release are deferred, and run last to first. *)
Definition gradeRun (hash : string) (how : prog) : code :=
  let unlock := Unlock ioLock Stop in
  let release := Release unlock in
  Lock ioLock (Add hash how (Work (Work release release) release) unlock).

(* RunHostBenchmark, benchmark.go:190-237: the cases' inputs are all released at the end. *)
Fixpoint releases (n : nat) (k : code) : code := match n with O => k | S n => Release (releases n k) end.
Fixpoint benchmark_cases (n : nat) (cases : list (string * prog)) : code :=
  let unlock := Unlock ioLock Stop in
  match cases with
  | [] => releases n unlock
  | (hash, how) :: cases => Add hash how (Work (benchmark_cases (S n) cases) (releases (S n) unlock)) (releases n unlock)
  end.
Definition RunHostBenchmark (cases : list (string * prog)) : code := Lock ioLock (benchmark_cases 0 cases).

(* PreloadInputs, inputmanager.go:323-362, with the mutex m: the entries of the
   directories that are inputs, as they were when the directory was read (before the lock
   is taken): hash, what adding it does, path of the entry. *)
Fixpoint PreloadInputs (m : nat) (entries : list (string * prog * path)) : code :=
  match entries with
  | [] => Stop
  | (hash, how, p) :: entries =>
      let next := Unlock m (PreloadInputs m entries) in
      Lock m (Add hash how (Release next) (RemoveEntry p next))
  end.

(* ---- executions ---- *)
Inductive doing :=
| Nothing
| Creating (hash : string) (p : prog)             (* in the cache's Get *)
| Evicting                                        (* in the cache's Put *)
| Deleting (hash : string) (p : prog).
Record thread := { now : code; held : list (string * nat) (* last first *); busy_with : doing }.
Record state := { disk : fs; cache : list (string * list nat); locked_by : nat -> option nat; threads : list thread }.

Fixpoint put {A} (i : nat) (a : A) (l : list A) : list A :=
  match i, l with O, _ :: l => a :: l | S i, x :: l => x :: put i a l | _, [] => [] end.
Definition refs (s : state) (hash : string) : option (list nat) :=
  match find (fun x => fst x =? hash) (cache s) with Some (_, l) => Some l | None => None end.
(* Some goroutine creates or deletes it. *)
Definition in_the_making (s : state) (hash : string) : Prop :=
  exists i t p, nth_error (threads s) i = Some t /\ (busy_with t = Creating hash p \/ busy_with t = Deleting hash p).
Definition unused (s : state) (id : nat) : Prop := forall h l, In (h, l) (cache s) -> ~ In id l.
Definition thread_does (s : state) (i : nat) (t : thread) (f : fs) (c : list (string * list nat)) (m : nat -> option nat) : state :=
  {| disk := f; cache := c; locked_by := m; threads := put i t (threads s) |}.
Definition set_lock (m : nat) (o : option nat) (l : nat -> option nat) : nat -> option nat := fun x => if Nat.eqb x m then o else l x.

Inductive event :=
| Starts (c : code)                               (* a new goroutine *)
| Locks (m : nat) | Unlocks (m : nat)
| Gets (hash : string) (id : nat)                 (* Add returns the reference id *)
| Misses (hash : string)                          (* Add: it has to be created *)
| Fails (hash : string)                           (* Add returns an error *)
| Operates                                        (* one operation on the disk, or looking at it *)
| Works (well : bool)
| Releases (hash : string) (id : nat)
| Evicts (hash : string) | Evicted                (* Put evicts an entry; is done *)
| Removes (p : path).

Section Steps.
Variable delete : string -> prog.                 (* Delete of the input with that hash *)

Inductive step (s : state) : nat -> event -> state -> Prop :=
| does_start : forall c, step s (length (threads s)) (Starts c)
    {| disk := disk s; cache := cache s; locked_by := locked_by s; threads := threads s ++ [{| now := c; held := []; busy_with := Nothing |}] |}
| does_lock : forall i m k h, nth_error (threads s) i = Some {| now := Lock m k; held := h; busy_with := Nothing |} -> locked_by s m = None ->
    step s i (Locks m) (thread_does s i {| now := k; held := h; busy_with := Nothing |} (disk s) (cache s) (set_lock m (Some i) (locked_by s)))
| does_unlock : forall i m k h, nth_error (threads s) i = Some {| now := Unlock m k; held := h; busy_with := Nothing |} ->
    step s i (Unlocks m) (thread_does s i {| now := k; held := h; busy_with := Nothing |} (disk s) (cache s) (set_lock m None (locked_by s)))
| does_hit : forall i hash how ok failed h id l, nth_error (threads s) i = Some {| now := Add hash how ok failed; held := h; busy_with := Nothing |} ->
    refs s hash = Some l -> unused s id ->
    step s i (Gets hash id) (thread_does s i {| now := ok; held := (hash, id) :: h; busy_with := Nothing |} (disk s) (update (cache s) hash (Some (id :: l))) (locked_by s))
| does_miss : forall i hash how ok failed h, nth_error (threads s) i = Some {| now := Add hash how ok failed; held := h; busy_with := Nothing |} ->
    refs s hash = None -> ~ in_the_making s hash ->
    step s i (Misses hash) (thread_does s i {| now := Add hash how ok failed; held := h; busy_with := Creating hash how |} (disk s) (cache s) (locked_by s))
| does_create : forall i c h hash p p' f, nth_error (threads s) i = Some {| now := c; held := h; busy_with := Creating hash p |} -> op_step p (disk s) p' f ->
    step s i Operates (thread_does s i {| now := c; held := h; busy_with := Creating hash p' |} f (cache s) (locked_by s))
| does_add : forall i hash how ok failed h id z,
    nth_error (threads s) i = Some {| now := Add hash how ok failed; held := h; busy_with := Creating hash (Ret (Nil z)) |} -> refs s hash = None -> unused s id ->
    step s i (Gets hash id) (thread_does s i {| now := ok; held := (hash, id) :: h; busy_with := Nothing |} (disk s) ((hash, [id]) :: cache s) (locked_by s))
| does_fail : forall i hash how ok failed h,
    nth_error (threads s) i = Some {| now := Add hash how ok failed; held := h; busy_with := Creating hash (Ret Err) |} ->
    step s i (Fails hash) (thread_does s i {| now := failed; held := h; busy_with := Nothing |} (disk s) (cache s) (locked_by s))
| does_work : forall i ok failed h (well : bool), nth_error (threads s) i = Some {| now := Work ok failed; held := h; busy_with := Nothing |} ->
    step s i (Works well) (thread_does s i {| now := if well then ok else failed; held := h; busy_with := Nothing |} (disk s) (cache s) (locked_by s))
| does_release : forall i k hash id h l, nth_error (threads s) i = Some {| now := Release k; held := (hash, id) :: h; busy_with := Nothing |} ->
    refs s hash = Some l ->
    step s i (Releases hash id) (thread_does s i {| now := k; held := h; busy_with := Evicting |} (disk s) (update (cache s) hash (Some (remove Nat.eq_dec id l))) (locked_by s))
| does_evict : forall i c hash h, nth_error (threads s) i = Some {| now := c; held := h; busy_with := Evicting |} -> refs s hash = Some [] ->
    step s i (Evicts hash) (thread_does s i {| now := c; held := h; busy_with := Deleting hash (delete hash) |} (disk s) (update (cache s) hash None) (locked_by s))
| does_delete : forall i c h hash p p' f, nth_error (threads s) i = Some {| now := c; held := h; busy_with := Deleting hash p |} -> op_step p (disk s) p' f ->
    step s i Operates (thread_does s i {| now := c; held := h; busy_with := Deleting hash p' |} f (cache s) (locked_by s))
| does_deleted : forall i c h hash r, nth_error (threads s) i = Some {| now := c; held := h; busy_with := Deleting hash (Ret r) |} ->
    step s i Operates (thread_does s i {| now := c; held := h; busy_with := Evicting |} (disk s) (cache s) (locked_by s))
| does_evicted : forall i c h, nth_error (threads s) i = Some {| now := c; held := h; busy_with := Evicting |} ->
    step s i Evicted (thread_does s i {| now := c; held := h; busy_with := Nothing |} (disk s) (cache s) (locked_by s))
| does_remove : forall i p k h f, nth_error (threads s) i = Some {| now := RemoveEntry p k; held := h; busy_with := Nothing |} ->
    (* what RemoveAll leaves if it fails is any part of it *)
    (forall q, f q = disk s q \/ strip p q <> None /\ f q = None) ->
    step s i (Removes p) (thread_does s i {| now := k; held := h; busy_with := Nothing |} f (cache s) (locked_by s)).
End Steps.

(* The processes start with an empty cache and what is on the disk. *)
Definition start (f : fs) : state := {| disk := f; cache := []; locked_by := fun _ => None; threads := [] |}.

(* The runner: runs, benchmarks and the preloading, any number of each, all with ioLock. *)
Section Runner.
Variable digest : string -> string.
Variable settings_ok : string -> bool.
Variable root : path.                             (* the directory "input" *)
Definition runner_how (hash : string) (src : source) : prog := source_add digest settings_ok (input_path root hash) src.
Definition runner_delete (hash : string) : prog := runner_Delete (input_path root hash) (Ret Err).
(* Which hashes, which sources of inputs and which names of directories there are. *)
Variable hash_ok : string -> Prop.
Variable source_ok : source -> Prop.
Variable listed : string -> Prop.
Inductive runner_code : code -> Prop :=
| is_run : forall hash src, hash_ok hash -> source_ok src -> runner_code (gradeRun hash (runner_how hash src))                                                    (* main.go:615-641 *)
| is_benchmark : forall cases, (forall h src, In (h, src) cases -> hash_ok h /\ source_ok src) -> runner_code (RunHostBenchmark (map (fun c => (fst c, runner_how (fst c) (snd c))) cases))        (* main.go:337-356; each turn of the loop is a new goroutine here *)
| is_preload : forall hashes, Forall listed hashes -> runner_code (PreloadInputs ioLock (map (fun h => (h, runner_how h Cached, input_path root h)) hashes)).  (* main.go:286-290 *)
End Runner.

(* The grader: handlers and CI add inputs without a lock (frontend_handler.go:387,
   runner_handler.go:238-247, ephemeral.go:129, ci.go:625); the preloading has a mutex
   of its own (cmd/omegaup-grader/main.go:194-198). *)
Section Grader.
Variable digest : string -> string.
Variable archive : string -> path.                (* of the input with that hash *)
Definition grader_delete (hash : string) : prog := grader_Delete (archive hash) (Ret Err).
Inductive grader_code : code -> Prop :=
| is_use : forall hash body trailer total walk_ok,
    grader_code (Add hash (grader_add digest (archive hash) body trailer total walk_ok) (Work (Release Stop) (Release Stop)) Stop)
| is_grader_preload : forall hashes,
    grader_code (PreloadInputs 1 (map (fun h => (h, grader_cached_add digest (archive h), archive h)) hashes)).
End Grader.

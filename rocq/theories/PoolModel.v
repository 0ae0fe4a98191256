(* common/inputmanager.go: several inputs at the same time, and PreloadInputs. *)
From Coq Require Import String Ascii List Bool ZArith.
From Verif Require Import GoStr InModel.
Import ListNotations.
Local Open Scope string_scope.

(* runner/input.go:64-69, 352, 405-409: the path of an input below the directory
   root: the first two characters of the hash, then the others.  (For a shorter
   hash the slicing panics; not modelled.) *)
Definition input_path (root : path) (hash : string) : path :=
  match hash with
  | String a (String b rest) => (root ++ [String a (String b ""); rest])%list
  | _ => root
  end.

(* What a factory's input does when it is added (InputManager.Add, with the
   input's Verify, Delete and Persist). *)
Inductive source :=
| FromStream (stream : string) (readable : bool) (es : list entry) (clean : bool) (streamHash : string) (* runner/input.go: Input, runnerTarInput *)
| Cached                                        (* runner/input.go:326-332: Persist is unimplemented *)
| InMemory (files : list (string * string)).    (* common/literalinput.go *)

Section Pool.
Variable digest : string -> string.
Variable settings_ok : string -> bool.

Definition cached_add (p : path) : prog := add (runner_Verify digest settings_ok p) (runner_Delete p) (Ret Err).
Definition source_add (p : path) (s : source) : prog :=
  match s with
  | FromStream stream readable es clean streamHash => runner_add digest settings_ok p stream readable es clean streamHash
  | Cached => cached_add p
  | InMemory files => literal_runner_add digest p files
  end.

(* ---- Several at the same time ---- *)
(* base.LRUCache is not part of the repository.  By its contract: Get of an entry
   that is in the cache returns one more reference to it; Get of one that is not
   runs the function it was given, once, before anyone else gets the entry, and
   keeps what it returns; Put takes a reference back; only an entry without
   references is evicted, which calls Release on it, that is, Delete (runner/
   input.go:321-323, common/literalinput.go:570-572).  What the functions for
   different entries do is interleaved in any way, operation by operation. *)
Record sys := { disk : fs; running : list (string * prog); cache : list (string * list nat) }.

Inductive event := Begin (hash : string) (src : source) | Op (hash : string) | Get (hash : string) (id : nat) | Done (hash : string) | Release (hash : string) (id : nat) | Evict (hash : string).

Definition refs (s : sys) (hash : string) : option (list nat) :=
  match find (fun x => fst x =? hash) (cache s) with Some (_, l) => Some l | None => None end.
Definition busy (s : sys) (hash : string) : Prop := exists p, In (hash, p) (running s).
(* The first entry of the hash is replaced, or removed. *)
Fixpoint update {A} (l : list (string * A)) (hash : string) (x : option A) : list (string * A) :=
  match l with
  | [] => []
  | (k, v) :: l => if k =? hash then match x with Some y => (k, y) :: l | None => l end else (k, v) :: update l hash x
  end.

(* One operation of a program. *)
Inductive op_step : prog -> fs -> prog -> fs -> Prop :=
| op_look : forall k f, op_step (Look k) f (k f) f
| op_works : forall o k f f', apply o f = Some f' -> op_step (Do o k) f (k true) f'
| op_fails : forall o k f, op_step (Do o k) f (k false) f.

(* Get hash id: a call of Add returns the reference id. *)
Inductive step (root : path) : sys -> event -> sys -> Prop :=
| step_hit : forall s hash id l, refs s hash = Some l -> (forall h l, In (h, l) (cache s) -> ~ In id l) ->
    step root s (Get hash id) {| disk := disk s; running := running s; cache := update (cache s) hash (Some (id :: l)) |}
| step_miss : forall s hash src, refs s hash = None -> ~ busy s hash ->
    step root s (Begin hash src) {| disk := disk s; running := (hash, source_add (input_path root hash) src) :: running s; cache := cache s |}
| step_op : forall s hash p p' f', In (hash, p) (running s) -> op_step p (disk s) p' f' ->
    step root s (Op hash) {| disk := f'; running := update (running s) hash (Some p'); cache := cache s |}
| step_added : forall s hash id z, In (hash, Ret (Nil z)) (running s) -> refs s hash = None -> (forall h l, In (h, l) (cache s) -> ~ In id l) ->
    step root s (Get hash id) {| disk := disk s; running := update (running s) hash None; cache := (hash, [id]) :: cache s |}
| step_failed : forall s hash, In (hash, Ret Err) (running s) ->
    step root s (Done hash) {| disk := disk s; running := update (running s) hash None; cache := cache s |}
| step_release : forall s hash id l, refs s hash = Some l -> In id l ->
    step root s (Release hash id) {| disk := disk s; running := running s; cache := update (cache s) hash (Some (remove Nat.eq_dec id l)) |}
| step_evict : forall s hash, refs s hash = Some [] ->
    step root s (Evict hash) {| disk := disk s; running := (hash, runner_Delete (input_path root hash) (Ret Err)) :: running s; cache := update (cache s) hash None |}.
Inductive steps (root : path) : sys -> list event -> sys -> Prop :=
| steps_nil : forall s, steps root s [] s
| steps_cons : forall s e s1 es s2, step root s e s1 -> steps root s1 es s2 -> steps root s (e :: es) s2.

(* ---- PreloadInputs, common/inputmanager.go:323-362 ---- *)
(* Running one program after another. *)
Fixpoint bind (p : prog) (k : answer -> prog) : prog :=
  match p with
  | Ret r => k r
  | Do o q => Do o (fun b => bind (q b) k)
  | Look q => Look (fun f => bind (q f) k)
  end.
(* The body of the inner loop (lines 342-357), for an input at p: the path of the
   directory entry is that of the input.  The locking and the references taken
   and given back are not modelled, nor evictions (the cache is large enough). *)
Definition preload_one (p : path) (add : prog) (k : prog) : prog :=
  bind add (fun r => match r with Err => Do (RemoveAll p) (fun _ => k) | Nil _ => k end).
(* The loops, over the entries that are inputs by GetInputHash: for a runner
   (runner/input.go:363-368), directories d/xx/name. *)
Fixpoint runner_preload (entries : list (path * string)) : prog :=
  match entries with
  | [] => Ret (Nil None)
  | (d, name) :: entries => preload_one (d ++ [name])%list (cached_add (d ++ [name])%list) (runner_preload entries)
  end.
(* For the grader (grader/input.go:390-460), files d/xx/name with the suffix .tar.gz. *)
Definition grader_cached_add (a : path) : prog :=
  add (fun f => match grader_Verify digest a f with Some (size, _, _) => Some size | None => None end) (grader_Delete a) (Ret Err).
Fixpoint grader_preload (entries : list path) : prog :=
  match entries with
  | [] => Ret (Nil None)
  | a :: entries => preload_one a (grader_cached_add a) (grader_preload entries)
  end.
End Pool.

(* common/inputmanager.go with the grader's inputs (grader/input.go and
   common/literalinput.go): several at the same time. *)
From Coq Require Import String Ascii List Bool ZArith.
From Verif Require Import GoStr InModel PoolModel.
Import ListNotations.
Local Open Scope string_scope.

(* grader/input.go:393-397, 439-442 and common/literalinput.go:402: the path of
   the archive below the directory root.  (For a shorter hash the slicing panics;
   not modelled.) *)
Definition archive_path (root : path) (hash : string) : path :=
  match hash with
  | String a (String b rest) => (root ++ [String a (String b ""); (rest ++ ".tar.gz")%string])%list
  | _ => root
  end.

(* What a factory's input does when it is added: grader/input.go: Input (body, trailer,
   total and walk_ok as in grader_Persist) and cachedInput, common/literalinput.go. *)
Inductive gsource :=
| FromGit (body trailer : string) (total : Z) (walk_ok : bool)
| CachedArchive
| InMemoryArchive (hash tarfile : string) (total : Z).

Section GPool.
Variable digest : string -> string.

Definition gsource_add (a : path) (s : gsource) : prog :=
  match s with
  | FromGit body trailer total walk_ok => grader_add digest a body trailer total walk_ok
  | CachedArchive => grader_cached_add digest a
  | InMemoryArchive hash tarfile total => literal_grader_add a hash tarfile total
  end.

Inductive gevent := GBegin (hash : string) (src : gsource) | GOp (hash : string) | GGet (hash : string) (id : nat) | GDone (hash : string) | GRelease (hash : string) (id : nat) | GEvict (hash : string).

(* As step in PoolModel.v, with the contract of base.LRUCache given there; Release
   is Delete (grader/input.go:269-271, common/literalinput.go:570-572). *)
Inductive gstep (root : path) : sys -> gevent -> sys -> Prop :=
| gstep_hit : forall s hash id l, refs s hash = Some l -> (forall h l, In (h, l) (cache s) -> ~ In id l) ->
    gstep root s (GGet hash id) {| disk := disk s; running := running s; cache := update (cache s) hash (Some (id :: l)) |}
| gstep_miss : forall s hash src, refs s hash = None -> ~ busy s hash ->
    gstep root s (GBegin hash src) {| disk := disk s; running := (hash, gsource_add (archive_path root hash) src) :: running s; cache := cache s |}
| gstep_op : forall s hash p p' f', In (hash, p) (running s) -> op_step p (disk s) p' f' ->
    gstep root s (GOp hash) {| disk := f'; running := update (running s) hash (Some p'); cache := cache s |}
| gstep_added : forall s hash id z, In (hash, Ret (Nil z)) (running s) -> refs s hash = None -> (forall h l, In (h, l) (cache s) -> ~ In id l) ->
    gstep root s (GGet hash id) {| disk := disk s; running := update (running s) hash None; cache := (hash, [id]) :: cache s |}
| gstep_failed : forall s hash, In (hash, Ret Err) (running s) ->
    gstep root s (GDone hash) {| disk := disk s; running := update (running s) hash None; cache := cache s |}
| gstep_release : forall s hash id l, refs s hash = Some l -> In id l ->
    gstep root s (GRelease hash id) {| disk := disk s; running := running s; cache := update (cache s) hash (Some (remove Nat.eq_dec id l)) |}
| gstep_evict : forall s hash, refs s hash = Some [] ->
    gstep root s (GEvict hash) {| disk := disk s; running := (hash, grader_Delete (archive_path root hash) (Ret Err)) :: running s; cache := update (cache s) hash None |}.
Inductive gsteps (root : path) : sys -> list gevent -> sys -> Prop :=
| gsteps_nil : forall s, gsteps root s [] s
| gsteps_cons : forall s e s1 es s2, gstep root s e s1 -> gsteps root s1 es s2 -> gsteps root s (e :: es) s2.
End GPool.

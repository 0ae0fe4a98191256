(* Readings of what the goroutines that use inputs did. *)
From Coq Require Import String List Arith.
From Verif Require Import InModel InSpec PoolModel IoModel.
Import ListNotations.
Local Open Scope string_scope.

(* Who did what, in order. *)
Inductive execution (allowed : code -> Prop) (delete : string -> prog) (f : fs) : list (nat * event) -> state -> Prop :=
| execution_nil : execution allowed delete f [] (start f)
| execution_snoc : forall tr s i e s', execution allowed delete f tr s -> step delete s i e s' -> (forall c, e = Starts c -> allowed c) ->
    execution allowed delete f (tr ++ [(i, e)]) s'.
(* From a state on. *)
Inductive goes (allowed : code -> Prop) (delete : string -> prog) (s : state) : list (nat * event) -> state -> Prop :=
| goes_nil : goes allowed delete s [] s
| goes_snoc : forall tr s1 i e s2, goes allowed delete s tr s1 -> step delete s1 i e s2 -> (forall c, e = Starts c -> allowed c) ->
    goes allowed delete s (tr ++ [(i, e)]) s2.
(* i has locked m, and not unlocked it since. *)
Definition inside (m i : nat) (tr : list (nat * event)) : Prop :=
  exists tr1 tr2, tr = (tr1 ++ (i, Locks m) :: tr2)%list /\ ~ In (i, Unlocks m) tr2.
(* i got the reference id to the input, and has not released it since. *)
Definition holds (i : nat) (hash : string) (id : nat) (tr : list (nat * event)) : Prop :=
  exists tr1 tr2, tr = (tr1 ++ (i, Gets hash id) :: tr2)%list /\ ~ In (i, Releases hash id) tr2.
(* The files of an input: its directory, and the hashes of what is in it. *)
Definition files_of (root : path) (hash : string) (q : path) : Prop :=
  below (input_path root hash) q \/ below (with_ext (input_path root hash) ".sha1") q.
(* The directories in which inputs are: those of inputs, and those in which one was made
   when the runner was stopped. *)
Definition hash_of_length (n : nat) (hash : string) : Prop := String.length hash = n.
Definition listed_name (n : nat) (name : string) : Prop :=
  hash_of_length n name \/ exists h, hash_of_length n h /\ name = h ++ ".tmp".
(* Everything started has ended. *)
Definition all_ended (s : state) : Prop := forall i t, nth_error (threads s) i = Some t -> now t = Stop /\ held t = [] /\ busy_with t = Nothing.

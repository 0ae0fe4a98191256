(* Specification of the Broadcaster (C29). *)
From Coq Require Import String List Arith ZArith Bool.
From Verif Require Import BcFilterModel BcModel.
Import ListNotations.

(* The messages a subscriber is entitled to, from what the loop did: those
   processed while it is registered that match its filters, in order. *)
Fixpoint entitled (info : nat -> subscriber) (s : nat) (here : bool) (l : list action) : list message :=
  match l with
  | [] => []
  | Registered t :: l' => entitled info s (if Nat.eqb t s then true else here) l'
  | Removed t :: l' => entitled info s (if Nat.eqb t s then false else here) l'
  | Processed m :: l' => if here && matches (info s) m then m :: entitled info s here l' else entitled info s here l'
  end.
(* Whether a subscriber is registered after a log. *)
Fixpoint present (s : nat) (here : bool) (l : list action) : bool :=
  match l with
  | [] => here
  | Registered t :: l' => present s (if Nat.eqb t s then true else here) l'
  | Removed t :: l' => present s (if Nat.eqb t s then false else here) l'
  | Processed _ :: l' => present s here l'
  end.
Definition processed (l : list action) : list message := flat_map (fun a => match a with Processed m => [m] | _ => [] end) l.
Definition count_occ_action (P : action -> bool) (l : list action) : nat := length (List.filter P l).
Definition is_removed (s : nat) (a : action) : bool := match a with Removed t => Nat.eqb t s | _ => false end.
Definition is_registered (s : nat) (a : action) : bool := match a with Registered t => Nat.eqb t s | _ => false end.
(* Each subscriber is subscribed at most once, as the HTTP handler does
   (cmd/omegaup-broadcaster/main.go:305-331). *)
Definition once (evs : list event) : Prop := forall s, (length (List.filter (fun e => match e with CallSubscribe t => Nat.eqb t s | _ => false end) evs) <= 1)%nat.

(* Specification of the frontend (C45, C54-C58). *)
From Coq Require Import String Ascii List ZArith.
From Verif Require Import GoStr InModel FeModel.
Import ListNotations.
Local Open Scope string_scope.

(* A name that denotes an entry of a directory, not the directory or its parent. *)
Definition entry_name (s : string) : Prop := s <> "" /\ s <> "." /\ s <> ".." /\ ~ contains "/" s.
(* Two decimal digits. *)
Definition two_digits (s : string) (z : Z) : Prop :=
  exists a b, s = String a (String b "") /\ is_digit a /\ is_digit b /\ z = (10 * digit_val a + digit_val b)%Z.
(* A GUID: 32 lower-case hexadecimal digits. *)
Definition lower_hex (c : ascii) : Prop := In c (list_ascii_of_string "0123456789abcdef").
Definition is_guid (g : string) : Prop := String.length g = 32%nat /\ forall c, contains c g -> lower_hex c.

(* What a history says. *)
Definition starts_with (whole part : string) : Prop := exists rest, whole = part ++ rest.
Fixpoint created (es : list event) : list string :=
  match es with [] => [] | Creates _ g :: es => g :: created es | _ :: es => created es end.
(* What the thread i queued: the runs with their sources and priorities, in order. *)
Fixpoint queued_by (i : nat) (es : list event) : list (Z * string * Z) :=
  match es with
  | [] => []
  | Queues j id c p :: es => if Nat.eqb i j then (id, c, p) :: queued_by i es else queued_by i es
  | _ :: es => queued_by i es
  end.
Definition ids_queued_by (i : nat) (es : list event) : list Z := map (fun x => fst (fst x)) (queued_by i es).
(* l is l' with some elements left out *)
Inductive sub {A} : list A -> list A -> Prop :=
| sub_nil : sub [] []
| sub_keep x l l' : sub l l' -> sub (x :: l) (x :: l')
| sub_skip x l l' : sub l l' -> sub l (x :: l').

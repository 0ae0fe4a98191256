(* What is claimed of the log of a run (C88). *)
From Coq Require Import String Ascii List Bool Arith.
From Verif Require Import LgModel.
Import ListNotations.
Local Open Scope string_scope.

Section Spec.
Context {record : Type}.
Variable render : nat -> record -> string.

(* The context each context but the first was made from, in order of creation. *)
Definition origins (h : list (op record)) : list nat := flat_map (fun o => match o with DebugContext c => [c] | _ => [] end) h.
(* What is logged with d is heard by c: d is c, or made from one that c hears. *)
Inductive hears (h : list (op record)) (c : nat) : nat -> Prop :=
| itself : hears h c c
| made : forall d e, nth_error (origins h) d = Some e -> hears h c e -> hears h c (S d).
(* What a step adds to the log of c. *)
Inductive adds (h : list (op record)) (c : nat) : op record -> string -> Prop :=
| adds_line : forall d r, hears h c d -> adds h c (Line d r) (render c r)
| adds_other_line : forall d r, ~ hears h c d -> adds h c (Line d r) ""
| adds_piece : forall s, adds h c (Write c s) s
| adds_other_piece : forall d s, d <> c -> adds h c (Write d s) ""
| adds_nothing : forall d, adds h c (DebugContext d) "".
Definition text (l : list string) : string := fold_right append "" l.
End Spec.

(* What a log is made of: lines, and sections: the log of a runner, by its name. *)
Inductive item := ALine (s : string) | ASection (name contents : string).
Definition is_line (s : string) : Prop := exists x, s = x ++ newline /\ ~ In "010"%char (list_ascii_of_string x).
Definition no_newline (s : string) : Prop := ~ In "010"%char (list_ascii_of_string s).
(* The lines before and after the log of a runner. *)
Definition start_line (name : string) : string := "================  " ++ name ++ "  ================" ++ String "010" "".
Definition end_line (name : string) : string := "================ /" ++ name ++ "  ================" ++ String "010" "".
(* Only whole lines, none of which is the end of the section. *)
Definition lines_of (s : string) (l : list string) : Prop := s = text l /\ forall x, In x l -> is_line x.
Definition honest (i : item) : Prop :=
  match i with
  | ALine s => is_line s /\ forall s', s <> "================ " ++ s'
  | ASection name contents => no_newline name /\ exists l, lines_of contents l /\ ~ In (end_line name) l
  end.
Definition item_text (i : item) : string :=
  match i with ALine s => s | ASection name contents => start_line name ++ contents ++ end_line name end.
Definition log_text (l : list item) : string := text (map item_text l).

(* A history made of calls: one step, or a call of AppendLogSection that nothing
   interrupts. *)
Inductive call (record : Type) := Step (o : op record) | Append (c : nat) (name contents : string).
Arguments Step {record}. Arguments Append {record}.
Definition steps {record} (k : call record) : list (op record) := match k with Step o => [o] | Append c name contents => AppendLogSection c name contents end.
Definition whole {record} (k : call record) : Prop := match k with Step (Write _ _) => False | _ => True end.
(* What a call adds to the log of c. *)
Inductive adds_items {record} (render : nat -> record -> string) (h : list (op record)) (c : nat) : call record -> list item -> Prop :=
| items_line : forall d r, hears h c d -> adds_items render h c (Step (Line d r)) [ALine (render c r)]
| items_other_line : forall d r, ~ hears h c d -> adds_items render h c (Step (Line d r)) []
| items_section : forall name contents, adds_items render h c (Append c name contents) [ASection name contents]
| items_other_section : forall d name contents, d <> c -> adds_items render h c (Append d name contents) []
| items_nothing : forall d, adds_items render h c (Step (DebugContext d)) [].

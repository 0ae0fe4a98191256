(* Specification of the runner handlers (C59-C61). *)
From Coq Require Import String Ascii List Bool ZArith.
From Verif Require Import GoStr InModel FeSpec RhModel.
Import ListNotations.
Local Open Scope string_scope.

(* The parts of a body that were received completely, in order. *)
Fixpoint whole_parts (p : parts) : list (string * string) :=
  match p with Part n b p => (n, b) :: whole_parts p | _ => [] end.
(* With the part that was cut off. *)
Fixpoint all_parts (p : parts) : list (string * string) := match p with Part n b p => (n, b) :: all_parts p | CutPart n b => [(n, b)] | _ => [] end.
(* The body was received completely. *)
Fixpoint complete (p : parts) : Prop := match p with Ends => True | Part _ _ p => complete p | _ => False end.
(* The content of the last part with a name. *)
Fixpoint last_part (n : string) (l : list (string * string)) : option string :=
  match l with
  | [] => None
  | (m, b) :: l => match last_part n l with Some c => Some c | None => if m =? n then Some b else None end
  end.
(* The names that are not files. *)
Definition special (n : string) : Prop := n = "details.json" \/ n = "logs.txt" \/ n = "tracing.json".
(* All that must be decoded can be decoded. *)
Definition decodable {res} (decode_result : string -> option res) (decode_tracing : string -> tracing) (l : list (string * string)) : Prop :=
  (forall b, In ("details.json", b) l -> decode_result b <> None) /\ (forall b, In ("tracing.json", b) l -> exists es, decode_tracing b = Decoded es).
(* The events of the traces among some parts. *)
Fixpoint traced (decode_tracing : string -> tracing) (l : list (string * string)) : list TrcModel.event :=
  match l with
  | [] => []
  | (n, b) :: l => ((if n =? "tracing.json" then match decode_tracing b with Decoded es => es | _ => [] end else []) ++ traced decode_tracing l)%list
  end.

(* Requests. *)
Definition all_digits (d : string) : Prop := d <> "" /\ forall c, contains c d -> is_digit c.
Definition word_char (c : ascii) : Prop := In c (list_ascii_of_string "abcdefghijklmnopqrstuvwxyzABCDEFGHIJKLMNOPQRSTUVWXYZ0123456789_-").
Definition word (p : string) : Prop := forall c, contains c p -> word_char c.
Definition is_hash (h : string) : Prop := String.length h = 40%nat /\ forall c, contains c h -> lower_hex c.

(* No two requests for inputs are, at the same time, between the assignment of the
   variable err they share and the test of it. *)
Definition calm (s : state) : Prop := forall i j a b, nth_error (requests s) i = Some (Added a) -> nth_error (requests s) j = Some (Added b) -> i = j.

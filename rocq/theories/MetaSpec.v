(* Specification of sandbox meta files (C25): lines "key:value", the last
   occurrence of a key counts. *)
From Coq Require Import String Ascii List Arith NArith ZArith Bool.
From Verif Require Import MetaModel GradeModel.
Import ListNotations.
Local Open Scope string_scope.

Definition has_char (c : ascii) (s : string) : Prop := In c (list_ascii_of_string s).
(* The lines of a text; the last one may lack its newline. *)
Inductive lines_of : string -> list string -> Prop :=
| lo_nil : lines_of "" []
| lo_last l : l <> "" -> ~ has_char LF l -> lines_of l [l]
| lo_cons l s ls : ~ has_char LF l -> lines_of s ls -> lines_of (l ++ String LF s) (l :: ls).
(* A line without a trailing carriage return. *)
Definition chomped (l l' : string) : Prop :=
  l = l' ++ String CR "" \/ l = l' /\ forall p, l <> p ++ String CR "".
Definition is_field (l : string) (kv : string * string) : Prop :=
  (slen l < 65536)%N /\ chomped l (fst kv ++ ":" ++ snd kv) /\ ~ has_char ":" (fst kv).
(* A line that is no field: no colon in it, or too long. *)
Definition not_field (l : string) : Prop := (65536 <= slen l)%N \/ ~ has_char ":" l.

(* The last field whose key is among [ks]. *)
Definition latest (ks : list string) (fs : list (string * string)) (kv : string * string) : Prop :=
  exists pre post, fs = (pre ++ kv :: post)%list /\ In (fst kv) ks /\ forall kv', In kv' post -> ~ In (fst kv') ks.
Definition absent (ks : list string) (fs : list (string * string)) : Prop := forall kv, In kv fs -> ~ In (fst kv) ks.

Definition exit_of (fs : list (string * string)) (z : Z) : Prop :=
  absent ["status"] fs /\ z = (-1)%Z \/ exists v, latest ["status"] fs ("status", v) /\ z = parse_int v.
Definition memory_of (fs : list (string * string)) (z : Z) : Prop :=
  absent ["mem"] fs /\ z = 0%Z \/ exists v, latest ["mem"] fs ("mem", v) /\ z = parse_int v.
Definition signal_of (fs : list (string * string)) (s : option string) : Prop :=
  let ks := ["signal"; "signal_number"] in
  absent ks fs /\ s = None \/
  exists v, latest ks fs ("signal", v) /\ s = Some v \/ latest ks fs ("signal_number", v) /\ s = Some ("SIGNAL " ++ v).

Definition syscall_of (fs : list (string * string)) (s : option string) : Prop :=
  let ks := ["syscall"; "syscall_number"] in
  absent ks fs /\ s = None \/
  exists v, latest ks fs ("syscall", v) /\ s = Some v \/ latest ks fs ("syscall_number", v) /\ s = Some ("SYSCALL " ++ v).
(* The seconds of the last field [key], 0 without one; [seconds] reads a text. *)
Definition time_of {A : Type} (seconds : string -> A) (zero : A) (key : string) (fs : list (string * string)) (x : A) : Prop :=
  absent [key] fs /\ x = zero \/ exists v, latest [key] fs (key, v) /\ x = seconds v.

(* The value of a string of decimal digits, most significant first. *)
Definition is_digit (c : ascii) : Prop := (48 <= N_of_ascii c <= 57)%N.
Fixpoint value (l : list ascii) : Z :=
  match l with
  | [] => 0%Z
  | c :: l' => ((Z.of_N (N_of_ascii c) - 48) * 10 ^ Z.of_nat (List.length l') + value l')%Z
  end.

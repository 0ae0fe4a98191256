(* C31, C34: what is expected of inputs on disk. *)
From Coq Require Import String Ascii List Bool ZArith.
From Verif Require Import GoStr InModel.
Import ListNotations.
Local Open Scope string_scope.

(* The place of a name of an archive below the directory it is extracted to. *)
Definition rel (name : string) : path := filter (fun s => negb ((s =? "") || (s =? "."))) (split "/" name).
(* A name that does not climb. *)
Definition inside (name : string) : Prop := ~ In ".." (split "/" name).
Definition name_of (e : entry) : string := match e with EDir n => n | EFile n _ => n end.
(* What an archive says the file at r contains: its last entry for it. *)
Fixpoint content (es : list entry) (r : path) : option string :=
  match es with
  | [] => None
  | EDir _ :: es => content es r
  | EFile n c :: es => match content es r with Some c' => Some c' | None => if path_eqb (rel n) r then Some c else None end
  end.
(* The directory p holds the files of the archive: these and no others. *)
Definition stored (f : fs) (p : path) (es : list entry) : Prop :=
  forall r c, f (p ++ r)%list = Some (File c) <-> content es r = Some c.
Fixpoint total_size (es : list entry) : Z :=
  match es with [] => 0 | EDir _ :: es => total_size es | EFile _ c :: es => Z.of_nat (String.length c) + total_size es end.

(* q is p or below. *)
Definition below (p q : path) : Prop := exists r, q = (p ++ r)%list.

(* The text of a SHA-1: 40 hexadecimal digits. *)
Definition hex_digest (digest : string -> string) : Prop :=
  forall s, String.length (digest s) = 40%nat /\ forall c, In c (list_ascii_of_string (digest s)) -> is_hex c = true.
(* A proper name of a directory entry, fit for a line of a text file. *)
Definition segment (s : string) : Prop := s <> "" /\ s <> "." /\ s <> ".." /\ ~ contains "/" s /\ ~ contains LF s /\ ~ contains CR s.
Definition fit (name : string) : Prop := name <> "" /\ inside name /\ ~ contains LF name /\ ~ contains CR name.

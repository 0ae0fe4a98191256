(* Who reaches what. *)
From Coq Require Import String Ascii List ZArith Bool.
From Verif Require Import GoStr CfModel CfSpec.
Import ListNotations.
Local Open Scope string_scope.

(* A pattern that ends in a slash stands for everything below it, others for themselves. *)
Definition covers (h p : string) : Prop := p = h \/ exists a r, h = a ++ "/" /\ p = h ++ r.
Definition most_specific (ps : list string) (p h : string) : Prop :=
  In h ps /\ covers h p /\ forall h', In h' ps -> covers h' p -> (String.length h' <= String.length h)%nat.

(* The path /s1/s2/... or /s1/s2/.../ : nothing empty, no . and no .. *)
Definition proper_name (s : string) : Prop := s <> "" /\ s <> "." /\ s <> ".." /\ ~ contains "/" s.
Inductive canonical : list string -> bool -> string -> Prop :=
| canonical_root : canonical [] true "/"
| canonical_file l : l <> [] -> Forall proper_name l -> canonical l false ("/" ++ join "/" l)
| canonical_dir l : l <> [] -> Forall proper_name l -> canonical l true ("/" ++ join "/" l ++ "/").
(* The rules for ., .. and empty names, from the root. *)
Inductive simplifies : list string -> list string -> Prop :=
| simp_same l : simplifies l l
| simp_empty l1 l2 l : simplifies (l1 ++ l2) l -> simplifies (l1 ++ "" :: l2) l
| simp_dot l1 l2 l : simplifies (l1 ++ l2) l -> simplifies (l1 ++ "." :: l2) l
| simp_up l1 s l2 l : proper_name s -> simplifies (l1 ++ l2) l -> simplifies (l1 ++ s :: ".." :: l2) l
| simp_root l2 l : simplifies l2 l -> simplifies (".." :: l2) l.

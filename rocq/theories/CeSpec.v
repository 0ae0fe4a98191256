(* Vocabulary for what is said about a failed compilation. *)
From Coq Require Import String Ascii List Bool Arith ZArith.
From Verif Require Import GoStr NumModel GradeModel MetaModel CeModel.
Import ListNotations.
Local Open Scope string_scope.

(* What is said of a missing class. *)
Definition no_class_text (target : string) : string :=
  "Class `" ++ target ++ "` not found. Make sure your class is named `" ++ target ++ "` and outside all packages".

(* Nothing is wrong with the machine: the sandbox is started, writes its files, and
   what is appended to the error file fits. *)
Definition smooth (b : binary) (c : sandbox_call) : Prop :=
  sources_ok b = true /\ starts c = true /\ log_ok c = true /\ err_ok c = true /\ class_ok c = true /\
  (exists s, j_out c = Some s) /\ (exists s, j_err c = Some s) /\ (exists s, j_meta c = Some s) /\
  String.length (NL ++ j_says c) <= room c /\ String.length (NL ++ no_class_text (b_target b)) <= class_room c.

Definition text (o : option string) : string := match o with Some s => s | None => "" end.
Definition on_new_line (s : string) : string := if String.eqb s "" then "" else NL ++ s.

(* A Java compilation that succeeded without making the class. *)
Definition no_class (pf : string -> float64) (f : files) (b : binary) (c : sandbox_call) : bool :=
  String.eqb (b_language b) "java" &&
  veqb (d_verdict (fst (parseMetaFile pf None "java" (text (j_meta c)) false false))) OK &&
  negb (existsb (fun x => String.eqb (fst x) (b_target b ++ ".class")) (j_bin c)) &&
  match f (b_name b, InBin (b_target b ++ ".class")) with Some _ => false | None => true end.

(* What the compiler said, what the sandbox said, and that there is no class. *)
Definition said (pf : string -> float64) (f : files) (b : binary) (c : sandbox_call) : string :=
  if String.eqb (b_language b) "pas" || String.eqb (b_language b) "cs" then text (j_out c)
  else text (j_err c) ++ on_new_line (j_says c) ++ (if no_class pf f b c then NL ++ no_class_text (b_target b) else "").

(* The language a program is compiled as: a validator in "cpp" is C++11. *)
Definition compiled_as (b : binary) : string := if b_validator b && String.eqb (b_language b) "cpp" then "cpp11" else b_language b.

(* The meta file cannot be read to its end. *)
Definition malformed (pf : string -> float64) (b : binary) (c : sandbox_call) : bool :=
  snd (parseMetaFile pf None (compiled_as b) (text (j_meta c)) false false).
(* What the runner notes about a compilation. *)
Definition noted (pf : string -> float64) (f : files) (b : binary) (c : sandbox_call) : metadata :=
  let m := fst (parseMetaFile pf None (compiled_as b) (text (j_meta c)) false false) in
  if no_class pf f b c
  then mkMD CE (d_exit m) (d_time m) (d_sys m) (d_wall m) (d_mem m) (d_signal m) (d_syscall m) else m.
Definition accepted (pf : string -> float64) (f : files) (b : binary) (c : sandbox_call) : bool :=
  negb (malformed pf b c) && veqb (d_verdict (noted pf f b c)) OK.

(* The programs up to the first one that is not accepted, included. *)
Fixpoint upto (good : binary * sandbox_call -> bool) (l : list (binary * sandbox_call)) : list (binary * sandbox_call) :=
  match l with [] => [] | x :: l => if good x then x :: upto good l else [x] end.

Definition occurs (p s : string) : Prop := exists a z, s = a ++ p ++ z.

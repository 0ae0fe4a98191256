(* Vocabulary for the validator command. *)
From Coq Require Import List String Ascii ZArith NArith Bool QArith.
From Verif Require Import TokModel ValModel VcModel.
Import ListNotations.
Local Open Scope string_scope.

(* An option of the command line, in each of its spellings. *)
Inductive option_ := Validator (name : string) | Tolerance (text : string).
Definition name_of (o : option_) : string := match o with Validator _ => "validator" | Tolerance _ => "tolerance" end.
Definition value_of (o : option_) : string := match o with Validator v | Tolerance v => v end.
Inductive spelled : option_ -> list string -> Prop :=
| OneDash o : spelled o ["-" ++ name_of o; value_of o]
| TwoDashes o : spelled o ["--" ++ name_of o; value_of o]
| OneDashEq o : spelled o ["-" ++ name_of o ++ "=" ++ value_of o]
| TwoDashesEq o : spelled o ["--" ++ name_of o ++ "=" ++ value_of o].
Inductive all_spelled : list option_ -> list string -> Prop :=
| NoOption : all_spelled [] []
| AnOption o os a l : spelled o a -> all_spelled os l -> all_spelled (o :: os) (a ++ l)%list.

(* What the options say: the last one of each kind counts. *)
Fixpoint last_validator (os : list option_) (before : string) : string :=
  match os with [] => before | Validator v :: os => last_validator os v | _ :: os => last_validator os before end.
Fixpoint last_tolerance (os : list option_) (before : option string) : option string :=
  match os with [] => before | Tolerance t :: os => last_tolerance os (Some t) | _ :: os => last_tolerance os before end.

(* A file's name that is not taken for an option. *)
Definition plain (s : string) : Prop := s = "-" \/ forall t, s <> String "-" t.

(* The number that is printed, in hundredths. *)
Definition shows (s : string) (h : Z) : Prop :=
  exists a b c, (0 <= a < 10 /\ 0 <= b < 10 /\ 0 <= c < 10)%Z /\ h = (100 * a + 10 * b + c)%Z /\
    s = dig a ++ "." ++ dig b ++ dig c ++ LF.

(* Model of CalculateScore and ratClamp, runner/validator.go:14-99 and :134-142.

   The pieces of other packages are parameters of the definitions (and hence
   universally quantified in the theorems): [fold_eq] is strings.EqualFold,
   [num_eq] is tokenNumericEquals with the configured tolerance (its own model
   is NumModel), [parse] is base.ParseRational. *)
From Coq Require Import String List Arith NArith ZArith Bool QArith.
From Verif Require Import TokModel.
Import ListNotations.

Definition token : Type := (bytes * Z * Z)%type.   (* text, line, column *)

Inductive verror : Type :=
| VEUnexpectedEOF               (* io.ErrUnexpectedEOF, line 28 *)
| VEParse                       (* error of ParseRational, line 32 *)
| VEScan (e : rerr)             (* error of a tokenizer, lines 55 and 58 *)
| VEUnknown.                    (* "Unknown validator", line 84 *)

(* (score, mismatch as (contestant, expected), error) *)
Record vresult : Type := mkV {
  score : Q; mismatch : option (option token * option token); verr : option verror
}.

(* ratClamp(value, 0, 1), runner/validator.go:134-142. *)
Definition rat_clamp (v lo hi : Q) : Q :=
  if Qle_bool v lo then lo else if Qle_bool hi v then hi else v.

Definition tok_of (s : scanner) (t : bytes) : token := (t, tline (spos s), tcol (spos s)).

Section Score.
Variable fold_eq num_eq : bytes -> bytes -> bool.
Variable parse : bytes -> option Q.
Variable maxTok : N.

(* tokenEquals, runner/validator.go:101-103. *)
Fixpoint bytes_eqb (a b : bytes) : bool :=
  match a, b with
  | [], [] => true
  | x :: a', y :: b' => (N.eqb x y && bytes_eqb a' b')%bool
  | _, _ => false
  end.

(* The switch of runner/validator.go:65-85; None is the default case. *)
Definition compare (name : string) : option (bytes -> bytes -> bool) :=
  if String.eqb name "token" then Some bytes_eqb
  else if String.eqb name "token-caseless" then Some fold_eq
  else if String.eqb name "token-numeric" then Some num_eq
  else None.

(* The loop of runner/validator.go:40-92. *)
Fixpoint compare_loop (P : N -> bool) (cmp : option (bytes -> bytes -> bool)) (fuel : nat)
         (ex co : scanner) : vresult :=
  match fuel with
  | O => mkV 0 None None
  | S f =>
    let (ex', en) := Scan P maxTok ex in
    let (co', cn) := Scan P maxTok co in
    match en, cn with
    | Some e, Some c =>
      match cmp with
      | None => mkV 0 None (Some VEUnknown)
      | Some eq =>
        if eq e c then compare_loop P cmp f ex' co'
        else mkV 0 (Some (Some (tok_of co' c), Some (tok_of ex' e))) None
      end
    | _, _ =>
      let mm := match en, cn with
                | None, None => None
                | _, _ => Some (option_map (tok_of co') cn, option_map (tok_of ex') en)
                end in
      match en, Err ex', cn, Err co' with
      | None, Some x, _, _ => mkV 0 mm (Some (VEScan x))
      | _, _, None, Some x => mkV 0 mm (Some (VEScan x))
      | _, _, _, _ => mkV (match mm with None => 1 | _ => 0 end) mm None
      end
    end
  end.

Definition CalculateScore (name : string) (expected contestant : reader) : vresult :=
  let P := if String.eqb name "token-numeric" then IsNumeric else IsNonWhitespace in
  let co := new_scanner contestant in
  if (String.eqb name "literal" || String.eqb name "custom")%bool then
    match Scan P maxTok co with
    | (_, None) => mkV 0 None (Some VEUnexpectedEOF)
    | (_, Some t) =>
      match parse t with
      | None => mkV 0 None (Some VEParse)
      | Some v => mkV (rat_clamp v 0 1) None None
      end
    end
  else
    compare_loop P (compare name) (S (length (concat (chunks expected)))) (new_scanner expected) co.
End Score.

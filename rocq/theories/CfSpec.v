(* What a configuration file means. *)
From Coq Require Import String List ZArith Bool.
From Verif Require Import TrcModel RrModel RrSpec CfModel.
Import ListNotations.
Local Open Scope string_scope.
Local Open Scope Z_scope.

(* ---- paths: the names from the outermost struct to a setting ---- *)
Fixpoint type_at (t : ty) (p : list string) {struct p} : option ty :=
  match p, t with
  | [], _ => Some t
  | f :: p, TStruct fs => match find_field fs f with Some t => type_at t p | None => None end
  | _, _ => None
  end.
Fixpoint value_at (v : val) (p : list string) {struct p} : option val :=
  match p, v with
  | [], _ => Some v
  | f :: p, CStruct vs => match find_field vs f with Some v => value_at v p | None => None end
  | _, _ => None
  end.
Definition plain (t : ty) : Prop := match t with TBool | TInt _ _ | TStr => True | _ => False end.
Definition setting (t : ty) (p : list string) (s : ty) : Prop := type_at t p = Some s /\ match s with TStruct _ => False | _ => True end.

(* ---- values of a type ---- *)
Inductive of_type : ty -> val -> Prop :=
| of_bool b : of_type TBool (CBool b)
| of_int lo hi z : lo <= z <= hi -> of_type (TInt lo hi) (CInt z)
| of_str s : of_type TStr (CStr s)
| of_dur z : int64 z -> of_type TDur (CDur z)
| of_byte z : int64 z -> of_type TByte (CByte z)
| of_struct fs vs : Forall2 (fun f v => fst v = fst f /\ of_type (snd f) (snd v)) fs vs -> of_type (TStruct fs) (CStruct vs).
(* Every string of it is valid UTF-8. *)
Inductive text_ok : val -> Prop :=
| text_bool b : text_ok (CBool b)
| text_int z : text_ok (CInt z)
| text_str s : valid s -> text_ok (CStr s)
| text_dur z : text_ok (CDur z)
| text_byte z : text_ok (CByte z)
| text_struct vs : Forall (fun v => text_ok (snd v)) vs -> text_ok (CStruct vs).

Section Documents.
Variable read_dur : Z -> json -> option Z.
Variable read_byte : Z -> json -> option Z.
Variable equal_fold : string -> string -> bool.

(* A name in the file is for the field that is called that, and if there is none for
   the first field that is called that up to case. *)
Definition names (fs : list (string * ty)) (k f : string) : Prop :=
  In f (map fst fs) /\
  (k = f \/ ~ In k (map fst fs) /\ exists before after, map fst fs = (before ++ f :: after)%list /\ equal_fold f k = true /\
                                   forall g, In g before -> equal_fold g k = false).

(* What a document says about a path, in the order in which it says it. *)
Inductive says : ty -> json -> list string -> list json -> Prop :=
| says_here t j : says t j [] [j]
| says_null t f p : says t JNull (f :: p) []
| says_nothing t f p : says t (JObj []) (f :: p) []
| says_more fs t k f j l p js js' :
    names fs k f -> find_field fs f = Some t -> says t j p js -> says (TStruct fs) (JObj l) (f :: p) js' ->
    says (TStruct fs) (JObj ((k, j) :: l)) (f :: p) (js ++ js')
| says_other fs k f j l p js' :
    ~ names fs k f -> says (TStruct fs) (JObj l) (f :: p) js' -> says (TStruct fs) (JObj ((k, j) :: l)) (f :: p) js'.

(* What one setting may be set to. *)
Inductive fits : ty -> json -> Prop :=
| fits_null t : plain t -> fits t JNull
| fits_bool b : fits TBool (JBool b)
| fits_int lo hi z : lo <= z <= hi -> fits (TInt lo hi) (JInt z)
| fits_str s : fits TStr (JStr s)
| fits_dur j : read_dur 0 j <> None -> fits TDur j
| fits_byte j : read_byte 0 j <> None -> fits TByte j
| fits_nothing fs : fits (TStruct fs) JNull
| fits_struct fs l : (forall k j f t, In (k, j) l -> names fs k f -> find_field fs f = Some t -> fits t j) -> fits (TStruct fs) (JObj l).

(* A plain setting is the last thing that was said about it and that is not null. *)
Definition meaning (j : json) : option val :=
  match j with JBool b => Some (CBool b) | JInt z => Some (CInt z) | JStr s => Some (CStr s) | _ => None end.
Inductive ends_as (before : val) : list json -> val -> Prop :=
| ends_unsaid js : (forall j, In j js -> j = JNull) -> ends_as before js before
| ends_said js j js' v : meaning j = Some v -> (forall j', In j' js' -> j' = JNull) -> ends_as before (js ++ j :: js') v.
(* A length of time or a size is read one text after the other. *)
Fixpoint read_all (read : Z -> json -> option Z) (z : Z) (js : list json) : option Z :=
  match js with [] => Some z | j :: js => match read z j with Some z => read_all read z js | None => None end end.
End Documents.
(* A document with a single setting. *)
Definition only (p : list string) (j : json) : json := fold_right (fun f j => JObj [(f, j)]) j p.

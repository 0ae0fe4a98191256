(* What it means for the settings of a problem to arrive. *)
From Coq Require Import String List ZArith QArith.
From Verif Require Import TrcModel RrModel RrSpec StModel.
From Verif Require LitModel.
Import ListNotations.

(* Maps: the names are all different, and are text. *)
Definition mapping_ok {A} (ok : A -> Prop) (m : option (list (string * A))) : Prop :=
  forall l, m = Some l -> NoDup (map fst l) /\ (forall k x, In (k, x) l -> valid k /\ ok x).
(* Both are nil, or have the same names, with the values related. *)
Definition mapping_arrives {A} (R : A -> A -> Prop) : option (list (string * A)) -> option (list (string * A)) -> Prop :=
  both (fun l l' => forall k, both R (get l k) (get l' k)).
Definition any {A} (_ : A) : Prop := True.
Definition texts : option (list string) -> option (list string) -> Prop := both (Forall2 text).

Definition limits_ok (l : limits) : Prop :=
  int64 (LitModel.ExtraWallTime l) /\ int64 (LitModel.MemoryLimit l) /\ int64 (LitModel.OutputLimit l) /\ int64 (LitModel.OverallWallTimeLimit l) /\ int64 (LitModel.TimeLimit l).
Definition interface_ok (i : Interface) : Prop := mapping_ok any (i_Env i) /\ mapping_ok any (i_Files i).
Definition interactive_ok (t : Interactive) : Prop :=
  mapping_ok (mapping_ok (fun i => forall x, i = Some x -> interface_ok x)) (t_Interfaces t) /\ mapping_ok any (t_Templates t).
Definition settings_ok {flt} (s : Settings flt) : Prop :=
  limits_ok (s_Limits s) /\ (forall l, w_Limits (s_Validator s) = Some l -> limits_ok l) /\ (forall t, s_Interactive s = Some t -> interactive_ok t).

Definition rule_arrives (r r' : Rule) : Prop :=
  texts (l_Targets r) (l_Targets r') /\ texts (l_Requisites r) (l_Requisites r') /\ text (l_Compiler r) (l_Compiler r') /\ text (l_Params r) (l_Params r') /\ l_Debug r' = l_Debug r.
Definition interface_arrives (i i' : Interface) : Prop :=
  both (Forall2 rule_arrives) (i_MakefileRules i) (i_MakefileRules i') /\ texts (i_Args i) (i_Args i') /\ mapping_arrives text (i_Env i) (i_Env i') /\
  mapping_arrives text (i_Files i) (i_Files i').
Definition interactive_arrives (t t' : Interactive) : Prop :=
  mapping_arrives (mapping_arrives (both interface_arrives)) (t_Interfaces t) (t_Interfaces t') /\ mapping_arrives text (t_Templates t) (t_Templates t') /\
  text (t_Main t) (t_Main t') /\ text (t_ModuleName t) (t_ModuleName t') /\ text (t_ParentLang t) (t_ParentLang t') /\ text (t_LibinteractiveVersion t) (t_LibinteractiveVersion t').
Section Arrive.
Context {flt : Type} (to_float : Q -> flt) (to_rational : flt -> Q).
Definition case_arrives (c c' : Case) : Prop := text (k_Name c) (k_Name c') /\ score_arrives to_float to_rational (k_Weight c) (k_Weight c').
Definition group_arrives (g g' : Group) : Prop := text (o_Name g) (o_Name g') /\ both (Forall2 case_arrives) (o_Cases g) (o_Cases g').
Definition validator_arrives (v v' : Validator flt) : Prop :=
  both text (w_Lang v) (w_Lang v') /\ text (w_Name v) (w_Name v') /\ w_Tolerance v' = w_Tolerance v /\ w_Limits v' = w_Limits v.
Definition settings_arrives (s s' : Settings flt) : Prop :=
  both (Forall2 group_arrives) (s_Cases s) (s_Cases s') /\ both interactive_arrives (s_Interactive s) (s_Interactive s') /\
  s_Limits s' = s_Limits s /\ s_Slow s' = s_Slow s /\ validator_arrives (s_Validator s) (s_Validator s').
End Arrive.

(* The weights of all cases, and their sum. *)
Definition weights {flt} (s : Settings flt) : list (option Q) := flat_map (fun g => map k_Weight (elements (o_Cases g))) (elements (s_Cases s)).
Fixpoint sum_of (l : list (option Q)) (t : Q) : Prop :=
  match l with [] => (t == 0)%Q | q :: l => exists w t', q = Some w /\ sum_of l t' /\ (t == w + t')%Q end.

(* A document says nothing of f: what it has under that name, in upper or lower case, is null. *)
Definition silent (equal_fold : string -> string -> bool) (l : list (string * json)) (f : string) : Prop :=
  forall k j, In (k, j) l -> k = f \/ equal_fold f k = true -> j = JNull.

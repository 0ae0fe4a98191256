(* What a literal input should become. *)
From Coq Require Import String Ascii List Bool ZArith QArith Sorted Permutation.
From Verif Require Import GoStr LitModel.
Import ListNotations.
Local Open Scope string_scope.

(* The order of strings, byte by byte. *)
Fixpoint before (a b : string) : Prop :=
  match a, b with
  | _, "" => False
  | "", String _ _ => True
  | String x a, String y b => (N_of_ascii x < N_of_ascii y)%N \/ x = y /\ before a b
  end.
(* The group of a case: the text before the first dot. *)
Definition group_of (name g : string) : Prop := ~ contains "." g /\ (name = g \/ exists rest, name = g ++ String "." rest).

Notation cases := (list (string * option literal_case)).
Definition has (l : cases) (name : string) (c : literal_case) (w : Q) : Prop := In (name, Some c) l /\ Weight c = Some w.
Definition weight_of (x : string * option literal_case) : Q := match snd x with Some c => match Weight c with Some w => w | None => 0 end | None => 0 end.
Fixpoint total (l : list Q) : Q := match l with [] => 0 | w :: l => w + total l end.
Definition total_weight (l : cases) : Q := total (map weight_of l).

(* Nothing is nil. *)
Definition complete (l : cases) : Prop := forall name x, In (name, x) l -> exists c w, x = Some c /\ Weight c = Some w.

Definition good_cases (l : cases) : Prop :=
  l <> [] /\ (forall name x, In (name, x) l -> exists c w, x = Some c /\ Weight c = Some w /\ 0 <= w) /\ 0 < total_weight l.
Definition good_validator (v : option literal_validator) : Prop :=
  match v with
  | None => True
  | Some v => In (Name v) ["token"; "token-caseless"; "literal"; "token-numeric"] \/ Name v = "custom" /\ CustomValidator v <> None
  end.
(* A letter or _, then at least one letter or digit; at most 32 characters. *)
Definition good_interface (s : string) : Prop :=
  exists c rest, s = String c rest /\ rest <> "" /\ (String.length s <= 32)%nat /\
    (letter c = true \/ c = "_"%char) /\ (forall x, contains x rest -> letter x = true \/ digit x = true).
Definition languages : list string := ["c"; "c11-gcc"; "c11-clang"; "cpp"; "cpp11"; "cpp17-gcc"; "cpp17-clang"; "kj"; "kp"; "java"; "py"; "py2"; "py3"; "pas"; "rb"; "cat"].
(* The extension of a source file in each of them. *)
Definition extensions : list (string * string) :=
  [("c", "c"); ("c11-gcc", "c"); ("c11-clang", "c"); ("cpp", "cpp"); ("cpp11", "cpp"); ("cpp11-gcc", "cpp"); ("cpp11-clang", "cpp"); ("cpp17-gcc", "cpp"); ("cpp17-clang", "cpp");
   ("kj", "kj"); ("kp", "kp"); ("java", "java"); ("py", "py"); ("py2", "py"); ("py3", "py"); ("pas", "pas"); ("rb", "rb"); ("cat", "cat")].
Definition good_interactive (i : option literal_interactive) : Prop :=
  match i with
  | None => True
  | Some i => In (ParentLang i) languages /\ good_interface (ModuleName i)
  end.

(* The orders are orders. *)
Definition any_order (o : orders) : Prop :=
  (forall l, Permutation l (order1 o l)) /\ (forall l, Permutation l (order2 o l)) /\ (forall l, Permutation l (order3 o l)).

(* The files, and nothing else. *)
Inductive has_file (input : literal_input) (json : string) : string -> string -> Prop :=
| case_in : forall name c, In (name, Some c) (Cases input) -> has_file input json ("cases/" ++ name ++ ".in") (LitModel.Input c)
| case_out : forall name c, In (name, Some c) (Cases input) -> has_file input json ("cases/" ++ name ++ ".out") (ExpectedOutput c)
| settings_file : has_file input json "settings.json" json
| validator_file : forall v c, Validator input = Some v -> Name v = "custom" -> CustomValidator v = Some c -> has_file input json ("validator." ++ Language c) (Source c)
| main_file : forall i, Interactive input = Some i -> has_file input json ("interactive/Main." ++ LanguageFileExtension (ParentLang i)) (MainSource i)
| idl_file : forall i, Interactive input = Some i -> has_file input json ("interactive/" ++ ModuleName i ++ ".idl") (IDLSource i).

(* What it means for a run or a result to arrive. *)
From Coq Require Import String Ascii List NArith ZArith QArith.
From Verif Require Import TrcModel Utf8Spec RrModel.
Import ListNotations.

(* ---- text ---- *)
(* Valid UTF-8: the encodings of some characters, one after another. *)
Definition valid (s : string) : Prop := exists rs, Forall scalar rs /\ bytes_of s = concat (map utf8 rs).
(* Characters stay, and each byte that starts none becomes U+FFFD. *)
Inductive cleaned : list N -> list N -> Prop :=
| cleaned_nil : cleaned [] []
| cleaned_char : forall r b b', scalar r -> cleaned b b' -> cleaned (utf8 r ++ b) (utf8 r ++ b')
| cleaned_byte : forall x b b', (forall r b1, scalar r -> x :: b <> (utf8 r ++ b1)%list) -> cleaned b b' -> cleaned (x :: b) (utf8 0xFFFD ++ b').
Definition text (s s' : string) : Prop := cleaned (bytes_of s) (bytes_of s').
Definition both {A B} (R : A -> B -> Prop) (x : option A) (y : option B) : Prop :=
  match x, y with Some a, Some b => R a b | None, None => True | _, _ => False end.

(* ---- numbers ---- *)
Definition int64 (z : Z) : Prop := (- 2 ^ 63 <= z < 2 ^ 63)%Z.
(* What is written is not null, and is read as what it was. *)
Definition floats_round_trip {flt} (show : flt -> option json) (read : json -> option flt) : Prop :=
  forall f j, show f = Some j -> j <> JNull /\ read j = Some f.
Definition bytes_round_trip (show : Z -> json) (read : Z -> json -> option Z) : Prop :=
  forall old b, int64 b -> read old (show b) = Some b.
(* Every number that can be read can be written, also after making it a rational. *)
Definition readable_is_writable {flt} (zero : flt) (show : flt -> option json) (read : json -> option flt) to_float to_rational : Prop :=
  show zero <> None /\ (forall j f, read j = Some f -> show f <> None) /\
  (forall f, show f <> None -> show (to_float (to_rational f : Q)) <> None).

Section Arrive.
Context {flt : Type}.
Variable to_float : Q -> flt.
Variable to_rational : flt -> Q.
Notation meta := (RunMetadata flt).
Notation score := (option Q) (only parsing).

(* ---- what Go's types allow; the names in maps are text ---- *)
Definition meta_ok (m : meta) : Prop := int64 (m_ExitStatus m) /\ int64 (m_Memory m).
Definition map_ok (m : option (list (string * meta))) : Prop :=
  forall l, m = Some l -> NoDup (map fst l) /\ (forall k x, In (k, x) l -> valid k /\ meta_ok x).
Definition elements {A} (l : option (list A)) : list A := match l with Some l => l | None => [] end.
Definition case_ok (c : CaseResult flt score) : Prop := meta_ok (c_Meta c) /\ map_ok (c_IndividualMeta c).
Definition group_ok (g : GroupResult flt score) : Prop := Forall case_ok (elements (g_Cases g)).
Definition result_ok (r : RunResult flt score) : Prop :=
  int64 (r_Memory r) /\ map_ok (r_CompileMeta r) /\ Forall group_ok (elements (r_Groups r)).

(* ---- the scores and the times of a result ---- *)
Definition case_scores (c : CaseResult flt score) : list score := [c_Score c; c_ContestScore c; c_MaxScore c].
Definition group_scores (g : GroupResult flt score) : list score :=
  [g_Score g; g_ContestScore g; g_MaxScore g] ++ flat_map case_scores (elements (g_Cases g)).
Definition scores (r : RunResult flt score) : list score :=
  [r_Score r; r_ContestScore r; r_MaxScore r] ++ flat_map group_scores (elements (r_Groups r)).
Definition meta_times (m : meta) : list flt := [m_Time m; m_SystemTime m; m_WallTime m].
Definition map_times (m : option (list (string * meta))) : list flt := flat_map (fun km => meta_times (snd km)) (elements m).
Definition case_times (c : CaseResult flt score) : list flt := meta_times (c_Meta c) ++ map_times (c_IndividualMeta c).
Definition times (r : RunResult flt score) : list flt :=
  [r_Time r; r_WallTime r] ++ map_times (r_CompileMeta r) ++ flat_map (fun g => flat_map case_times (elements (g_Cases g))) (elements (r_Groups r)).

(* ---- arriving ---- *)
(* As the float64 nearest to it (or what go-base makes of it). *)
Definition score_arrives (q q' : score) : Prop := exists x, q = Some x /\ q' = Some (to_rational (to_float x)).
Definition meta_arrives (m m' : meta) : Prop :=
  text (m_Verdict m) (m_Verdict m') /\ m_ExitStatus m' = m_ExitStatus m /\ m_Time m' = m_Time m /\ m_SystemTime m' = m_SystemTime m /\
  m_WallTime m' = m_WallTime m /\ m_Memory m' = m_Memory m /\ both text (m_Signal m) (m_Signal m') /\ both text (m_Syscall m) (m_Syscall m').
(* Maps have the same names, with ... *)
Definition map_arrives : option (list (string * meta)) -> option (list (string * meta)) -> Prop :=
  both (fun l l' => forall k, both meta_arrives (get l k) (get l' k)).
Definition case_arrives (c c' : CaseResult flt score) : Prop :=
  text (c_Verdict c) (c_Verdict c') /\ text (c_Name c) (c_Name c') /\
  score_arrives (c_Score c) (c_Score c') /\ score_arrives (c_ContestScore c) (c_ContestScore c') /\ score_arrives (c_MaxScore c) (c_MaxScore c') /\
  meta_arrives (c_Meta c) (c_Meta c') /\
  (c_IndividualMeta c = Some [] /\ c_IndividualMeta c' = None \/ c_IndividualMeta c <> Some [] /\ map_arrives (c_IndividualMeta c) (c_IndividualMeta c')).
Definition group_arrives (g g' : GroupResult flt score) : Prop :=
  text (g_Group g) (g_Group g') /\
  score_arrives (g_Score g) (g_Score g') /\ score_arrives (g_ContestScore g) (g_ContestScore g') /\ score_arrives (g_MaxScore g) (g_MaxScore g') /\
  both (Forall2 case_arrives) (g_Cases g) (g_Cases g').
Definition result_arrives (r r' : RunResult flt score) : Prop :=
  text (r_Verdict r) (r_Verdict r') /\ both text (r_CompileError r) (r_CompileError r') /\ map_arrives (r_CompileMeta r) (r_CompileMeta r') /\
  score_arrives (r_Score r) (r_Score r') /\ score_arrives (r_ContestScore r) (r_ContestScore r') /\ score_arrives (r_MaxScore r) (r_MaxScore r') /\
  r_Time r' = r_Time r /\ r_WallTime r' = r_WallTime r /\ r_Memory r' = r_Memory r /\ text (r_JudgedBy r) (r_JudgedBy r') /\
  both (Forall2 group_arrives) (r_Groups r) (r_Groups r').
Definition run_arrives (r r' : Run score) : Prop :=
  n_AttemptID r' = n_AttemptID r /\ text (n_Source r) (n_Source r') /\ text (n_Language r) (n_Language r') /\ text (n_ProblemName r) (n_ProblemName r') /\
  text (n_InputHash r) (n_InputHash r') /\ score_arrives (n_MaxScore r) (n_MaxScore r') /\ n_Debug r' = n_Debug r.
End Arrive.

(* ---- null in an array, anywhere in a JSON value ---- *)
Inductive part_of : json -> json -> Prop :=
| part_self : forall j, part_of j j
| part_array : forall x j l, In x l -> part_of j x -> part_of j (JArr l)
| part_object : forall k x j l, In (k, x) l -> part_of j x -> part_of j (JObj l).
Definition null_elements (j : json) : Prop := exists l, part_of (JArr l) j /\ In JNull l.

(* Specification of C77. *)
From Coq Require Import String Ascii List Bool ZArith.
From Verif Require Import GoStr InModel RhModel RhSpec UlModel.
From Verif Require RrModel.
Import ListNotations.
Local Open Scope string_scope.

Definition Prefix (a b : string) : Prop := exists z, b = a ++ z.

(* The boundary is a word, which no part contains at the beginning of a line. *)
Definition plain_boundary (b : string) : Prop := ~ contains "013" b /\ ~ contains "010" b.
Definition apart (b : string) (content : string) : Prop :=
  forall x y, String "013" (String "010" content) <> x ++ String "013" (String "010" ("--" ++ b ++ y)).

(* The parts of a list were received, but the last ones: at most one of them in part. *)
Fixpoint cut_from (l : list (string * string)) (p : parts) {struct p} : Prop :=
  match p, l with
  | Breaks, _ => True
  | CutPart n b, (m, c) :: _ => n = m /\ Prefix b c
  | Part n b p, (m, c) :: l => n = m /\ b = c /\ cut_from l p
  | _, _ => False
  end.

(* What a runner has to say about a run: what it wrote into files.zip, the text of its
   result, its log and its trace; each may be missing. *)
Definition said (files : option string) (details logs tracing : option string) : list (string * string) :=
  match files with Some z => [("files.zip", z)] | None => [] end ++ match details with Some z => [("details.json", z)] | None => [] end
  ++ match logs with Some z => [("logs.txt", z)] | None => [] end ++ match tracing with Some z => [("tracing.json", z)] | None => [] end.

(* The text of what was written piece by piece. *)
Definition joined (l : list string) : string := String.concat "" l.

(* ---- what there is to be said ---- *)
Section Grading.
Variable res : Type.
(* What was written into files.zip, if that was begun. *)
Definition files_of (g : grading res) : option string :=
  match g with NoInput | Panics None => None | Failed z | Graded z _ | Panics (Some z) => Some (joined z) end.
(* The result: that of grading, or the given one (JE) if there is no input or grading fails. *)
Definition result_of (je : res) (g : grading res) : option res :=
  match g with Graded _ x => Some x | NoInput | Failed _ => Some je | Panics _ => None end.
(* The random boundary is not in what is uploaded. *)
Definition unguessed (b : string) (je : res) (fixup : res -> option res) (encode : res -> RrModel.outcome string) (g : grading res) (logs tracing : option string) : Prop :=
  (forall z, files_of g = Some z -> apart b z) /\
  (forall x y t, result_of je g = Some x -> fixup x = Some y -> encode y = RrModel.Ok t -> apart b t) /\
  (forall l, logs = Some l -> apart b l) /\ (forall t, tracing = Some t -> apart b t).
End Grading.
Arguments files_of {res}. Arguments result_of {res}. Arguments unguessed {res}.
(* The log and the events that an upload adds. *)
Definition logged (name : string) (logs : option string) : list (string * string) := match logs with Some l => [(name, l)] | None => [] end.
Definition events (decode_tracing : string -> tracing) (t : option string) : list TrcModel.event :=
  match t with Some t => match decode_tracing t with Decoded es => es | _ => [] end | None => [] end.

(* Specification of C89. *)
From Coq Require Import String Ascii List Bool ZArith QArith.
From Verif Require Import RrSpec.
From Verif Require RrModel NumModel GradeModel.
Import ListNotations.

(* A result that says what runner.Grade computed: [number] is what a float64 is to the
   JSON encoder.  (Compile errors and the metadata of cases are in it too, but not of
   interest here.) *)
Definition says {flt} (number : NumModel.float64 -> flt) (rr : GradeModel.run_result) (x : RrModel.RunResult flt (option Q)) : Prop :=
  RrModel.r_Verdict x = GradeModel.vname (GradeModel.rr_verdict rr) /\
  RrModel.r_Score x = Some (GradeModel.rr_score rr) /\ RrModel.r_ContestScore x = Some (GradeModel.rr_contest rr) /\
  RrModel.r_Time x = number (GradeModel.rr_time rr) /\ RrModel.r_Memory x = GradeModel.rr_mem rr.

(* Of a float64 made of a number, nothing is lost by making it a number again. *)
Definition stable {flt} (to_float : Q -> flt) (to_rational : flt -> Q) : Prop := forall q, to_float (to_rational (to_float q)) = to_float q.
(* The float64s closest to numbers are in the same order as these, and those of 0 and 1 are exact. *)
Definition nearest (F : Q -> Q) : Prop := (forall x y, x <= y -> F x <= F y)%Q /\ F 0 == 0 /\ F 1 == 1.

(* What the database is told of a run, from what a runner's grading gave: the result of
   the runner is encoded (RrModel), uploaded (UlModel), decoded and taken by the grader
   (RhModel), and written to the run's row (FeModel).  Here are the joints between these. *)
From Coq Require Import String Ascii List Bool ZArith QArith.
From Verif Require Import FeModel.
From Verif Require TrcModel RrModel RhModel.
Import ListNotations.
Local Open Scope string_scope.

Section Joints.
Variable flt : Type.                            (* float64 *)
Variable zero : flt.
Variable show : flt -> option TrcModel.json.
Variable read : TrcModel.json -> option flt.
Variable show_byte : Z -> TrcModel.json.
Variable read_byte : Z -> TrcModel.json -> option Z.
Variable to_float : Q -> flt.
Variable to_rational : flt -> Q.
Variable equal_fold : string -> string -> bool.
Variable value : flt -> Q.                      (* of a finite float64, the number it is *)
(* Between values and bytes: encoding/json's text. *)
Variable print : TrcModel.json -> string.
Variable parsed : string -> option TrcModel.json.
Notation result := (RrModel.RunResult flt (option Q)).

(* cmd/omegaup-runner/main.go:557-561: encoder.Encode(result). *)
Definition encode (x : result) : RrModel.outcome string :=
  match RrModel.enc_result flt show show_byte to_float x with
  | RrModel.Ok j => RrModel.Ok (print j)
  | RrModel.Err => RrModel.Err
  | RrModel.Crash => RrModel.Crash
  end.
(* cmd/omegaup-grader/runner_handler.go:61-72: decoder.Decode(&result) into an empty result. *)
Definition decode (t : string) : option result :=
  match parsed t with
  | Some j => RrModel.dec_result flt zero read read_byte to_rational equal_fold (RrModel.result0 flt zero) j
  | None => None
  end.
(* runner/runner.go:159-166, NewRunResult("JE", run.MaxScore). *)
Definition je (max : option Q) : result :=
  {| RrModel.r_Verdict := "JE"; RrModel.r_CompileError := None; RrModel.r_CompileMeta := None; RrModel.r_Score := Some 0; RrModel.r_ContestScore := Some 0;
     RrModel.r_MaxScore := max; RrModel.r_Time := zero; RrModel.r_WallTime := zero; RrModel.r_Memory := 0%Z; RrModel.r_JudgedBy := ""; RrModel.r_Groups := None |}.
(* What updateDatabase (frontend_handler.go:62-111) reads of a run; the first four say what
   is not in its result.  None: base.RationalToFloat panics, as a score is missing. *)
Definition run_info_of (id : Z) (problem penalty_type : string) (partial_score : Z) (r : RhModel.run result) : option run_info :=
  let x := RhModel.Result r in
  match RrModel.r_Score x, RrModel.r_ContestScore x with
  | Some s, Some cs =>
      Some {| ri_ID := id; ri_Contest := None; ri_Problemset := None; ri_ProblemName := problem;
              ri_Verdict := RrModel.r_Verdict x; ri_Time := value (RrModel.r_Time x); ri_Memory := RrModel.r_Memory x;
              ri_Score := s; ri_ContestScore := cs; ri_JudgedBy := RhModel.JudgedBy r;
              ri_PenaltyType := penalty_type; ri_PartialScore := partial_score |}
  | _, _ => None
  end.
(* The row after that: base.RationalToFloat gives a float64. *)
Definition recorded (id : Z) (problem penalty_type : string) (partial_score : Z) (r : RhModel.run result) (before : row) : option row :=
  match run_info_of id problem penalty_type partial_score r with
  | Some i => Some (updateDatabase (fun q => value (to_float q)) true i before)
  | None => None
  end.
End Joints.

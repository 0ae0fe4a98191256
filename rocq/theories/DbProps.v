(* C89: from a runner's grading to the row of the run. *)
From Coq Require Import String Ascii List Bool ZArith QArith Lia Lqa.
From Verif Require Import GoStr InModel RhModel RhSpec RhProps UlModel UlSpec UlProofs UlSysProofs UlProps FeModel FeFinProps RrSpec RrProofs RrProps DbModel DbSpec.
From Verif Require TrcModel RrModel NumModel GradeModel GradeSpec GradeProps.
Import ListNotations.
Local Open Scope string_scope.

Section Graded.
Variable b : string.
Hypothesis PB : plain_boundary b.
Variable o : string -> string.
Context {flt : Type}.
Variable zero : flt.
Variable show : flt -> option TrcModel.json.
Variable read : TrcModel.json -> option flt.
Variable show_byte : Z -> TrcModel.json.
Variable read_byte : Z -> TrcModel.json -> option Z.
Variable to_float : Q -> flt.
Variable to_rational : flt -> Q.
Variable equal_fold : string -> string -> bool.
Variable value : flt -> Q.
Variable print : TrcModel.json -> string.
Variable parsed : string -> option TrcModel.json.
Notation result := (RrModel.RunResult flt (option Q)).
Hypothesis FLOATS : floats_round_trip show read.
Hypothesis BYTES : bytes_round_trip show_byte read_byte.
Hypothesis EMPTY : parsed "" = None.
Variable max : option Q.                        (* the run's MaxScore *)
Variable serve : string -> bool -> option Z.
Variable decode_tracing : string -> tracing.
Variable dir : path.
Variable name : string.
Variable w : world.
Notation je := (je flt zero max).
Notation encode := (encode flt show show_byte to_float print).
Notation decode := (decode flt zero read read_byte to_rational equal_fold parsed).
Notation upload_of := (upload_of b result je Some encode serve).
Notation unguessed := (unguessed b je Some encode).
Notation processRun wr := (RhModel.processRun result RrModel.r_Verdict decode decode_tracing wr dir name w).
(* The JSON text of a result is read as what was written. *)
Definition readable (x : result) : Prop := forall j, RrModel.enc_result flt show show_byte to_float x = RrModel.Ok j -> parsed (print j) = Some j.
Notation recorded := (recorded flt to_float value).

(* If the grader answers 200 to the upload of a runner whose grading ended (by itself, or
   for want of an input, or by an error), the row of the run says what the result of the
   grading said. *)
Theorem C89_recorded : forall g logs tracing s d e wr r f retry r' f' x id problem penalty partial before,
  upload_of g logs tracing s -> handled s = Some (d, e) -> unguessed g logs tracing ->
  processRun wr (Some (read_multipart b o d e)) r f = (Answer 200 retry, r', f') ->
  result_of je g = Some x -> result_ok x -> readable x ->
  exists score contest after, RrModel.r_Score x = Some score /\ RrModel.r_ContestScore x = Some contest /\
    recorded id problem penalty partial r' before = Some after /\
    w_status after = "ready" /\ text (RrModel.r_Verdict x) (w_verdict after) /\ w_judged_by after = name /\
    (w_runtime after == value (RrModel.r_Time x) * 1000)%Q /\ w_memory after = RrModel.r_Memory x /\
    w_score after = value (to_float (to_rational (to_float score))) /\
    (partial <> 1%Z -> w_contest_score after = value (to_float (to_rational (to_float contest)))) /\
    (partial = 1%Z -> (w_contest_score after == if Qeq_bool (value (to_float (to_rational (to_float contest)))) 1 then 1 else 0)%Q) /\
    (penalty = "runtime" -> w_penalty after = w_runtime after) /\ (penalty <> "runtime" -> w_penalty after = w_penalty before) /\
    (retry = true <-> w_verdict after = "JE").
Proof.
  intros g lo tr s d e wr r f retry r' f' x id problem penalty partial before U H G P X OK TEXT.
  assert (DN : decode "" = None) by (unfold DbModel.decode; rewrite EMPTY; reflexivity).
  destruct (C77_recorded b PB o result je Some encode serve RrModel.r_Verdict decode decode_tracing dir name w _ _ _ _ _ _ _ _ _ _ _ _ U H G DN P)
    as [(x' & y & t & A & B & C & D & J & RT & _)|([A|(x' & A & B)] & _)]; [|congruence..].
  assert (x' = x) by congruence. subst x'. injection B as <-.
  unfold DbModel.encode in C. destruct (RrModel.enc_result flt show show_byte to_float x) as [j| |] eqn:EN; try discriminate C. injection C as <-.
  unfold DbModel.decode in D. rewrite (TEXT j EN) in D.
  destruct (C71_round_trip flt zero show read show_byte read_byte to_float to_rational equal_fold FLOATS BYTES x j OK EN) as (r1 & D1 & V & _ & _ & S & CS & _ & T & _ & M & _).
  rewrite D in D1. injection D1 as D1. rewrite <- D1 in *.
  destruct S as (sc & S1 & S2), CS as (cs & CS1 & CS2).
  exists sc, cs. unfold DbModel.recorded, run_info_of. rewrite S2, CS2. eexists. split; [auto|]. split; [auto|]. split; [reflexivity|].
  match goal with |- context [updateDatabase ?F true ?i before] => pose proof (C56_recorded F i before) as R; set (after := updateDatabase F true i before) in * end.
  cbv zeta in R. cbn [ri_Verdict ri_Time ri_Memory ri_Score ri_ContestScore ri_JudgedBy ri_PenaltyType ri_PartialScore] in R. unfold all_or_nothing in R. cbn [ri_PartialScore] in R.
  fold after in R. destruct R as (R1 & R2 & R3 & R4 & R5 & R6 & R7 & R8 & R9 & R10 & R11).
  split; [auto|]. split; [rewrite R2; auto|]. split; [congruence|]. split; [rewrite R3, T; reflexivity|]. split; [congruence|]. split; [auto|]. split; [auto|].
  split; [|split; [auto|split; [auto|]]].
  - intros PA. destruct (Qeq_bool _ 1) eqn:Q; [apply R10|apply R11]; auto; [apply Qeq_bool_iff; auto|]. intros N. apply Qeq_bool_iff in N. congruence.
  - rewrite RT, R2. apply String.eqb_eq.
Qed.

(* Without an input, or if grading fails, that is: JE, with a score of 0, and the run is
   tried again. *)
Theorem C89_not_graded : forall g logs tracing s d e wr r f retry r' f' id problem penalty partial before,
  upload_of g logs tracing s -> handled s = Some (d, e) -> unguessed g logs tracing ->
  processRun wr (Some (read_multipart b o d e)) r f = (Answer 200 retry, r', f') ->
  g = NoInput \/ (exists zip, g = Failed zip) -> readable je -> stable to_float to_rational -> nearest (fun q => value (to_float q)) ->
  retry = true /\ exists after, recorded id problem penalty partial r' before = Some after /\
    w_verdict after = "JE" /\ (w_score after == 0)%Q /\ (w_contest_score after == 0)%Q /\ w_memory after = 0%Z /\ w_judged_by after = name.
Proof.
  intros g lo tr s d e wr r f retry r' f' id problem penalty partial before U H G P X RD ST (NM & N0 & N1).
  assert (A : result_of je g = Some je) by (destruct X as [->|(z & ->)]; reflexivity).
  destruct (C89_recorded _ _ _ _ _ _ _ _ _ _ _ _ _ id problem penalty partial before U H G P A) as (sc & cs & after & S & CS & R & R1 & R2 & R3 & _ & R5 & R6 & R7 & R8 & _ & _ & RT).
  { split; [cbn; unfold int64; lia|]. split; [discriminate|constructor]. }
  { exact RD. }
  injection S as <-. injection CS as <-.
  assert (V : w_verdict after = "JE") by (rewrite (text_clean _ _ R2); apply clean_valid, valid_ascii; repeat constructor).
  split; [apply RT, V|]. exists after. rewrite ST in *. rewrite R6. split; [auto|]. split; [auto|]. split; [auto|]. split; [|auto].
  destruct (Z.eq_dec partial 1) as [->|NP]; [|rewrite R7; auto].
  rewrite R8 by auto. destruct (Qeq_bool _ 1) eqn:Q; [|reflexivity]. apply Qeq_bool_iff in Q. rewrite N0 in Q. discriminate Q.
Qed.

Section Accepted.
Import NumModel GradeModel GradeSpec GradeProps.
Variable number : float64 -> flt.

Lemma vname_valid v : RrSpec.valid (vname v).
Proof. apply valid_ascii. destruct v; repeat constructor. Qed.

(* The row of a graded run has its verdict, judge, time and memory, and the float64s
   closest to its scores.  In particular: it is accepted exactly if each case has a score of 1, then
   the score is 1, and it is between 0 and 1 in any case. *)
Theorem C89_graded : forall fold_eq num_eq parse maxTok st validator max_score wall_limit gs rr tr,
  Grade fold_eq num_eq parse maxTok st validator max_score wall_limit gs = (rr, false, tr) ->
  forall zip x logs tracing s d e wr r f retry r' f' id problem penalty partial before,
  says number rr x -> result_ok x -> readable x ->
  upload_of (Graded zip x) logs tracing s -> handled s = Some (d, e) -> unguessed (Graded zip x) logs tracing ->
  processRun wr (Some (read_multipart b o d e)) r f = (Answer 200 retry, r', f') ->
  stable to_float to_rational -> nearest (fun q => value (to_float q)) ->
  exists after, recorded id problem penalty partial r' before = Some after /\
    w_status after = "ready" /\ w_verdict after = vname (rr_verdict rr) /\ w_judged_by after = name /\
    (w_runtime after == value (number (rr_time rr)) * 1000)%Q /\ w_memory after = rr_mem rr /\
    w_score after = value (to_float (rr_score rr)) /\ (partial <> 1%Z -> w_contest_score after = value (to_float (rr_contest rr))) /\
    (processes_ok gs -> nonneg_weights gs -> (0 <= w_score after <= 1)%Q) /\
    (rr_compile_error rr = false -> processes_ok gs -> files_open (validator =? "custom") gs ->
       (w_verdict after = "AC" <-> forall cr, In cr (case_results rr) -> (cr_score cr == 1)%Q) /\
       (w_verdict after = "AC" -> w_score after == 1)%Q).
Proof.
  intros fo nu pa mt st val M wl gs rr tr GR zip x lo tra s d e wr r f retry r' f' id problem penalty partial before (Y1 & Y2 & Y3 & Y4 & Y5) OK TEXT U H G P ST (NM & N0 & N1).
  destruct (C89_recorded _ _ _ _ _ _ _ _ _ _ _ _ x id problem penalty partial before U H G P eq_refl OK TEXT) as (sc & cs & after & S & CS & R & R1 & R2 & R3 & R4 & R5 & R6 & R7 & R8 & _ & _ & RT).
  rewrite ST in *. assert (sc = rr_score rr) by congruence. assert (cs = rr_contest rr) by congruence. subst sc cs.
  assert (V : w_verdict after = vname (rr_verdict rr)). { rewrite (text_clean _ _ R2), Y1. apply clean_valid, vname_valid. }
  exists after. split; [auto|]. split; [auto|]. split; [auto|]. split; [auto|]. split; [rewrite R4, Y4; reflexivity|]. split; [congruence|]. split; [auto|]. split; [auto|]. split.
  - intros PO NW. destruct (C19_score_range _ _ _ _ _ _ _ _ _ _ _ _ GR PO NW) as ((L & H') & _). rewrite R6. split; [rewrite <- N0|rewrite <- N1]; apply NM; auto.
  - intros CE PO FO. destruct (C19_accepted_iff _ _ _ _ _ _ _ _ _ _ _ GR CE PO FO) as (A1 & A2 & _).
    assert (VA : w_verdict after = "AC" <-> rr_verdict rr = AC). { rewrite V. split; [|intros ->; reflexivity]. destruct (rr_verdict rr); intros E; try discriminate E; reflexivity. }
    split; [rewrite VA; exact A1|]. intros A. apply VA, A2 in A. rewrite R6, A. exact N1.
Qed.
End Accepted.
End Graded.
Print Assumptions C89_recorded.
Print Assumptions C89_not_graded.
Print Assumptions C89_graded.

(* A concrete run: two cases, one of them wrong. *)
Section Ex.
Import NumModel GradeModel GradeSpec GradeProps.
Definition e_to_float (q : Q) : F := Some q.
Definition e_to_rational (f : F) : Q := match f with Some q => q | None => 0%Q end.
Definition e_number (f : float64) : F := match f with BinarySingleNaN.B754_finite false m e _ => Some (Z.pos m # 2 ^ Z.to_pos (- e))%Q | _ => Some 0%Q end.
Definition e_gs : list group_data := [mkG "a" [ex_case "a.1" 1 (Procs fok) [49; 10]%N [49]%N]; mkG "b" [ex_case "b.1" 1 (Procs fok) [50]%N [51]%N]].
Definition e_graded := ex_grade e_gs.
Definition e_rr : run_result := fst (fst e_graded).
Definition e_x : RrModel.RunResult F (option Q) :=
  {| RrModel.r_Verdict := vname (rr_verdict e_rr); RrModel.r_CompileError := None; RrModel.r_CompileMeta := None; RrModel.r_Score := Some (rr_score e_rr);
     RrModel.r_ContestScore := Some (rr_contest e_rr); RrModel.r_MaxScore := Some (rr_max e_rr); RrModel.r_Time := e_number (rr_time e_rr); RrModel.r_WallTime := e_number (rr_wall e_rr);
     RrModel.r_Memory := rr_mem e_rr; RrModel.r_JudgedBy := ""; RrModel.r_Groups := None |}.
Definition e_j0 : option TrcModel.json := match RrModel.enc_result F ex_show TrcModel.JInt e_to_float e_x with RrModel.Ok j => Some j | _ => None end.
Definition e_print (_ : TrcModel.json) : string := "{""verdict"":""PA""}".
Definition e_parsed (t : string) : option TrcModel.json := if t =? "{""verdict"":""PA""}" then e_j0 else None.
Definition e_dir : path := ["grade"; "7"].
Notation e_result := (RrModel.RunResult F (option Q)).
Definition e_dec_t (_ : string) : tracing := Decoded [].
Notation e_processRun := (RhModel.processRun e_result RrModel.r_Verdict (decode F (Some 0%Q) ex_read ex_read_byte e_to_rational String.eqb e_parsed) e_dec_t true e_dir "runner1" world0).
Definition e_r0 : RhModel.run e_result := {| Result := RrModel.result0 F (Some 0%Q); JudgedBy := ""; Logs := []; Traced := [] |}.
Definition e_served (d : string) (e : bool) : option Z := match fst (fst (e_processRun (Some (read_multipart "b0" (fun _ => "?") d e)) e_r0 disk0)) with Answer st _ => Some st | Panic => None end.
Notation e_enc := (encode F ex_show TrcModel.JInt e_to_float e_print).
Notation e_je := (je F (Some 0%Q) (Some 1%Q)).
Definition e_g := Graded ["PK"; "zip"] e_x.
Definition e_body := written "b0" true (content (fst (send e_result e_je Some e_enc e_g (Some "log") None))).
Example C89_hypotheses : floats_round_trip ex_show ex_read /\ bytes_round_trip TrcModel.JInt ex_read_byte /\ stable e_to_float e_to_rational /\
  nearest (fun q => match e_to_float q with Some v => v | None => 0%Q end) /\ says e_number e_rr e_x /\ result_ok e_x /\
  (forall j, RrModel.enc_result F ex_show TrcModel.JInt e_to_float e_x = RrModel.Ok j -> e_parsed (e_print j) = Some j) /\ e_parsed "" = None /\
  snd (fst e_graded) = false /\ rr_compile_error e_rr = false /\ processes_ok e_gs /\ nonneg_weights e_gs /\ files_open false e_gs.
Proof.
  destruct ex_hypotheses as (A & B & _). split; [exact A|]. split; [exact B|]. split; [intros q; reflexivity|]. split; [repeat split; auto; reflexivity|].
  split; [repeat split|]. split. { split; [vm_compute; split; [intros H; discriminate H|reflexivity]|]. split; [discriminate|constructor]. }
  split. { intros j E. unfold e_parsed, e_print. rewrite String.eqb_refl. unfold e_j0. rewrite E. reflexivity. }
  split; [reflexivity|]. split; [vm_compute; reflexivity|]. split; [vm_compute; reflexivity|].
  split; [|split]; intros g0 c [<-|[<-|[]]] [<-|[]]; cbn.
  1,2: intros a [<-|[]] [K|[K|[K|[]]]]; discriminate K.
  1,2: discriminate.
  all: split; discriminate.
Qed.
Example C89_met : unguessed "b0" e_je Some e_enc e_g (Some "log") None /\ exists s r' f' after,
  upload_of "b0" e_result e_je Some e_enc e_served e_g (Some "log") None s /\ handled s = Some (e_body, true) /\
  e_processRun (Some (read_multipart "b0" (fun _ => "?") e_body true)) e_r0 disk0 = (Answer 200 false, r', f') /\
  recorded F e_to_float (fun f => match f with Some v => v | None => 0%Q end) 7 "sums" "none" 0 r' example_row = Some after /\
  w_verdict after = "PA" /\ (w_score after == 1 # 2)%Q /\ w_judged_by after = "runner1" /\ w_status after = "ready".
Proof.
  split.
  - repeat split.
    + intros z [= <-]. apply apart_line; [apply no_char; reflexivity|reflexivity].
    + intros y y' t [= <-] [= <-] E. assert (T : t = e_print TrcModel.JNull) by (unfold encode in E; destruct (RrModel.enc_result _ _ _ _ _); [injection E as <-; reflexivity|discriminate E..]).
      rewrite T. apply apart_line; [apply no_char; reflexivity|reflexivity].
    + intros z [= <-]. apply apart_line; [apply no_char; reflexivity|reflexivity].
    + discriminate.
  - destruct (goes_well "b0" e_result e_je Some e_enc e_served e_g (Some "log") None 200%Z) as (s & R & H & _ & M); [vm_compute; reflexivity..|].
    exists s. do 3 eexists. split; [exact R|]. split; [exact H|]. split; [vm_compute; reflexivity|]. split; [vm_compute; reflexivity|]. split; [reflexivity|]. split; [reflexivity|]. split; reflexivity.
Qed.
End Ex.

(* Specification vocabulary for grading results (C18-C24, C47), stated on the
   result Grade returns and the problem's settings. *)
From Coq Require Import String List Arith NArith ZArith Bool QArith Permutation.
From Verif Require Import TokModel ValModel NumModel GradeModel.
Import ListNotations.
Local Open Scope nat_scope.

(* The order of severity documented at common/problemsettings.go:218: a verdict
   is at least as bad as those after it. *)
Definition severity : list verdict := [JE; CE; MLE; RFE; RTE; TLE; OLE; WA; PA; AC; OK].
Definition at_least_as_bad (a b : verdict) : Prop :=
  exists l1 l2, severity = l1 ++ a :: l2 /\ In b (a :: l2).
Definition is_worst (v : verdict) (l : list verdict) : Prop :=
  (l = [] /\ v = OK \/ In v l) /\ forall x, In x l -> at_least_as_bad v x.

(* Verdicts that a sandboxed process can end with. *)
Definition process_verdict (v : verdict) : Prop := ~ In v [WA; PA; AC].
(* All processes of a problem ended with such a verdict. *)
Definition processes_ok (gs : list group_data) : Prop :=
  forall g c, In g gs -> In c (gcases g) ->
  match crun c with Procs l => forall a, In a l -> process_verdict (mverdict (ameta a)) | Cat _ => True end.

(* A verdict as it counts for the whole run: accepted cases count as OK, wrong
   and partial answers as partial. *)
Definition counts_as (v : verdict) : verdict := match v with WA | PA => PA | AC => OK | _ => v end.

Definition case_verdicts (r : run_result) : list verdict :=
  flat_map (fun g => map cr_verdict (gr_cases g)) (rr_groups r).
Definition case_results (r : run_result) : list case_result := flat_map gr_cases (rr_groups r).

Definition nonneg_weights (gs : list group_data) : Prop := forall g c, In g gs -> In c (gcases g) -> (0 <= cweight c)%Q.
Definition pos_weights (gs : list group_data) : Prop := forall g c, In g gs -> In c (gcases g) -> (0 < cweight c)%Q.
Fixpoint total (l : list Q) : Q := match l with [] => 0 | x :: l' => (x + total l')%Q end.
Definition total_weight (gs : list group_data) : Q := total (map (fun g => total (map cweight (gcases g))) gs).

(* The files the validator reads can be opened, for every case whose processes
   ended with OK.  [custom]: settings.Validator.Name == "custom". *)
Definition files_open (custom : bool) (gs : list group_data) : Prop :=
  forall g c, In g gs -> In c (gcases g) ->
  if custom then (fst (va_custom (cvalid c)) = OK -> snd (va_custom (cvalid c)) <> None)
  else va_contestant (cvalid c) <> None /\ va_expected (cvalid c) <> None.

Definition not_nan (x : float64) : Prop := Flocq.IEEE754.BinarySingleNaN.is_nan x = false.

(* How the sandboxed processes of one case decide it.  The problemsetter's own
   process counts only when all the others ended well: its exceeded limits are
   the contestant's fault, and so are the exit statuses with which the generated
   library reports a broken dialogue and a closed pipe; anything else is a fault
   of the judge. *)
Definition blamed_on_contestant (m : meta) : Prop :=
  In (mexit m) [239; 240; 241; 242]%Z \/ msignal m = Some "SIGPIPE"%string.
Definition case_ends (l : list arrival) (v : verdict) : Prop :=
  exists w, is_worst w (map (fun a => mverdict (ameta a)) (filter (fun a => match atype a with Problemsetter => false | _ => true end) l)) /\
  (w <> OK -> v = w) /\
  (w = OK -> (forall p, In p l -> atype p = Problemsetter -> mverdict (ameta p) = OK) -> v = OK) /\
  (w = OK -> forall p, In p l -> atype p = Problemsetter -> mverdict (ameta p) <> OK ->
     (mverdict (ameta p) = OLE -> v = OLE) /\
     (mverdict (ameta p) = TLE -> v = TLE) /\
     (mverdict (ameta p) <> OLE -> mverdict (ameta p) <> TLE ->
        (blamed_on_contestant (ameta p) -> v = RTE) /\ (~ blamed_on_contestant (ameta p) -> v = JE))).
Definition one_parent (l : list arrival) : Prop :=
  forall a b l1 l2 l3, l = l1 ++ a :: l2 ++ b :: l3 -> ~ (atype a = Problemsetter /\ atype b = Problemsetter).
(* The verdict of a case that is run, before its output is compared. *)
Definition ends (c : case_data) (v : verdict) : Prop :=
  match crun c with
  | Cat None => v = RTE                        (* the submission has no file for the case *)
  | Cat (Some ole) => v = if ole then OLE else OK
  | Procs l => one_parent l -> case_ends l v
  end.

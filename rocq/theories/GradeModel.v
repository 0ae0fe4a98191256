(* Model of Grade, runner/runner.go:443-1258, and of worseVerdict (:1325-1347),
   validatorLimits (excluded: limits only matter inside the sandbox), and
   GroupSettings.Weight (common/problemsettings.go:111-117).

   The sandbox, the compiler, the file system and libinteractive are the
   environment: their answers are data (what the answer would be if asked),
   attached to the binary or case they belong to.  Every case is run at most
   once and validated at most once, so this is fully general.  What is asked is
   recorded in a trace.

   Scores are exact rationals (big.Rat); times are float64 (Flocq binary64);
   memory sizes are integers (no 64-bit wrap-around).  SystemTime and Syscall of
   RunMetadata are carried around unchanged by the code and left out, and so are
   logging, metrics, events and the upload of the generated files. *)
From Coq Require Import String List Arith NArith ZArith Bool QArith.
From Flocq Require Import IEEE754.BinarySingleNaN.
From Verif Require Import TokModel ValModel NumModel.
Import ListNotations.
Local Open Scope nat_scope.

(* common.VerdictList, common/problemsettings.go:221-234, worst first. *)
Inductive verdict : Type := JE | CE | MLE | RFE | RTE | TLE | OLE | WA | PA | AC | OK.
Definition vname (v : verdict) : string :=
  match v with
  | JE => "JE" | CE => "CE" | MLE => "MLE" | RFE => "RFE" | RTE => "RTE" | TLE => "TLE" | OLE => "OLE"
  | WA => "WA" | PA => "PA" | AC => "AC" | OK => "OK"
  end%string.
Definition VerdictList : list string :=
  ["JE"; "CE"; "MLE"; "RFE"; "RTE"; "TLE"; "OLE"; "WA"; "PA"; "AC"; "OK"]%string.

(* sliceIndex, runner/runner.go:1333-1340; -1 when absent. *)
Fixpoint slice_index (l : list string) (s : string) (i : Z) : Z :=
  match l with
  | [] => -1
  | x :: l' => if String.eqb x s then i else slice_index l' s (i + 1)
  end.
(* worseVerdict on strings, runner/runner.go:1325-1331: None is the run-time
   panic of indexing with -1. *)
Definition worse_string (a b : string) : option string :=
  let i := Z.min (slice_index VerdictList a 0) (slice_index VerdictList b 0) in
  if (i <? 0)%Z then None else nth_error VerdictList (Z.to_nat i).

(* worseVerdict on the verdicts in the list (what Grade uses; GradeProps shows
   that it agrees with worse_string). *)
Definition rank (v : verdict) : nat :=
  match v with
  | JE => 0 | CE => 1 | MLE => 2 | RFE => 3 | RTE => 4 | TLE => 5 | OLE => 6 | WA => 7 | PA => 8 | AC => 9 | OK => 10
  end.
Definition worse (a b : verdict) : verdict := if rank a <=? rank b then a else b.
Definition veqb (a b : verdict) : bool := rank a =? rank b.

(* RunMetadata, runner/sandbox.go:89-98. *)
Record meta : Type := mkM {
  mverdict : verdict; mexit : Z; mtime : float64; mwall : float64; mmem : Z; msignal : option string
}.
Definition fzero : float64 := B754_zero false.
Definition fadd (x y : float64) : float64 := Bplus mode_NE x y.
Definition vmeta (v : verdict) : meta := mkM v 0 fzero fzero 0 None.   (* &RunMetadata{Verdict: v} *)

Inductive btype : Type := Problemsetter | Contestant | Validator.       (* runner/runner.go:224-230 *)
Record arrival : Type := mkA { aname : string; ameta : meta; atype : btype }.

(* The receive loop over metaChan, runner/runner.go:960-1006. *)
Record agg : Type := mkAgg {
  gparent : option meta; gchosen : option meta; gverdict : verdict;
  gtime : float64; gwall : float64; gmem : Z
}.
Definition agg0 : agg := mkAgg None None OK fzero fzero 0.
(* math.Max *)
Definition fmaxx (x y : float64) : float64 :=
  if (match x with B754_infinity false => true | _ => false end || match y with B754_infinity false => true | _ => false end)%bool
  then B754_infinity false
  else if (is_nan x || is_nan y)%bool then B754_nan
  else if (Beqb x y && match x with B754_zero _ => true | _ => false end)%bool then (if Bsign x then y else x)
  else if Bltb y x then x else y.
Definition agg_step (g : agg) (a : arrival) : agg :=
  match atype a with
  | Problemsetter => mkAgg (Some (ameta a)) (gchosen g) (gverdict g) (gtime g) (gwall g) (gmem g)
  | _ =>
    mkAgg (gparent g)
      (match gchosen g with None => if veqb (mverdict (ameta a)) OK then None else Some (ameta a) | c => c end)
      (worse (gverdict g) (mverdict (ameta a)))
      (fadd (gtime g) (mtime (ameta a)))
      (fmaxx (gwall g) (mwall (ameta a)))
      (gmem g + Z.max (gmem g) (mmem (ameta a)))          (* += MaxBytes(total, mem), line 1001 *)
  end.
(* The parent's verdict when the children finished correctly, lines 1007-1036. *)
Definition parent_verdict (p : meta) : verdict :=
  match mverdict p with
  | OLE => OLE
  | TLE => TLE
  | _ =>
    if ((mexit p =? 239) || (mexit p =? 240) || (mexit p =? 241) || (mexit p =? 242))%Z then RTE
    else match msignal p with
         | Some s => if String.eqb s "SIGPIPE" then RTE else JE
         | None => JE
         end
  end.
Definition aggregate (arrivals : list arrival) : meta :=
  let g := fold_left agg_step arrivals agg0 in
  let base := match gchosen g with Some m => m | None => vmeta OK end in
  let v := match gparent g with
           | Some p => if (negb (veqb (mverdict p) OK) && veqb (gverdict g) OK)%bool then parent_verdict p else gverdict g
           | None => gverdict g
           end in
  mkM v (mexit base) (gtime g) (gwall g) (gmem g) (msignal base).
(* IndividualMeta, lines 971-974: only when there is more than one binary. *)
Definition individual (arrivals : list arrival) : list (string * meta) :=
  match arrivals with [_] => [] | _ => map (fun a => (aname a, ameta a)) arrivals end.

(* What the environment answers for one case. *)
Inductive run_answer : Type :=
| Cat (file : option bool)                (* run.Language == "cat": the submitted file, Some ole *)
| Procs (arrivals : list arrival).        (* one result per process, in order of arrival *)
Record valid_answer : Type := mkVA {
  va_contestant : option reader;          (* os.Open(runRoot/case.out) *)
  va_expected : option reader;            (* os.Open(cases/case.out) *)
  va_custom : verdict * option reader     (* the custom validator's verdict and output file *)
}.
Record case_data : Type := mkC { cname : string; cweight : Q; crun : run_answer; cvalid : valid_answer }.
Record group_data : Type := mkG { gname : string; gcases : list case_data }.

Record case_result : Type := mkCR {
  cr_name : string; cr_verdict : verdict; cr_meta : meta;
  cr_score : Q; cr_contest : Q; cr_max : Q
}.
Record group_result : Type := mkGR {
  gr_name : string; gr_cases : list case_result; gr_score : Q; gr_contest : Q; gr_max : Q
}.
Inductive event : Type := Compiled (name : string) | Executed (name : string).
Record run_result : Type := mkRR {
  rr_verdict : verdict; rr_score : Q; rr_contest : Q; rr_max : Q;
  rr_time : float64; rr_wall : float64; rr_mem : Z; rr_groups : list group_result; rr_compile_error : bool
}.

(* lines 470-481 *)
Definition sumQ (l : list Q) : Q := fold_left Qplus l 0%Q.
Definition all_weights (gs : list group_data) : list Q := flat_map (fun g => map cweight (gcases g)) gs.
Definition weight_factor (gs : list group_data) : Q :=
  let t := sumQ (all_weights gs) in if Qle_bool t 0 then 1%Q else (1 / t)%Q.
(* GroupSettings.Weight *)
Definition group_weight (g : group_data) : Q := sumQ (map cweight (gcases g)).

(* The metadata of one case, lines 798-1038; [exceeded] is the wall time test of
   line 802. *)
Definition run_case (exceeded : bool) (c : case_data) : meta * list event :=
  if exceeded then (vmeta TLE, [])
  else match crun c with
       | Cat None => (vmeta RTE, [])
       | Cat (Some ole) => (vmeta (if ole then OLE else OK), [])
       | Procs l => (aggregate l, [Executed (cname c)])
       end.

(* State threaded through the run loop, lines 795-1078. *)
Record rstate : Type := mkRS { s_verdict : verdict; s_time : float64; s_wall : float64; s_mem : Z; s_trace : list event }.

Section Grade.
Variable fold_eq num_eq : list N -> list N -> bool.
Variable parse : list N -> option Q.
Variable maxTok : N.
Variable validator : string.            (* settings.Validator.Name *)
Variable max_score : Q.
Variable wall_limit : float64.          (* OverallWallTimeLimit.Seconds() *)
Variable factor : Q.                    (* totalWeightFactor *)

Definition exceeds (s : rstate) : bool := Bltb wall_limit (s_wall s).
Definition run_one (s : rstate) (c : case_data) : rstate * case_result :=
  let (m, ev) := run_case (exceeds s) c in
  (mkRS (worse (s_verdict s) (mverdict m)) (fadd (s_time s) (mtime m)) (fadd (s_wall s) (mwall m))
        (Z.max (s_mem s) (mmem m)) (s_trace s ++ ev),
   mkCR (cname c) (mverdict m) m 0 0 (max_score * (cweight c * factor))).
Fixpoint run_cases (s : rstate) (cs : list case_data) : rstate * list case_result :=
  match cs with
  | [] => (s, [])
  | c :: cs' =>
    let (s1, r) := run_one s c in
    let (s2, rs) := run_cases s1 cs' in (s2, r :: rs)
  end.
Fixpoint run_groups (s : rstate) (gs : list group_data) : rstate * list (list case_result) :=
  match gs with
  | [] => (s, [])
  | g :: gs' =>
    let (s1, r) := run_cases s (gcases g) in
    let (s2, rs) := run_groups s1 gs' in (s2, r :: rs)
  end.

(* The score of one case, lines 1090-1188; None is the `continue` taken when a
   file cannot be opened. *)
Definition devnull : reader := mkRd [] EEOF false.
Definition case_score (c : case_data) : option Q :=
  let custom := String.eqb validator "custom" in
  let contestant := if custom
                    then match va_custom (cvalid c) with
                         | (OK, out) => out
                         | _ => Some devnull
                         end
                    else va_contestant (cvalid c) in
  let expected := if custom then Some devnull else va_expected (cvalid c) in
  match contestant with
  | None => None
  | Some co =>
    match expected with
    | None => None
    | Some ex => Some (score (CalculateScore fold_eq num_eq parse maxTok validator ex co))
    end
  end.

(* One case of the validation loop, lines 1085-1215: new case result, run
   verdict, group score, `correct`. *)
Definition validate_one (v : verdict) (sc : Q) (correct : bool) (c : case_data) (r : case_result)
  : case_result * verdict * Q * bool :=
  if veqb (cr_verdict r) OK then
    match case_score c with
    | None => (r, v, sc, correct)
    | Some q =>
      let r' := mkCR (cr_name r)
                     (if Qeq_bool q 1 then AC else if Qeq_bool q 0 then WA else PA)
                     (cr_meta r) (cr_score r + q) (max_score * (cweight c * factor) * (cr_score r + q)) (cr_max r) in
      let v' := if Qeq_bool q 1 then v else worse v PA in
      let ok' := if Qeq_bool q 1 then correct else if Qeq_bool q 0 then false else correct in
      (r', v', (sc + q * (cweight c * factor))%Q, ok')
    end
  else (r, v, sc, false).
Fixpoint validate_cases (v : verdict) (sc : Q) (correct : bool) (cs : list case_data) (rs : list case_result)
  : list case_result * verdict * Q * bool :=
  match cs, rs with
  | c :: cs', r :: rs' =>
    let '(r', v', sc', ok') := validate_one v sc correct c r in
    let '(rs'', v'', sc'', ok'') := validate_cases v' sc' ok' cs' rs' in
    (r' :: rs'', v'', sc'', ok'')
  | _, _ => ([], v, sc, correct)
  end.
(* lines 1081-1226 *)
Fixpoint validate_groups (v : verdict) (total : Q) (gs : list group_data) (rss : list (list case_result))
  : list group_result * verdict * Q :=
  match gs, rss with
  | g :: gs', rs :: rss' =>
    let '(rs', v', sc, ok) := validate_cases v 0 true (gcases g) rs in
    let gmax := (max_score * (group_weight g * factor))%Q in
    let gr := if ok then mkGR (gname g) rs' (0 + sc) (max_score * sc) gmax else mkGR (gname g) rs' 0 0 gmax in
    let total' := if ok then (total + sc)%Q else total in
    let '(grs, v'', total'') := validate_groups v' total' gs' rss' in
    (gr :: grs, v'', total'')
  | _, _ => ([], v, total)
  end.

(* lines 791-1243 *)
Definition run_and_validate (gs : list group_data) : run_result * list event :=
  let (s, rss) := run_groups (mkRS OK fzero fzero 0 []) gs in
  let '(grs, v, sc) := validate_groups (s_verdict s) 0 gs rss in
  let '(v', sc') :=
    if (veqb v PA && Qeq_bool sc 0)%bool then (WA, sc)
    else if veqb v OK then (AC, 1%Q) else (v, sc) in
  (mkRR v' sc' (max_score * sc') max_score (s_time s) (s_wall s) (s_mem s) grs false, s_trace s).
End Grade.

(* A binary to compile, with the compiler's answer: the verdict of compileMeta
   (None: nil) and whether an error is returned. *)
Record binary : Type := mkB { b_name : string; b_type : btype; b_meta : option verdict; b_err : bool }.
(* What happens before compilation, lines 451-742. *)
Inductive setup : Type :=
| SNotSupported                           (* lines 451-453 *)
| SIOError                                (* any os error while preparing files *)
| SUnsupportedLanguage                    (* lines 529-534 *)
| SBadOutputOnly                          (* lines 634-640 *)
| SReady (bins : list binary).

(* lines 744-790: (failed, returned error) of the first binary that fails. *)
Fixpoint compile_all (bins : list binary) : list event * option bool :=
  match bins with
  | [] => ([], None)
  | b :: bins' =>
    if (b_err b || negb (match b_meta b with Some OK => true | _ => false end))%bool
    then ([Compiled (b_name b)], Some (b_err b))
    else let (ev, r) := compile_all bins' in (Compiled (b_name b) :: ev, r)
  end.

Section Top.
Variable fold_eq num_eq : list N -> list N -> bool.
Variable parse : list N -> option Q.
Variable maxTok : N.

(* NewRunResult, runner/runner.go:156-163, with a verdict and compile error. *)
Definition early (v : verdict) (max_score : Q) (ce : bool) : run_result :=
  mkRR v 0 0 max_score fzero fzero 0 [] ce.

(* Grade: result, whether an error is returned, trace. *)
Definition Grade (st : setup) (validator : string) (max_score : Q) (wall_limit : float64) (gs : list group_data)
  : run_result * bool * list event :=
  match st with
  | SNotSupported | SIOError => (early JE max_score false, true, [])
  | SUnsupportedLanguage | SBadOutputOnly => (early CE max_score true, false, [])
  | SReady bins =>
    match compile_all bins with
    | (ev, Some err) => (early CE max_score true, err, ev)
    | (ev, None) =>
      let (r, ev') := run_and_validate fold_eq num_eq parse maxTok validator max_score wall_limit (weight_factor gs) gs in
      (r, false, ev ++ ev')
    end
  end.
End Top.

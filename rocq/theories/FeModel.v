(* cmd/omegaup-grader/frontend_handler.go: where the files of runs and submissions
   are, the requests that queue runs, and what is told about a finished run. *)
From Coq Require Import String Ascii List Bool ZArith QArith.
From Verif Require Import GoStr InModel BcFilterModel.
Import ListNotations.
Local Open Scope string_scope.

(* ---- Paths ---- *)
(* fmt.Sprintf("%02d", z): at least two characters, counting the sign. *)
Definition fmt02 (z : Z) : string := if ((0 <=? z) && (z <? 10))%Z then "0" ++ fmt_int z else fmt_int z.
(* gradeDir, lines 258-264.  Go's / and % truncate. *)
Definition gradeDir (RuntimeGradePath : path) (runID : Z) : path :=
  path_join RuntimeGradePath (fmt02 (Z.rem runID 100) ++ "/" ++ fmt02 (Z.quot (Z.rem runID 10000) 100) ++ "/" ++ fmt_int runID).

Definition has_prefix (p s : string) : bool := prefix p s.
Definition has_char (c : ascii) (s : string) : bool := existsb (Ascii.eqb c) (list_ascii_of_string s).
(* What a handler does before it opens a file: it refuses with a status, or opens
   the file at a path, or panics (which the HTTP server turns into an aborted
   connection). *)
Inductive opening := Refuses (status : Z) | Opens (p : path) | OpenPanics.
(* /run/resource/, lines 720-745, once the body has been decoded. *)
Definition run_resource (RuntimeGradePath : path) (RunID : Z) (Filename : string) : opening :=
  if (RunID =? 0)%Z then Refuses 404
  else if (Filename =? "") || has_prefix "." Filename || has_char "/" Filename then Refuses 400
  else Opens (path_join (gradeDir RuntimeGradePath RunID) Filename).

(* strings.Trim(s, "/") *)
Fixpoint trim_left (s : string) : string := match s with String "/" s => trim_left s | _ => s end.
Fixpoint trim_right (s : string) : string :=
  match s with
  | "" => ""
  | String c s => match trim_right s with "" => if Ascii.eqb c "/" then "" else String c "" | t => String c t end
  end.
Definition Trim (s : string) : string := trim_right (trim_left s).
(* The path of the source of a submission, lines 353-359, 575-580, 680-685: GUID[:2]
   panics if it is shorter. *)
Definition source_path (RuntimePath : path) (GUID : string) : option path :=
  match GUID with
  | String a (String b rest) => Some (path_join RuntimePath ("submissions/" ++ String a (String b "") ++ "/" ++ rest))
  | _ => None
  end.
(* /submission/source/, lines 658-686; line 31: ^[0-9a-f]{32}$ *)
Definition is_guid_char (c : ascii) : bool :=
  let n := N_of_ascii c in (((48 <=? n) && (n <=? 57)) || ((97 <=? n) && (n <=? 102)))%N.
Definition guid_ok (g : string) : bool := (String.length g =? 32)%nat && forallb is_guid_char (list_ascii_of_string g).
Definition submission_source (RuntimePath : path) (is_get : bool) (url : string) : opening :=
  if negb is_get then Refuses 405
  else match split "/" (Trim url) with
       | [_; _; guid] =>
           if negb (guid_ok guid) then Refuses 400
           else match source_path RuntimePath guid with Some p => Opens p | None => OpenPanics end
       | _ => Refuses 404
       end.

(* ---- The requests that queue runs, lines 363-406, 432-464, 537-648 ---- *)
Notation priority := Z (only parsing).
Definition QueuePriorityNormal : priority := 1%Z.
Definition QueuePriorityLow : priority := 2%Z.

Section Service.
(* What the database and the problem's repository say of a run: the GUID of its
   submission and whether the problem is slow (newRunContextFromID, newRunContext,
   lines 266-347).  Looking it up can fail at any time. *)
Variable guid_of : Z -> string.
Variable slow : Z -> bool.

Inductive request :=
| NewRun (id : Z) (body : string)                      (* /run/new/<id>/, with the bytes of its body *)
| Grade (low : bool) (ids : list Z)                    (* /run/grade/; low: rejudge or debug *)
| Startup (ids : list Z).                              (* the goroutine of lines 445-464, for the runs that are not ready *)
Inductive stage :=
| Arrived
| Ready                                  (* /run/new/: the run was looked up; before OpenFile, line 590 *)
| Copying (rest : string)                (* io.Copy, line 603, with the bytes it has not written yet *)
| Loading (todo : list Z)                (* /run/grade/: the runs to look up, lines 628-640 *)
| Injecting (cur : option string) (todo : list Z)   (* injectRuns, lines 370-405: the runs to queue, and the source of the first once it has been read *)
| Assigned                               (* /run/grade/: err has been assigned, line 641, before it is compared with nil *)
| Gone.
Notation thread := (request * stage)%type.

(* err of /run/grade/ (line 641) is the variable of registerFrontendHandlers (line
   433), shared by all requests. *)
Record state := { files : string -> option string; threads : list thread; err : bool }.
Inductive event :=
| Arrives (i : nat) (r : request)
| Creates (i : nat) (guid : string)
| Queues (i : nat) (id : Z) (source : string) (p : priority)
| Answers (i : nat) (status : Z)
| Skips (i : nat) (id : Z)                (* the goroutine of the start logs an error and goes on with the next run *)
| Restarts (i : nat) (pending : list Z)   (* the process died and is started again *)
| Tau.

Fixpoint upd {A} (l : list A) (i : nat) (x : A) : list A :=
  match l, i with [], _ => [] | _ :: l, O => x :: l | y :: l, S i => y :: upd l i x end.
Definition move (s : state) (i : nat) (r : request) (t : stage) : state :=
  {| files := files s; threads := upd (threads s) i (r, t); err := err s |}.
Definition set_file (s : state) (g : string) (c : string) : state :=
  {| files := fun x => if x =? g then Some c else files s x; threads := threads s; err := err s |}.
Definition set_err (s : state) (b : bool) : state := {| files := files s; threads := threads s; err := b |}.
(* The priority a run is queued with: lines 283-287 and 379-381; line 624. *)
Definition asked (r : request) : priority := match r with Grade true _ => QueuePriorityLow | _ => QueuePriorityNormal end.
Definition priority_of (r : request) (id : Z) : priority :=
  let p := if slow id then QueuePriorityLow else QueuePriorityNormal in
  if (p =? QueuePriorityNormal)%Z then asked r else p.

Inductive step (s : state) : event -> state -> Prop :=
| arrives : forall r, (match r with Startup _ => False | _ => True end) ->
    step s (Arrives (length (threads s)) r) {| files := files s; threads := threads s ++ [(r, Arrived)]; err := err s |}
(* /run/new/ *)
| new_lookup : forall i id body, nth_error (threads s) i = Some (NewRun id body, Arrived) -> step s Tau (move s i (NewRun id body) Ready)
| new_lookup_fails : forall i id body, nth_error (threads s) i = Some (NewRun id body, Arrived) -> step s (Answers i 500) (move s i (NewRun id body) Gone)
| new_create : forall i id body, nth_error (threads s) i = Some (NewRun id body, Ready) -> files s (guid_of id) = None ->
    step s (Creates i (guid_of id)) (move (set_file s (guid_of id) "") i (NewRun id body) (Copying body))
| new_exists : forall i id body, nth_error (threads s) i = Some (NewRun id body, Ready) -> files s (guid_of id) <> None ->
    step s (Answers i 409) (move s i (NewRun id body) Gone)
| new_open_fails : forall i id body, nth_error (threads s) i = Some (NewRun id body, Ready) -> step s (Answers i 500) (move s i (NewRun id body) Gone)
| new_copy : forall i id body a rest c, nth_error (threads s) i = Some (NewRun id body, Copying (String a rest)) -> files s (guid_of id) = Some c ->
    step s Tau (move (set_file s (guid_of id) (c ++ String a "")) i (NewRun id body) (Copying rest))
(* the result of io.Copy is not looked at *)
| new_copied : forall i id body rest, nth_error (threads s) i = Some (NewRun id body, Copying rest) -> step s Tau (move s i (NewRun id body) (Injecting None [id]))
| new_done : forall i id body, nth_error (threads s) i = Some (NewRun id body, Injecting None []) -> step s (Answers i 200) (move s i (NewRun id body) Gone)
| new_fails : forall i id body cur todo, nth_error (threads s) i = Some (NewRun id body, Injecting cur todo) -> todo <> [] -> step s (Answers i 500) (move s i (NewRun id body) Gone)
(* /run/grade/ *)
| grade_decoded : forall i low ids, nth_error (threads s) i = Some (Grade low ids, Arrived) -> step s Tau (move s i (Grade low ids) (Loading ids))
| grade_lookup : forall i low ids id todo, nth_error (threads s) i = Some (Grade low ids, Loading (id :: todo)) -> step s Tau (move s i (Grade low ids) (Loading todo))
| grade_lookup_fails : forall i low ids id todo, nth_error (threads s) i = Some (Grade low ids, Loading (id :: todo)) -> step s (Answers i 500) (move s i (Grade low ids) Gone)
| grade_loaded : forall i low ids, nth_error (threads s) i = Some (Grade low ids, Loading []) -> step s Tau (move s i (Grade low ids) (Injecting None ids))
| grade_assigns_nil : forall i low ids, nth_error (threads s) i = Some (Grade low ids, Injecting None []) -> step s Tau (move (set_err s false) i (Grade low ids) Assigned)
| grade_assigns_err : forall i low ids cur todo, nth_error (threads s) i = Some (Grade low ids, Injecting cur todo) -> todo <> [] -> step s Tau (move (set_err s true) i (Grade low ids) Assigned)
| grade_answers : forall i low ids, nth_error (threads s) i = Some (Grade low ids, Assigned) -> step s (Answers i (if err s then 500 else 200)) (move s i (Grade low ids) Gone)
(* the goroutine of the start: a run that cannot be queued is skipped *)
| start_skips : forall i ids cur id todo, nth_error (threads s) i = Some (Startup ids, Injecting cur (id :: todo)) -> step s (Skips i id) (move s i (Startup ids) (Injecting None todo))
| start_done : forall i ids, nth_error (threads s) i = Some (Startup ids, Injecting None []) -> step s Tau (move s i (Startup ids) Gone)
(* injectRuns: readSource, then InputManager.Add and AddRun *)
| inject_reads : forall i r id todo c, nth_error (threads s) i = Some (r, Injecting None (id :: todo)) -> files s (guid_of id) = Some c ->
    step s Tau (move s i r (Injecting (Some c) (id :: todo)))
| inject_queues : forall i r id todo c, nth_error (threads s) i = Some (r, Injecting (Some c) (id :: todo)) ->
    step s (Queues i id c (priority_of r id)) (move s i r (Injecting None todo))
(* The process dies, and is started again: the runs that are not ready are whatever
   the database says. *)
| crashes : forall pending, NoDup pending ->
    step s (Restarts (length (threads s)) pending) {| files := files s; threads := map (fun t => (fst t, Gone)) (threads s) ++ [(Startup pending, Injecting None pending)]; err := false |}.

(* Executions, all of whose states satisfy [ok]. *)
Inductive exec (ok : state -> Prop) : list event -> state -> Prop :=
| exec_nil : exec ok [] {| files := fun _ => None; threads := []; err := false |}
| exec_snoc : forall es s e s', exec ok es s -> step s e s' -> ok s' -> exec ok (es ++ [e]) s'.
(* From a state on. *)
Inductive steps : state -> list event -> state -> Prop :=
| steps_nil : forall s, steps s [] s
| steps_cons : forall s e s1 es s2, step s e s1 -> steps s1 es s2 -> steps s (e :: es) s2.
End Service.

(* ---- A finished run, lines 62-226 ---- *)
(* What is used of grader.RunInfo.  PartialScore is declared as a bool
   (grader/queue.go:282) and used here as an integer, so that the code does not
   compile; here it is an integer.  Time is in seconds. *)
Record run_info := {
  ri_ID : Z; ri_Contest : option string; ri_Problemset : option Z; ri_ProblemName : string;
  ri_Verdict : string; ri_Time : Q; ri_Memory : Z; ri_Score : Q; ri_ContestScore : Q; ri_JudgedBy : string;
  ri_PenaltyType : string; ri_PartialScore : Z
}.
Section Finished.
Variable RationalToFloat : Q -> Q.   (* go-base's conversion to a float64; the value of the float64 *)
(* A row of the table Runs, as far as it is written. *)
Record row := { w_status : string; w_verdict : string; w_runtime : Q; w_penalty : Q; w_memory : Z; w_score : Q; w_contest_score : Q; w_judged_by : string }.
(* updateDatabase, lines 62-111, on the row of the run.  Errors of the database are
   only logged. *)
Definition updateDatabase (db_ok : bool) (run : run_info) (r : row) : row :=
  let contestScore := RationalToFloat (ri_ContestScore run) in
  let contestScore := if (ri_PartialScore run =? 1)%Z && negb (Qeq_bool contestScore 1) then 0%Q else contestScore in
  if negb db_ok then r
  else if ri_PenaltyType run =? "runtime"
  then {| w_status := "ready"; w_verdict := ri_Verdict run; w_runtime := (ri_Time run * 1000)%Q; w_penalty := (ri_Time run * 1000)%Q; w_memory := ri_Memory run;
          w_score := RationalToFloat (ri_Score run); w_contest_score := contestScore; w_judged_by := ri_JudgedBy run |}
  else {| w_status := "ready"; w_verdict := ri_Verdict run; w_runtime := (ri_Time run * 1000)%Q; w_penalty := w_penalty r; w_memory := ri_Memory run;
          w_score := RationalToFloat (ri_Score run); w_contest_score := contestScore; w_judged_by := ri_JudgedBy run |}.

(* broadcastRun, lines 113-210: the message sent, if any; user: what the query for
   the user of the run gives.  [text] makes the JSON text of the scores, the verdict
   and the user. *)
Definition broadcastRun (text : run_info -> string -> Q -> Q -> string) (user : option string) (run : run_info) : option message :=
  if (ri_ID run =? 0)%Z then None
  else match user with
       | None => None
       | Some u => Some {| m_contest := match ri_Contest run with Some c => c | None => "" end;
                           m_problemset := match ri_Problemset run with Some z => z | None => 0%Z end;
                           m_problem := ri_ProblemName run; m_user := u; m_public := false;
                           m_text := text run u (RationalToFloat (ri_Score run)) (RationalToFloat (ri_ContestScore run)) |}
       end.
End Finished.

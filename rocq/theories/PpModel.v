(* What happens to finished runs: from RunContext.Close through the post-processor
   (grader/queue.go:786-856), runPostProcessor (cmd/omegaup-grader/frontend_handler.go:
   116-230, 407-433) and the /broadcast/ handler (cmd/omegaup-broadcaster/main.go:
   243-273) to the scoreboard loop (main.go:138-196), which asks the frontend to refresh
   a scoreboard.  Two processes, connected by HTTP requests.  The only
   listener of the post-processor is runPostProcessor.  Simplified: recording a run is one
   step; the loop's clock is that of SbModel.v, here an interval may end at any time. *)
From Coq Require Import String Ascii List Arith Bool.
Import ListNotations.
Local Open Scope string_scope.

(* broadcaster/subscriber.go: Message, the fields used here. *)
Record message := { Contest : string; Text : string }.
(* strings.Contains *)
Fixpoint has_prefix (p s : string) : bool :=
  match p, s with "", _ => true | String a p, String b s => Ascii.eqb a b && has_prefix p s | _, _ => false end.
Fixpoint Contains (s p : string) : bool := has_prefix p s || match s with "" => false | String _ s => Contains s p end.
Definition quote := String (ascii_of_nat 34) "".
Definition run_update : string := quote ++ "message" ++ quote ++ ":" ++ quote ++ "/run/update/" ++ quote.
Local Open Scope list_scope.
(* main.go:266: whether the contest's scoreboard is to be refreshed *)
Definition refresh_of (m : message) : option string :=
  if (0 <? String.length (Contest m))%nat && Contains (Text m) run_update then Some (Contest m) else None.

Section Pipeline.
Variable run : Type.
Variable SendBroadcast : bool.
(* broadcastRun, frontend_handler.go:116-209: the message, if there is one (the run is
   not ephemeral and the database knows it). *)
Variable message_of : run -> option message.

(* runPostProcessor: waiting for a run; about to send a request; waiting for the answer
   to request i. *)
Inductive poster_at := Idle | Asking (r : run) (m : message) | Waiting (i : nat).
(* A request to /broadcast/: before Broadcast; before the contest is sent to contestChan;
   answered. *)
Inductive stage := Received | Sending (c : string) | Answered.
Record request := { from : option run (* None: from elsewhere *); about : message; at_ : stage }.
Record state := {
  callers : list run;          (* blocked in or before PostProcess *)
  finishedRuns : list run;     (* the post-processor's channel, of length 1 (queue.go:807) *)
  relay : option run;          (* taken from it, to be sent to the listener, queue.go:848-850 *)
  finished : list run;         (* finishedRunsChan, of length 1 (frontend_handler.go:505) *)
  poster : poster_at;
  requests : list request;
  contestChan : list string;   (* of length 1 (main.go:220) *)
  known : list (string * bool);   (* eventSet; each also has an event on the heap *)
  refreshing : option string   (* the loop is in updateScoreboardForContest for this contest *)
}.
Definition start : state :=
  {| callers := []; finishedRuns := []; relay := None; finished := []; poster := Idle; requests := []; contestChan := []; known := []; refreshing := None |}.

Inductive label :=
| Finishes (r : run)              (* Close calls PostProcess *)
| Enters (r : run)                (* the send on finishedRuns *)
| Records (r : run)               (* updateDatabase (which can fail) *)
| Requests (i : nat)              (* a request reaches the broadcaster *)
| Drops (i : nat)                 (* Broadcast refuses: its queue is full *)
| Notes (i : nat) (c : string)    (* the contest of request i is sent to contestChan *)
| Hears (c : string)              (* the loop receives it *)
| Refreshes (c : string)          (* the request to the frontend is sent *)
| FrontendAnswers                 (* ... and answered, or fails *)
| Elapses (c : string)            (* the interval of a contest is over *)
| Breaks                          (* the grader's request fails, or cannot be sent *)
| Silent.

Fixpoint upd {A} (l : list A) (i : nat) (x : A) : list A :=
  match l, i with [], _ => [] | _ :: l, O => x :: l | y :: l, S i => y :: upd l i x end.
Definition with_callers s x := {| callers := x; finishedRuns := finishedRuns s; relay := relay s; finished := finished s; poster := poster s; requests := requests s; contestChan := contestChan s; known := known s; refreshing := refreshing s |}.
Definition with_queue s x := {| callers := callers s; finishedRuns := x; relay := relay s; finished := finished s; poster := poster s; requests := requests s; contestChan := contestChan s; known := known s; refreshing := refreshing s |}.
Definition with_relay s x := {| callers := callers s; finishedRuns := finishedRuns s; relay := x; finished := finished s; poster := poster s; requests := requests s; contestChan := contestChan s; known := known s; refreshing := refreshing s |}.
Definition with_finished s x := {| callers := callers s; finishedRuns := finishedRuns s; relay := relay s; finished := x; poster := poster s; requests := requests s; contestChan := contestChan s; known := known s; refreshing := refreshing s |}.
Definition with_poster s x := {| callers := callers s; finishedRuns := finishedRuns s; relay := relay s; finished := finished s; poster := x; requests := requests s; contestChan := contestChan s; known := known s; refreshing := refreshing s |}.
Definition with_requests s x := {| callers := callers s; finishedRuns := finishedRuns s; relay := relay s; finished := finished s; poster := poster s; requests := x; contestChan := contestChan s; known := known s; refreshing := refreshing s |}.
Definition with_chan s x := {| callers := callers s; finishedRuns := finishedRuns s; relay := relay s; finished := finished s; poster := poster s; requests := requests s; contestChan := x; known := known s; refreshing := refreshing s |}.
Definition with_loop s k x := {| callers := callers s; finishedRuns := finishedRuns s; relay := relay s; finished := finished s; poster := poster s; requests := requests s; contestChan := contestChan s; known := k; refreshing := x |}.
Definition set_stage (s : state) (i : nat) (q : request) (t : stage) : state :=
  with_requests s (upd (requests s) i {| from := from q; about := about q; at_ := t |}).
(* frontend_handler.go:221-228 *)
Definition next (r : run) : poster_at := if SendBroadcast then match message_of r with Some m => Asking r m | None => Idle end else Idle.
Definition is_known (c : string) (k : list (string * bool)) : bool := existsb (fun x => fst x =? c)%string k.
Definition mark (c : string) (k : list (string * bool)) : list (string * bool) := map (fun x => if (fst x =? c)%string then (c, true) else x) k.

Inductive step (s : state) : label -> state -> Prop :=
(* queue.go:456-459, 828-830 *)
| finishes : forall r, step s (Finishes r) (with_callers s (callers s ++ [r]))
| enters : forall l1 r l2, callers s = l1 ++ r :: l2 -> (length (finishedRuns s) < 1)%nat ->
    step s (Enters r) (with_queue (with_callers s (l1 ++ l2)) (finishedRuns s ++ [r]))
(* queue.go:832-851 *)
| relays : forall r l, finishedRuns s = r :: l -> relay s = None -> step s Silent (with_relay (with_queue s l) (Some r))
| delivers : forall r, relay s = Some r -> (length (finished s) < 1)%nat -> step s Silent (with_relay (with_finished s (finished s ++ [r])) None)
(* frontend_handler.go:217-228 *)
| records : forall r l, finished s = r :: l -> poster s = Idle -> step s (Records r) (with_poster (with_finished s l) (next r))
| asks : forall r m, poster s = Asking r m ->
    step s (Requests (length (requests s))) (with_poster (with_requests s (requests s ++ [{| from := Some r; about := m; at_ := Received |}])) (Waiting (length (requests s))))
| cannot_ask : forall r m, poster s = Asking r m -> step s Breaks (with_poster s Idle)
(* requests of others, and through the grader's own /broadcast/, frontend_handler.go:766-783 *)
| others : forall m, step s (Requests (length (requests s))) (with_requests s (requests s ++ [{| from := None; about := m; at_ := Received |}]))
(* main.go:260-272 *)
| drops : forall i q, nth_error (requests s) i = Some q -> at_ q = Received -> step s (Drops i) (set_stage s i q Answered)
| accepts : forall i q, nth_error (requests s) i = Some q -> at_ q = Received ->
    step s Silent (set_stage s i q (match refresh_of (about q) with Some c => Sending c | None => Answered end))
| notes : forall i q c, nth_error (requests s) i = Some q -> at_ q = Sending c -> (length (contestChan s) < 1)%nat ->
    step s (Notes i c) (set_stage (with_chan s (contestChan s ++ [c])) i q Answered)
(* the answer arrives at the grader, or the connection breaks: there is no timeout
   (frontend_handler.go:503) *)
| replies : forall i q, poster s = Waiting i -> nth_error (requests s) i = Some q -> at_ q = Answered -> step s Silent (with_poster s Idle)
| breaks : forall i, poster s = Waiting i -> step s Breaks (with_poster s Idle)
(* main.go:150-194; there is no timeout here either (main.go:222) *)
| hears_known : forall c l, refreshing s = None -> contestChan s = c :: l -> is_known c (known s) = true ->
    step s (Hears c) (with_loop (with_chan s l) (mark c (known s)) None)
| hears_new : forall c l, refreshing s = None -> contestChan s = c :: l -> is_known c (known s) = false ->
    step s (Refreshes c) (with_loop (with_chan s l) (known s ++ [(c, false)]) (Some c))
| frontend_answers : forall c, refreshing s = Some c -> step s FrontendAnswers (with_loop s (known s) None)
| elapses : forall k1 c k2, refreshing s = None -> known s = k1 ++ (c, false) :: k2 -> step s (Elapses c) (with_loop s (k1 ++ k2) None)
(* delete(eventSet, ...) comes after the request, which nobody else sees *)
| elapses_again : forall k1 c k2, refreshing s = None -> known s = k1 ++ (c, true) :: k2 -> step s (Refreshes c) (with_loop s (k1 ++ k2) (Some c)).
Inductive exec : list label -> state -> Prop :=
| exec_nil : exec [] start
| exec_snoc : forall ls s l s', exec ls s -> step s l s' -> exec (ls ++ [l]) s'.
(* From a state on. *)
Inductive steps (s : state) : list label -> state -> Prop :=
| steps_nil : steps s [] s
| steps_snoc : forall ls s1 l s2, steps s ls s1 -> step s1 l s2 -> steps s (ls ++ [l]) s2.
End Pipeline.
Arguments callers {run} _. Arguments finishedRuns {run} _. Arguments relay {run} _. Arguments finished {run} _. Arguments poster {run} _. Arguments requests {run} _.
Arguments contestChan {run} _. Arguments known {run} _. Arguments refreshing {run} _. Arguments from {run} _. Arguments about {run} _. Arguments at_ {run} _.
Arguments Idle {run}. Arguments Asking {run} _ _. Arguments Waiting {run} _. Arguments start {run}.
Arguments Finishes {run} _. Arguments Enters {run} _. Arguments Records {run} _. Arguments Requests {run} _. Arguments Drops {run} _. Arguments Notes {run} _ _.
Arguments Hears {run} _. Arguments Refreshes {run} _. Arguments FrontendAnswers {run}. Arguments Elapses {run} _. Arguments Breaks {run}. Arguments Silent {run}.
Arguments step {run} _ _ _ _ _. Arguments exec {run} _ _ _ _. Arguments steps {run} _ _ _ _ _. Arguments next {run} _ _ _.
Arguments set_stage {run} _ _ _ _. 

(* Readings of an execution of the pipeline of finished runs. *)
From Coq Require Import String List Arith Bool.
From Verif Require Import PpModel.
Import ListNotations.

Section Spec.
Context {run : Type}.
Variable SendBroadcast : bool.
Variable message_of : run -> option message.
(* The runs that were closed, that were taken by the post-processor, and that were
   recorded, in order. *)
Definition closed (ls : list (label run)) : list run := flat_map (fun l => match l with Finishes r => [r] | _ => [] end) ls.
Definition taken (ls : list (label run)) : list run := flat_map (fun l => match l with Enters r => [r] | _ => [] end) ls.
Definition recorded (ls : list (label run)) : list run := flat_map (fun l => match l with Records r => [r] | _ => [] end) ls.
(* The run's scoreboard is that of contest c. *)
Definition in_contest (c : string) (r : run) : Prop := SendBroadcast = true /\ exists m, message_of r = Some m /\ refresh_of m = Some c.
Definition contest_run (r : run) : bool :=
  SendBroadcast && match message_of r with Some m => match refresh_of m with Some _ => true | None => false end | None => false end.
(* Failures: of the grader's requests, and of the broadcaster's queue. *)
Definition failure (l : label run) : bool := match l with Breaks | Drops _ => true | _ => false end.
Definition answer (l : label run) : bool := match l with FrontendAnswers => true | _ => false end.
(* What starts something. *)
Definition begins (s : state run) (l : label run) (s' : state run) : Prop :=
  (exists r, l = Finishes r) \/ (exists i, l = Requests i /\ poster s' = poster s).
(* Nothing is left to do. *)
Definition idle (s : state run) : Prop :=
  callers s = [] /\ finishedRuns s = [] /\ relay s = None /\ finished s = [] /\ poster s = Idle /\
  (forall q, In q (requests s) -> at_ q = Answered) /\ contestChan s = [] /\ known s = [] /\ refreshing s = None.
(* How much is left to do. *)
Definition options {A} (o : option A) : nat := match o with Some _ => 1 | None => 0 end.
Fixpoint sum_of {A} (f : A -> nat) (l : list A) : nat := match l with [] => 0 | a :: l => f a + sum_of f l end.
Definition left (s : state run) : nat :=
  20 * length (callers s) + 19 * length (finishedRuns s) + 18 * options (relay s) + 17 * length (finished s) +
  match poster s with Idle => 0 | Asking _ _ => 16 | Waiting _ => 1 end +
  sum_of (fun q => match at_ q with Received => 10 | Sending _ => 8 | Answered => 0 end) (requests s) +
  6 * length (contestChan s) + sum_of (fun k : string * bool => if snd k then 3 else 1) (known s) + options (refreshing s).
(* The broadcaster's loop waits for the frontend, another contest waits for the loop, and
   the grader waits for the answer to a request that waits for that. *)
Definition stalled (s : state run) : Prop :=
  refreshing s <> None /\ contestChan s <> [] /\ exists i q c, poster s = Waiting i /\ nth_error (requests s) i = Some q /\ at_ q = Sending c.
(* Executions in which nothing new starts. *)
Inductive settles (s : state run) : list (label run) -> state run -> Prop :=
| settles_nil : settles s [] s
| settles_snoc : forall ls s1 l s2, settles s ls s1 -> step SendBroadcast message_of s1 l s2 -> ~ begins s1 l s2 -> settles s (ls ++ [l]) s2.
End Spec.

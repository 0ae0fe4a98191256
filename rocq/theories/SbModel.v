(* The scoreboard update loop of cmd/omegaup-broadcaster/main.go. *)
From Coq Require Import String List ZArith Bool.
Import ListNotations.
Local Open Scope Z_scope.

(* main.go:82-85.  Instants are integers (nanoseconds); time.Now is monotone. *)
Record event := Event { contestAlias : string; deadline : Z }.

(* main.go:87: a slice of events, as its length and its elements.  (Pointers to
   events are never shared or modified, so the events themselves are stored.) *)
Record heap := Heap { len : nat; at_ : nat -> event }.
Definition elements (h : heap) : list event := map (at_ h) (seq 0 (len h)).

(* main.go:89-93. *)
Definition Swap (h : heap) (i j : nat) : heap :=
  Heap (len h) (fun k => if Nat.eqb k i then at_ h j else if Nat.eqb k j then at_ h i else at_ h k).
Definition Less (h : heap) (i j : nat) : bool := deadline (at_ h i) <? deadline (at_ h j).
(* main.go:95-97. *)
Definition Push (h : heap) (x : event) : heap :=
  Heap (S (len h)) (fun k => if Nat.eqb k (len h) then x else at_ h k).
(* main.go:99-105; None models the panic on an empty slice. *)
Definition Pop (h : heap) : option (event * heap) :=
  match len h with O => None | S n => Some (at_ h n, Heap n (at_ h)) end.

(* container/heap (standard library), up, down, Push and Pop; the loops run at
   most as often as the fuel given. *)
Fixpoint up (fuel : nat) (h : heap) (j : nat) : heap :=
  match fuel with
  | O => h
  | S fuel => let i := Nat.div (j - 1) 2 in
      if Nat.eqb i j || negb (Less h j i) then h else up fuel (Swap h i j) i
  end.
Fixpoint down (fuel : nat) (h : heap) (i n : nat) : heap :=
  match fuel with
  | O => h
  | S fuel => let j1 := (2 * i + 1)%nat in
      if Nat.leb n j1 then h
      else let j := if Nat.ltb (j1 + 1) n && Less h (j1 + 1) j1 then (j1 + 1)%nat else j1 in
           if negb (Less h j i) then h else down fuel (Swap h i j) j n
  end.
Definition heap_Push (h : heap) (x : event) : heap := let h := Push h x in up (len h) h (len h - 1).
Definition heap_Pop (h : heap) : option (event * heap) :=
  let n := (len h - 1)%nat in Pop (down (len h) (Swap h 0 n) 0 n).

(* time.Timer (standard library, before go 1.23): armed, with the instant it is
   due or never (the duration math.MaxInt64 of main.go:145, 292 years, is taken
   to be infinite); fired, with a value in its channel; or neither. *)
Inductive timer := Armed (due : option Z) | Fired | Idle.
(* Stop reports whether it stopped an armed timer. *)
Definition Stop (t : timer) : bool * timer := match t with Armed _ => (true, Idle) | t => (false, t) end.

Inductive entry := Received (c : string) (t : Z) | Requested (c : string) (t : Z).

(* The variables of main.go:145-148; pending is the channel of main.go:220
   together with the handlers blocked sending to it (main.go:268); now is the
   clock.  stuck: the loop waits for ever in main.go:165; panicked: heap.Pop on
   an empty heap.  log: events received by the loop and requests started, newest
   first. *)
Record state := St {
  events : heap; eventSet : list (string * bool); tm : timer; pending : list string;
  now : Z; stuck : bool; panicked : bool; log : list entry }.
Definition init (t0 : Z) : state := St (Heap 0 (fun _ => Event EmptyString 0)) [] (Armed None) [] t0 false false [].

(* Go maps from string to bool. *)
Fixpoint lookup (m : list (string * bool)) (c : string) : option bool :=
  match m with [] => None | (k, b) :: m => if String.eqb k c then Some b else lookup m c end.
Definition delete (m : list (string * bool)) (c : string) := filter (fun kb => negb (String.eqb (fst kb) c)) m.
Definition insert (m : list (string * bool)) (c : string) (b : bool) := (c, b) :: delete m c.

(* The environment: a handler has sent an alias, time passes, the timer becomes
   due.  The loop: one iteration of main.go:150-203, either case.  Between the
   steps of the loop anything may happen, in particular the time a request takes
   (main.go:107-137) is time that passes after the step that starts it: nothing
   the loop does after the request (main.go:201) is visible to others.  Within
   an iteration, up to the start of its request, the clock does not advance. *)
Inductive step_label := Arrive (c : string) | Tick (d : nat) | Due | LoopReceive | LoopTimer.

Section Loop.
Variable interval : Z. (* ctx.Config.Broadcaster.ScoreboardUpdateTimeout *)

Definition loop_receive (s : state) : state :=
  match s with St ev es tm pd t sk pn lg =>
  match pd with
  | [] => s
  | c :: pd =>
      let lg := Received c t :: lg in
      match lookup es c with
      | Some _ => St ev (insert es c true) tm pd t sk pn lg                        (* main.go:153-156 *)
      | None =>
          let es := insert es c false in                                           (* 158 *)
          let ev := heap_Push ev (Event c (t + interval)) in                       (* 159-162 *)
          let '(tm, sk) :=
            if Nat.eqb (len ev) 1 then                                             (* 163-168 *)
              let '(ok, tm) := Stop tm in
              if ok then (Armed (Some (Z.max t (t + interval))), sk)
              else match tm with
                   | Fired => (Armed (Some (Z.max t (t + interval))), sk)
                   | _ => (tm, true)
                   end
            else (tm, sk) in
          if sk then St ev es tm pd t true pn lg
          else St ev es tm pd t sk pn (Requested c t :: lg)                        (* 170-175 *)
      end
  end end.

Definition loop_timer (s : state) : state :=
  match s with St ev es tm pd t sk pn lg =>
  match tm with
  | Fired =>
      if Nat.eqb (len ev) 0 then St ev es (Armed None) pd t sk pn lg               (* 177-180 *)
      else match heap_Pop ev with                                                  (* 181 *)
      | None => St ev es Idle pd t sk true lg
      | Some (e, ev) =>
          let tm := if Nat.eqb (len ev) 0 then Armed None                          (* 182-186 *)
                    else Armed (Some (Z.max t (deadline (at_ ev 0)))) in
          let lg := match lookup es (contestAlias e) with                          (* 188-195 *)
                    | Some true => Requested (contestAlias e) t :: lg
                    | _ => lg end in
          St ev (delete es (contestAlias e)) tm pd t sk pn lg                      (* 196 *)
      end
  | _ => s
  end end.

Definition step (s : state) (l : step_label) : state :=
  if stuck s || panicked s then
    match s, l with
    | St ev es tm pd t sk pn lg, Arrive c => St ev es tm (pd ++ [c]) t sk pn lg
    | St ev es tm pd t sk pn lg, Tick d => St ev es tm pd (t + Z.of_nat d) sk pn lg
    | _, _ => s
    end
  else match l with
  | Arrive c => match s with St ev es tm pd t sk pn lg => St ev es tm (pd ++ [c]) t sk pn lg end
  | Tick d => match s with St ev es tm pd t sk pn lg => St ev es tm pd (t + Z.of_nat d) sk pn lg end
  | Due => match s with St ev es tm pd t sk pn lg =>
             match tm with
             | Armed (Some d) => if d <=? t then St ev es Fired pd t sk pn lg else s
             | _ => s end end
  | LoopReceive => loop_receive s
  | LoopTimer => loop_timer s
  end.
Definition run (t0 : Z) (ls : list step_label) : state := fold_left step ls (init t0).
End Loop.

(* main.go:255-269: which broadcast requests are passed to the loop; accepted
   is what b.Broadcast returned, mentions_update whether the text contains
   "message":"/run/update/" (with its quotes). *)
Definition scoreboard_event (accepted : bool) (contest : string) (mentions_update : bool) : option string :=
  if accepted && negb (String.eqb contest EmptyString) && mentions_update then Some contest else None.

(* cmd/omegaup-grader/main.go:165-302, cmd/omegaup-broadcaster/main.go:205-210, 322-386,
   common/server.go:13-60 and cmd/omegaup-grader/ci.go:978-1001: how the two servers
   start, serve and stop on SIGINT or SIGTERM. *)
From Coq Require Import List Bool Arith.
Import ListNotations.

(* What is told to shut down: an http.Server with the goroutine of RunServer, or the
   goroutine of the continuous integration (ciHandler.run). *)
Inductive kind := Server | Worker.
(* In this order: main.go:235-284, and broadcaster/main.go:330-358. *)
Definition grader := [Worker; Server (* /ephemeral/, /ci/ *); Server (* runners *); Server (* frontend *)].
Definition broadcaster := [Server (* event streams *); Server (* the rest *)].

Record part := {
  what : kind;
  running : bool;              (* its goroutine was started and has not returned *)
  listening : bool;            (* a server's port is open *)
  called : bool;               (* Shutdown was called *)
  conns : list (option nat)    (* its connections, without or with a request; for the worker, the report at hand *)
}.
Definition idle (k : kind) : part := {| what := k; running := false; listening := false; called := false; conns := [] |}.

(* Where main is. *)
Inductive place :=
| Starting (k : nat)   (* before part k is started *)
| Ready                (* main.go:289: <-stopChan *)
| Next (k : nat)       (* main.go:294: before the Shutdown of part k *)
| Inside (k : nat)     (* in it *)
| Joining              (* main.go:299: wg.Wait() *)
| Exited | Panicked.
Record state := {
  at_ : place;
  parts : list part;
  expired : bool;        (* cancelCtx's 5 seconds, main.go:293, are over *)
  reports : list nat;    (* reportChan, ci.go:1013: named by the requests that sent them *)
  next : nat             (* a name for the next request *)
}.

Definition set_part (l : list part) (k : nat) (p : part) : list part := firstn k l ++ p :: skipn (S k) l.
Definition set_conn (l : list (option nat)) (i : nat) (c : option nat) : list (option nat) := firstn i l ++ c :: skipn (S i) l.
Definition drop_conn (l : list (option nat)) (i : nat) : list (option nat) := firstn i l ++ skipn (S i) l.
Definition with_conns (p : part) (l : list (option nat)) : part :=
  {| what := what p; running := running p; listening := listening p; called := called p; conns := l |}.
Definition put (s : state) (k : nat) (p : part) : state :=
  {| at_ := at_ s; parts := set_part (parts s) k p; expired := expired s; reports := reports s; next := next s |}.
Definition go (s : state) (x : place) : state :=
  {| at_ := x; parts := parts s; expired := expired s; reports := reports s; next := next s |}.

(* [Starts k r]: a request of server k is being served; the worker takes report r.
   [Answers k r]: it is over.  [Submits k r]: it is over, and left a report to the worker. *)
Inductive event :=
| Begins (k : nat) | SaysReady | Listens (k : nat) | Connects (k : nat)
| Starts (k r : nat) | Answers (k r : nat) | Submits (k r : nat) | Hijacks (k r : nat) | Closes (k : nat)
| Signal | Expires | Calls (k : nat) | Returns (k : nat) (quiet : bool) | Ends (k : nat) | Joins | Exits | Panics.

Definition alive (s : state) : Prop := at_ s <> Exited /\ at_ s <> Panicked.

(* main *)
Inductive main_step (s : state) : event -> state -> Prop :=
(* RunServer (server.go:20-60) returns once it started its goroutine; so does registerCIHandlers (ci.go:1003-1019) *)
| begins : forall k p, at_ s = Starting k -> nth_error (parts s) k = Some p ->
    main_step s (Begins k) (go (put s k {| what := what p; running := true; listening := false; called := false; conns := [] |}) (Starting (S k)))
(* daemon.SdNotify(false, "READY=1"), main.go:287 *)
| is_ready : at_ s = Starting (length (parts s)) -> main_step s SaysReady (go s Ready)
(* os/signal sends to stopChan without waiting, and it has no buffer (main.go:174): only
   the receive at line 289 gets a signal *)
| signalled : at_ s = Ready -> main_step s Signal (go s (Next 0))
| calls : forall k p, at_ s = Next k -> nth_error (parts s) k = Some p ->
    main_step s (Calls k) (go (put s k {| what := what p; running := running p; listening := false; called := true; conns := conns p |}) (Inside k))
(* http.Server.Shutdown looks whether there are connections left before it looks at the
   context; ciHandler.Shutdown, ci.go:992-1001, waits for whichever comes first *)
| drained : forall k p, at_ s = Inside k -> nth_error (parts s) k = Some p ->
    match what p with Server => conns p = [] | Worker => running p = false end -> main_step s (Returns k true) (go s (Next (S k)))
| gives_up : forall k p, at_ s = Inside k -> nth_error (parts s) k = Some p -> expired s = true ->
    match what p with Server => conns p <> [] | Worker => True end -> main_step s (Returns k false) (go s (Next (S k)))
| joins : at_ s = Next (length (parts s)) -> main_step s Joins (go s Joining)
(* wg.Wait: the goroutines of RunServer, not those of the requests *)
| exits : at_ s = Joining -> (forall k p, nth_error (parts s) k = Some p -> what p = Server -> running p = false) -> main_step s Exits (go s Exited).

(* the goroutines of RunServer and ciHandler.run, as they end *)
Inductive ending_step (s : state) : event -> state -> Prop :=
(* ListenAndServe returns ErrServerClosed at once when Shutdown is called *)
| server_ends : forall k p, alive s -> nth_error (parts s) k = Some p -> what p = Server -> running p = true -> called p = true ->
    ending_step s (Ends k) (put s k {| what := what p; running := false; listening := listening p; called := called p; conns := conns p |})
(* ci.go:982-984 *)
| worker_ends : forall k p, alive s -> nth_error (parts s) k = Some p -> what p = Worker -> running p = true -> called p = true -> conns p = [] ->
    ending_step s (Ends k) (put s k {| what := what p; running := false; listening := listening p; called := called p; conns := conns p |}).

(* everything else: the clients, the requests, the clock *)
Inductive world_step (s : state) : event -> state -> Prop :=
| unheard : alive s -> at_ s <> Ready -> world_step s Signal s
| expires : forall k, at_ s = Next k \/ at_ s = Inside k -> world_step s Expires
    {| at_ := at_ s; parts := parts s; expired := true; reports := reports s; next := next s |}
| listens : forall k p, alive s -> nth_error (parts s) k = Some p -> what p = Server -> running p = true -> called p = false -> listening p = false ->
    world_step s (Listens k) (put s k {| what := what p; running := running p; listening := true; called := called p; conns := conns p |})
(* server.go:33, 55: the port cannot be opened, or the listener fails *)
| panics : forall k p, alive s -> nth_error (parts s) k = Some p -> what p = Server -> running p = true -> called p = false ->
    world_step s Panics (go s Panicked)
| connects : forall k p, alive s -> nth_error (parts s) k = Some p -> what p = Server -> listening p = true ->
    world_step s (Connects k) (put s k (with_conns p (conns p ++ [None])))
(* a request on a connection that there is, also after Shutdown was called *)
| starts : forall k p i, alive s -> nth_error (parts s) k = Some p -> what p = Server -> nth_error (conns p) i = Some None ->
    world_step s (Starts k (next s)) {| at_ := at_ s; parts := set_part (parts s) k (with_conns p (set_conn (conns p) i (Some (next s))));
      expired := expired s; reports := reports s; next := S (next s) |}
| answers : forall k p i r, alive s -> nth_error (parts s) k = Some p -> nth_error (conns p) i = Some (Some r) ->
    world_step s (Answers k r) (put s k (with_conns p (match what p with Server => set_conn (conns p) i None | Worker => drop_conn (conns p) i end)))
(* ci.go:834, the last thing a request does *)
| submits : forall k p i r, alive s -> nth_error (parts s) k = Some p -> what p = Server -> nth_error (conns p) i = Some (Some r) -> length (reports s) < 128 ->
    world_step s (Submits k r) {| at_ := at_ s; parts := set_part (parts s) k (with_conns p (set_conn (conns p) i None));
      expired := expired s; reports := reports s ++ [r]; next := next s |}
(* websockets: broadcaster/main.go:289; http.Server forgets the connection *)
| hijacks : forall k p i r, alive s -> nth_error (parts s) k = Some p -> what p = Server -> nth_error (conns p) i = Some (Some r) ->
    world_step s (Hijacks k r) (put s k (with_conns p (drop_conn (conns p) i)))
(* by the client, or by Shutdown *)
| closes : forall k p i, alive s -> nth_error (parts s) k = Some p -> what p = Server -> nth_error (conns p) i = Some None ->
    world_step s (Closes k) (put s k (with_conns p (drop_conn (conns p) i)))
(* ci.go:986-988: also after Shutdown, since select chooses at random *)
| takes : forall k p r l, alive s -> nth_error (parts s) k = Some p -> what p = Worker -> running p = true -> conns p = [] -> reports s = r :: l ->
    world_step s (Starts k r) {| at_ := at_ s; parts := set_part (parts s) k (with_conns p [Some r]);
      expired := expired s; reports := l; next := next s |}.

Definition step (s : state) (e : event) (s' : state) : Prop := main_step s e s' \/ ending_step s e s' \/ world_step s e s'.
Definition init (ks : list kind) : state := {| at_ := Starting 0; parts := map idle ks; expired := false; reports := []; next := 0 |}.
(* What happened, the oldest first. *)
Inductive run (ks : list kind) : list event -> state -> Prop :=
| run_nil : run ks [] (init ks)
| run_snoc : forall tr s e s', run ks tr s -> step s e s' -> run ks (tr ++ [e]) s'.

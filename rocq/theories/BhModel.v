(* Model of the HTTP handlers of the broadcaster,
   cmd/omegaup-broadcaster/main.go:234-328, with common/server.go:63-73, over the
   Broadcaster (BcModel) and NewSubscriber (BcFilterModel).

   A handler runs in a goroutine of its own; one of its steps ends where it
   touches a channel.  The loop of the Broadcaster and the reader of contestChan
   are goroutines too.  What a client sends and what the frontend answers is
   arbitrary: request i is given by req.

   Simplifications: net/http and gorilla are trusted to upgrade or not
   (upgrade_ok), to recover a panic of a handler by dropping its connection, to
   ignore writes to a hijacked connection and to give the path with which the
   mux chose the handler; the decoding of the posted JSON is given by the request
   (None: it fails); pings and the frames on the wire are in TrModel; the CORS
   headers of -insecure are left out. *)
From Coq Require Import String Ascii List Arith NArith ZArith Bool.
From Verif Require Import GoStr BcFilterModel BcModel.
Import ListNotations.
Local Open Scope string_scope.

(* strings.TrimSpace, on ASCII spaces. *)
Definition is_space (c : ascii) : bool :=
  let n := N_of_ascii c in ((9 <=? n) && (n <=? 13) || (n =? 32))%N.
Fixpoint trim_left (s : string) : string := match s with String c s' => if is_space c then trim_left s' else s | "" => "" end.
Fixpoint trim_right (s : string) : string :=
  match s with
  | "" => ""
  | String c s' => match trim_right s' with "" => if is_space c then "" else String c "" | t => String c t end
  end.
Definition TrimSpace (s : string) : string := trim_right (trim_left s).

(* AcceptsMimeType, common/server.go:63-73; accept is r.Header["Accept"]. *)
Definition AcceptsMimeType (accept : list string) (mime : string) : bool :=
  existsb (fun a => existsb (fun x => TrimSpace x =? mime) (split "," a)) accept.

(* strings.Contains *)
Fixpoint Contains (s p : string) : bool := prefix p s || match s with "" => false | String _ s => Contains s p end.
Definition quote : string := String "034" "".
Definition run_update : string := quote ++ "message" ++ quote ++ ":" ++ quote ++ "/run/update/" ++ quote.

Inductive request :=
| Events (accept : list string) (upgrade_ok : bool) (filters : list string) (reply : answer) (reply_body : string)
| PostBroadcast (method : string) (body : option message)
| Deauth (path : string).

(* What the client gets.  Streamed: the event stream, or a websocket closed after
   use; Switched: a websocket that was upgraded and closed, with nothing sent on
   it; Plain: an ordinary response; content_type None: not set by the handler. *)
Inductive response := Streamed | Switched | Plain (status : Z) (body : string) (content_type : option string).

Inductive phase :=
| Idle                      (* not arrived *)
| Connected                 (* transport made: before line 302 *)
| Created                   (* subscriber made: before line 321 *)
| Streaming                 (* in subscriber.Run: line 327 *)
| Leaving                   (* Run returned: before the deferred Unsubscribe of line 325 *)
| Posted (contest : string) (* before the send at line 268 *)
| Answered (r : response)
| Aborted.                  (* the handler panicked; its connection is dropped *)

Record sys := Sys {
  bc : state;
  at_ : nat -> phase;
  contestChan : list string;        (* capacity 1, main.go:220 *)
  taken : list string;              (* received from contestChan by updateScoreboardLoop *)
  deauthed : list string;           (* ghost: users taken from the deauth channel by the loop *)
  calls : list event                (* ghost: what was done to the Broadcaster *)
}.

Section System.
Variable req : nat -> request.
Variable channelLength : nat.

(* main.go:302-312: the filters of the query are joined by commas. *)
Definition nobody : subscriber := mkSub "" false [] [] [] [].
Definition created (i : nat) : outcome subscriber :=
  match req i with Events _ _ fs reply _ => NewSubscriber (join "," fs) reply | _ => Err end.
Definition info (i : nat) : subscriber := match created i with Ok s => s | _ => nobody end.
(* main.go:286 *)
Definition websocket (i : nat) : bool :=
  match req i with Events accept _ _ _ _ => negb (AcceptsMimeType accept "text/event-stream") | _ => false end.
Notation bstep := (step info websocket channelLength).

Definition init_sys : sys := Sys init (fun _ => Idle) [] [] [] [].
Definition move (s : sys) (i : nat) (p : phase) : sys :=
  match s with Sys b a c t d e => Sys b (set a i p) c t d e end.
Definition call (s : sys) (ev : event) : sys :=
  match s with Sys b a c t d e => Sys (bstep b ev) a c t d (e ++ [ev]) end.

(* What a client sees of a refusal with a status: a websocket has been hijacked,
   so the writes have no effect. *)
Definition refuse (i : nat) (status : Z) (body : string) : phase :=
  Answered (if websocket i then Switched else Plain status body None).
(* main.go:313-320: an UpstreamError is passed on, any other error is not
   answered, which net/http takes for 200 with an empty body. *)
Definition refusal (i : nat) : phase :=
  match req i with
  | Events _ _ fs (Some (status, Some _)) body =>
      match parse_filters (split "," (join "," fs)) with Ok _ => refuse i status body | _ => refuse i 200 "" end
  | _ => refuse i 200 ""
  end.

Definition accepts_message (s : sys) : bool := (length (q_messages (bc s)) <? channelLength)%nat.   (* subscriber.go:170-180 *)

(* main.go:267-273: the answer to a message that was accepted.  WriteHeader comes
   first, so that the content type set after it is not sent. *)
Definition ok_answer : response := Plain 200 ("{" ++ quote ++ "status" ++ quote ++ ":" ++ quote ++ "ok" ++ quote ++ "}") None.

(* One step of the handler of request i. *)
Definition go (s : sys) (i : nat) : sys :=
  match req i, at_ s i with
  | Events _ upgrade_ok _ _ _, Idle =>                                      (* main.go:277-300 *)
      if websocket i && negb upgrade_ok then move s i (Answered (Plain 400 "Bad Request" None)) else move s i Connected
  | Events _ _ _ _ _, Connected =>                                          (* main.go:302-320 *)
      match created i with Ok _ => move s i Created | Err => move s i (refusal i) | Panic => move s i Aborted end
  | Events _ _ _ _ _, Created =>                                            (* main.go:321-324 *)
      if (length (q_subscribe (bc s)) <? 5)%nat then move (call s (CallSubscribe i)) i Streaming
      else move s i (refuse i 503 "")
  | Events _ _ _ _ _, Streaming =>                                          (* subscriber.go:358-366 *)
      let s' := call s (Receive i) in if finished (bc s') i then move s' i Leaving else s'
  | Events _ _ _ _ _, Leaving =>                                            (* main.go:325 *)
      move (call s (CallUnsubscribe i)) i (Answered Streamed)
  | PostBroadcast method body, Idle =>                                      (* main.go:248-267 *)
      if negb (method =? "POST") then move s i (Answered (Plain 400 "" None))
      else match body with
           | None => move s i (Answered (Plain 400 "" None))
           | Some m =>
               if accepts_message s then
                 let s' := call s (CallBroadcast m) in
                 if negb (m_contest m =? "") && Contains (m_text m) run_update then move s' i (Posted (m_contest m))
                 else move s' i (Answered ok_answer)
               else move s i (Answered (Plain 503 "" None))
           end
  | PostBroadcast _ _, Posted c =>                                          (* main.go:268-272 *)
      match contestChan s with
      | [] => match s with Sys b a _ t d e => Sys b (set a i (Answered ok_answer)) [c] t d e end
      | _ :: _ => s                                                         (* blocks *)
      end
  | Deauth path, Idle =>                                                    (* main.go:235-241 *)
      match split "/" path with
      | _ :: _ :: user :: _ =>
          if (length (q_deauth (bc s)) <? 5)%nat then move (call s (CallDeauthenticate user)) i (Answered (Plain 200 "" None))
          else s                                                            (* blocks: subscriber.go:160 *)
      | _ => move s i (Answered (Plain 400 "" None))
      end
  | _, _ => s
  end.

Inductive label :=
| Go (i : nat)              (* the handler of request i takes its next step *)
| Gone (i : nat)            (* the peer of i leaves or a write to it fails: Run returns, subscriber.go:355-356, 363-372 *)
| LSubscribe | LUnsubscribe | LDeauth (order : list nat) | LMessage (order : list nat)   (* an iteration of b.Run *)
| TakeContest.              (* updateScoreboardLoop receives, main.go:152 *)

Definition sstep (s : sys) (l : label) : sys :=
  match l with
  | Go i => go s i
  | Gone i => match at_ s i with Streaming => move s i Leaving | _ => s end
  | LSubscribe => call s LoopSubscribe
  | LUnsubscribe => call s LoopUnsubscribe
  | LDeauth order =>
      match call s (LoopDeauth order) with
      | Sys b a c t d e =>
          Sys b a c t (d ++ match q_deauth (bc s) with u :: _ => if is_order order (registered (bc s)) then [u] else [] | [] => [] end) e
      end
  | LMessage order => call s (LoopMessage order)
  | TakeContest => match s with Sys b a (c :: r) t d e => Sys b a r (t ++ [c]) d e | _ => s end
  end.
Definition srun (ls : list label) : sys := fold_left sstep ls init_sys.
End System.

(* Tracing events: common/tracing.go, and their way from a runner to the grader
   (cmd/omegaup-runner/main.go:577-588, cmd/omegaup-grader/runner_handler.go:83-105).

   JSON texts are taken as the values they stand for; strings are taken to be
   valid UTF-8 (which encoding/json enforces), objects keep the order of their
   keys.  A number is an integer literal, or one with a fraction or an exponent. *)
From Coq Require Import String Ascii List Arith NArith ZArith QArith Bool.
Import ListNotations.
Local Open Scope string_scope.
Local Open Scope Z_scope.
Local Infix "=s?" := String.eqb (at level 70).

Inductive json :=
| JNull | JBool (b : bool) | JInt (z : Z) | JDec (q : Q) | JStr (s : string)
| JArr (l : list json) | JObj (l : list (string * json)).
(* The contents of an interface{}: an integer of any Go type, or a float64. *)
Inductive value :=
| VNull | VBool (b : bool) | VInt (z : Z) | VFloat (q : Q) | VStr (s : string)
| VArr (l : list value) | VObj (l : list (string * value)).

(* A map with string keys: the list of its entries.  m[k] = v *)
Fixpoint set {A} (m : list (string * A)) (k : string) (v : A) : list (string * A) :=
  match m with
  | [] => [(k, v)]
  | (k', v') :: m' => if k' =s? k then (k, v) :: m' else (k', v') :: set m' k v
  end.
Fixpoint get {A} (m : list (string * A)) (k : string) : option A :=
  match m with [] => None | (k', v) :: m' => if k' =s? k then Some v else get m' k end.
(* A map that may be nil. *)
Definition args_get (a : option (list (string * value))) (k : string) : option value :=
  match a with None => None | Some m => get m k end.

(* ---- events, tracing.go:66-119 ---- *)
Definition EventBegin := "B". Definition EventClockSync := "c". Definition EventEnd := "E".
Definition EventComplete := "X". Definition EventInstant := "i". Definition EventMetadata := "M".
Record NormalEvent := {
  Name : string; Type_ : string; Timestamp : Z; PID : Z; TID : Z;
  Args : option (list (string * value)); finalized : bool
}.
Inductive event :=
| Normal (n : NormalEvent)
| Complete (n : NormalEvent) (Duration : Z)
| Issuer (n : NormalEvent) (SyncID : Z).
Definition base (e : event) : NormalEvent := match e with Normal n | Complete n _ | Issuer n _ => n end.
(* Finalize, lines 78-80, 89-95, 108-116; now: what time.Now().UnixNano()/1000 gives.
   None: a panic (writing to a nil map). *)
Definition finalize_normal (n : NormalEvent) : NormalEvent :=
  {| Name := Name n; Type_ := Type_ n; Timestamp := Timestamp n; PID := PID n; TID := TID n; Args := Args n; finalized := true |}.
Definition Finalize (now : Z) (e : event) : option event :=
  match e with
  | Normal n => Some (Normal (finalize_normal n))
  | Complete n d => if finalized n then Some e else Some (Complete (finalize_normal n) (now - Timestamp n))
  | Issuer n s =>
      if finalized n then Some e
      else match Args n with
           | None => None
           | Some m => Some (Issuer {| Name := Name n; Type_ := Type_ n; Timestamp := now; PID := PID n; TID := TID n;
                                       Args := Some (set (set m "sync_id" (VInt s)) "issue_ts" (VInt (Timestamp n))); finalized := true |} s)
           end
  end.

(* ---- the factory, lines 299-378 ---- *)
(* fnv.New32a *)
Definition fnv32a (s : string) : Z :=
  fold_left (fun h c => (Z.lxor h (Z.of_N (N_of_ascii c)) * 16777619) mod 2 ^ 32) (list_ascii_of_string s) 2166136261.
(* NewSyncID, lines 37-52: the n-th call (from 1) of a process, whose counter started at c0. *)
Definition NewSyncID (c0 : Z) (n : nat) : Z := (c0 + Z.of_nat n) mod 2 ^ 64.
Record EventFactory := { processName : string; threadName : string; pid : Z; tid : Z }.
Definition NewEventFactory (p t : string) : EventFactory :=
  {| processName := p; threadName := t; pid := fnv32a p; tid := fnv32a t |}.
Definition NewEvent (f : EventFactory) (now : Z) (name type : string) (args : list (string * value)) : NormalEvent :=
  {| Name := name; Type_ := type; Timestamp := now; PID := pid f; TID := tid f;
     Args := match args with [] => None | _ => Some (fold_left (fun m a => set m (fst a) (snd a)) args []) end; finalized := false |}.
Definition NewIssuerClockSyncEvent (f : EventFactory) (now SyncID : Z) : event :=
  let n := NewEvent f now "clock_sync" EventClockSync [] in
  Issuer {| Name := Name n; Type_ := Type_ n; Timestamp := Timestamp n; PID := PID n; TID := TID n; Args := Some []; finalized := false |} SyncID.
Definition NewReceiverClockSyncEvent (f : EventFactory) (now SyncID : Z) : event :=
  Normal (NewEvent f now "clock_sync" EventClockSync [("sync_id", VInt SyncID)]).
Definition NewCompleteEvent (f : EventFactory) (now : Z) (name : string) (args : list (string * value)) : event :=
  Complete (NewEvent f now name EventComplete args) 0.

(* ---- JSON ---- *)
Section Json.
(* strconv.FormatFloat and ParseFloat on numbers with a fraction or an exponent:
   which literal a float64 is written as, and which float64 it is read as (None:
   out of range). *)
Variable show : Q -> json.
Variable dec : Q -> option Q.
(* ParseFloat on an integer literal: to the nearest number of 53 bits, ties to even. *)
Definition round53 (z : Z) : Z :=
  let a := Z.abs z in
  if a <=? 2 ^ 53 then z
  else let e := Z.log2 a - 52 in
       let q := a / 2 ^ e in
       let r := a mod 2 ^ e in
       let h := 2 ^ (e - 1) in
       let q' := if h <? r then q + 1 else if r <? h then q else if Z.even q then q else q + 1 in
       Z.sgn z * (q' * 2 ^ e).
Definition float_of_int (z : Z) : option Q :=
  let r := round53 z in if 2 ^ 1024 <=? Z.abs r then None else Some (inject_Z r).

(* json.Marshal of an interface{}. *)
Fixpoint enc (v : value) : json :=
  match v with
  | VNull => JNull | VBool b => JBool b | VInt z => JInt z | VFloat q => show q | VStr s => JStr s
  | VArr l => JArr (map enc l)
  | VObj l => JObj (map (fun kv => (fst kv, enc (snd kv))) l)
  end.
(* json.Unmarshal into an interface{}; None: an error. *)
Fixpoint dec_value (j : json) : option value :=
  match j with
  | JNull => Some VNull | JBool b => Some (VBool b) | JStr s => Some (VStr s)
  | JInt z => option_map VFloat (float_of_int z)
  | JDec q => option_map VFloat (dec q)
  | JArr l => option_map VArr ((fix go l := match l with [] => Some [] | x :: r => match dec_value x, go r with Some v, Some vs => Some (v :: vs) | _, _ => None end end) l)
  | JObj l => option_map VObj ((fix go m l := match l with [] => Some m | (k, x) :: r => match dec_value x with Some v => go (set m k v) r | None => None end end) [] l)
  end.

(* json.Marshal of an event: the fields of lines 67-74, 83-85 and 100-103, the
   embedded ones first; an empty map is left out. *)
Definition enc_args (a : option (list (string * value))) : list (string * json) :=
  match a with None | Some [] => [] | Some m => [("args", JObj (map (fun kv => (fst kv, enc (snd kv))) m))] end.
Definition enc_normal (n : NormalEvent) : list (string * json) :=
  ([("name", JStr (Name n)); ("ph", JStr (Type_ n)); ("ts", JInt (Timestamp n)); ("pid", JInt (PID n)); ("tid", JInt (TID n))]
  ++ enc_args (Args n))%list.
Definition enc_event (e : event) : json :=
  match e with
  | Normal n | Issuer n _ => JObj (enc_normal n)
  | Complete n d => JObj (enc_normal n ++ [("dur", JInt d)])%list
  end.
(* MemoryEventCollector.MarshalJSON, lines 187-191. *)
Definition MarshalJSON (events : list event) : json := JArr (map enc_event events).

(* The struct of lines 196-204 as encoding/json fills it: a key selects the field
   with that name, or else the first one it equals up to case; null leaves a field
   as it is (a pointer or a map becomes nil); what does not fit a field is an error. *)
Record raw := { r_name : string; r_type : string; r_ts : Z; r_pid : Z; r_tid : Z; r_args : option (list (string * value)); r_dur : option Z }.
Definition raw0 : raw := {| r_name := ""; r_type := ""; r_ts := 0; r_pid := 0; r_tid := 0; r_args := None; r_dur := None |}.
Definition fields : list string := ["name"; "ph"; "ts"; "pid"; "tid"; "args"; "dur"].
Variable equal_fold : string -> string -> bool.
Definition field_of (key : string) : option string :=
  match find (fun f => f =s? key) fields with Some f => Some f | None => find (fun f => equal_fold f key) fields end.
Definition as_string (old : string) (j : json) : option string :=
  match j with JStr s => Some s | JNull => Some old | _ => None end.
Definition as_int64 (old : Z) (j : json) : option Z :=
  match j with JInt z => if (- 2 ^ 63 <=? z) && (z <? 2 ^ 63) then Some z else None | JNull => Some old | _ => None end.
Fixpoint fill_map (m : list (string * value)) (l : list (string * json)) : option (list (string * value)) :=
  match l with
  | [] => Some m
  | (k, x) :: r => match dec_value x with Some v => fill_map (set m k v) r | None => None end
  end.
Definition as_map (old : option (list (string * value))) (j : json) : option (option (list (string * value))) :=
  match j with
  | JObj l => option_map Some (fill_map (match old with Some m => m | None => [] end) l)
  | JNull => Some None
  | _ => None
  end.
Definition as_pointer (old : option Z) (j : json) : option (option Z) :=
  match j with JNull => Some None | _ => option_map Some (as_int64 0 j) end.
Definition set_field (r : raw) (f : string) (j : json) : option raw :=
  let '{| r_name := n; r_type := t; r_ts := ts; r_pid := p; r_tid := td; r_args := a; r_dur := d |} := r in
  let mk n t ts p td a d := {| r_name := n; r_type := t; r_ts := ts; r_pid := p; r_tid := td; r_args := a; r_dur := d |} in
  if f =s? "name" then option_map (fun x => mk x t ts p td a d) (as_string n j)
  else if f =s? "ph" then option_map (fun x => mk n x ts p td a d) (as_string t j)
  else if f =s? "ts" then option_map (fun x => mk n t x p td a d) (as_int64 ts j)
  else if f =s? "pid" then option_map (fun x => mk n t ts x td a d) (as_int64 p j)
  else if f =s? "tid" then option_map (fun x => mk n t ts p x a d) (as_int64 td j)
  else if f =s? "args" then option_map (fun x => mk n t ts p td x d) (as_map a j)
  else option_map (fun x => mk n t ts p td a x) (as_pointer d j).
Fixpoint fill (r : raw) (l : list (string * json)) : option raw :=
  match l with
  | [] => Some r
  | (k, j) :: l' =>
      match field_of k with
      | None => fill r l'
      | Some f => match set_field r f j with Some r' => fill r' l' | None => None end
      end
  end.
Definition dec_raw (j : json) : option raw :=
  match j with JObj l => fill raw0 l | JNull => Some raw0 | _ => None end.
Fixpoint dec_raws (l : list json) : option (list raw) :=
  match l with
  | [] => Some []
  | j :: l' => match dec_raw j, dec_raws l' with Some r, Some rs => Some (r :: rs) | _, _ => None end
  end.

(* UnmarshalJSON, lines 195-246: an error, a panic, or the events. *)
Inductive outcome := Rejected | Panics | Events (l : list event).
(* (uint64)(f) for 0 <= f < 2^64; outside of that Go says nothing. *)
Variable uint64_of_big : Q -> Z.
Definition uint64_of (q : Q) : Z :=
  let z := Z.quot (Qnum q) (Zpos (Qden q)) in if (0 <=? z) && (z <? 2 ^ 64) then z else uint64_of_big q.
Definition event_of (r : raw) : option event :=
  let n := {| Name := r_name r; Type_ := r_type r; Timestamp := r_ts r; PID := r_pid r; TID := r_tid r; Args := r_args r; finalized := true |} in
  if r_type r =s? EventComplete then option_map (Complete n) (r_dur r)
  else if r_type r =s? EventClockSync then
    match args_get (r_args r) "sync_id" with
    | Some (VFloat q) =>
        let syncID := uint64_of q in
        match args_get (r_args r) "issue_ts" with
        | Some _ => Some (Issuer n syncID)
        | None => Some (Normal {| Name := r_name r; Type_ := r_type r; Timestamp := r_ts r; PID := r_pid r; TID := r_tid r;
                                  Args := option_map (fun m => set m "sync_id" (VInt syncID)) (r_args r); finalized := true |})
        end
    | _ => None
    end
  else Some (Normal n).
Fixpoint events_of (rs : list raw) : option (list event) :=
  match rs with
  | [] => Some []
  | r :: rs' => match event_of r, events_of rs' with Some e, Some es => Some (e :: es) | _, _ => None end
  end.
Definition UnmarshalJSON (j : json) : outcome :=
  match j with
  | JNull => Events []
  | JArr l => match dec_raws l with
              | None => Rejected
              | Some rs => match events_of rs with None => Panics | Some es => Events es end
              end
  | _ => Rejected
  end.
End Json.

(* ---- collectors, lines 124-185 and 254-289, and contexts, common/context.go:320-343 ---- *)
(* What collects: a memory, a file, or nothing (NullEventCollector). *)
Inductive collector := Memory | Writer | Null.
(* A context: the root one, or one made by DebugContext from another, with its own
   memory.  A MultiEventCollector of [memory; parent] adds to the memory and then to
   the parent, up to the first error, that is to these one after another. *)
Inductive context := Root (c : nat) | Debug (memory : nat) (parent : context).
Fixpoint collectors (c : context) : list nat := match c with Root c => [c] | Debug m p => m :: collectors p end.

(* Goroutines adding events.  The k-th event of goroutine i is (i, k).  An Add that is
   going on: the event (its own), the collectors that are left, and where it is in the
   Add of the first of these.  log: what was added to a collector (ghost for a file);
   file: its bytes; lock: who holds its mutex. *)
Inductive phase := Between | Locked | Half.
Record state := {
  adding : nat -> option (nat * event * list nat * phase);
  added : nat -> nat;
  log : nat -> list (nat * nat * event);
  file : nat -> string;
  lock : nat -> option nat
}.
Definition set_nat {A} (f : nat -> A) (i : nat) (x : A) : nat -> A := fun j => if Nat.eqb j i then x else f j.
Definition with_adding (s : state) (i : nat) (a : option (nat * event * list nat * phase)) : state :=
  {| adding := set_nat (adding s) i a; added := added s; log := log s; file := file s; lock := lock s |}.
Definition with_added (s : state) (i n : nat) : state :=
  {| adding := adding s; added := set_nat (added s) i n; log := log s; file := file s; lock := lock s |}.
Definition with_log (s : state) (c : nat) (x : nat * nat * event) : state :=
  {| adding := adding s; added := added s; log := set_nat (log s) c (log s c ++ [x])%list; file := file s; lock := lock s |}.
Definition with_file (s : state) (c : nat) (x : string) : state :=
  {| adding := adding s; added := added s; log := log s; file := set_nat (file s) c (file s c ++ x)%string; lock := lock s |}.
Definition with_lock (s : state) (c : nat) (h : option nat) : state :=
  {| adding := adding s; added := added s; log := log s; file := file s; lock := set_nat (lock s) c h |}.

Section Collect.
Variable kind : nat -> collector.
Variable text : event -> string.               (* json.Marshal *)
Definition LF : string := String (ascii_of_nat 10) EmptyString.
Inductive label := Adds (i k : nat) (e : event) (c : context) | Returns (i k : nat) (ok : bool) | Tau.
Inductive step (s : state) : label -> state -> Prop :=
| adds : forall i e c, adding s i = None ->
    step s (Adds i (added s i) e c) (with_added (with_adding s i (Some (added s i, e, collectors c, Between))) i (S (added s i)))
| null_add : forall i k e c cs, adding s i = Some (k, e, c :: cs, Between) -> kind c = Null ->
    step s Tau (with_adding s i (Some (k, e, cs, Between)))
| memory_add : forall i k e c cs now e', adding s i = Some (k, e, c :: cs, Between) -> kind c = Memory -> Finalize now e = Some e' ->
    step s Tau (with_log (with_adding s i (Some (k, e', cs, Between))) c (i, k, e'))
| writer_locks : forall i k e c cs now e', adding s i = Some (k, e, c :: cs, Between) -> kind c = Writer -> Finalize now e = Some e' -> lock s c = None ->
    step s Tau (with_lock (with_adding s i (Some (k, e', c :: cs, Locked))) c (Some i))
| writer_writes : forall i k e c cs, adding s i = Some (k, e, c :: cs, Locked) ->
    step s Tau (with_file (with_adding s i (Some (k, e, c :: cs, Half))) c (text e))
| writer_ends : forall i k e c cs, adding s i = Some (k, e, c :: cs, Half) ->
    step s Tau (with_lock (with_log (with_file (with_adding s i (Some (k, e, cs, Between))) c ("," ++ LF)) c (i, k, e)) c None)
(* a write fails, having written part of what it should *)
| writer_fails : forall i k e c cs p r, adding s i = Some (k, e, c :: cs, Locked) -> text e = (p ++ r)%string ->
    step s (Returns i k false) (with_lock (with_file (with_adding s i None) c p) c None)
| writer_fails2 : forall i k e c cs p r, adding s i = Some (k, e, c :: cs, Half) -> ("," ++ LF)%string = (p ++ r)%string ->
    step s (Returns i k false) (with_lock (with_file (with_adding s i None) c p) c None)
| returns : forall i k e, adding s i = Some (k, e, [], Between) -> step s (Returns i k true) (with_adding s i None).
Definition init : state := {| adding := fun _ => None; added := fun _ => 0%nat; log := fun _ => []; file := fun _ => EmptyString; lock := fun _ => None |}.
Inductive exec : list label -> state -> Prop :=
| exec_nil : exec [] init
| exec_snoc : forall ls s l s', exec ls s -> step s l s' -> exec (ls ++ [l]) s'.
End Collect.

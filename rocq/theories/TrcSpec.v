(* C69, C70: tracing. *)
From Coq Require Import String Ascii List Arith NArith ZArith QArith Bool.
From Verif Require Import TrcModel.
Import ListNotations.
Local Open Scope string_scope.
Local Open Scope Z_scope.

(* ---- C69 ---- *)
(* Times in microseconds: up to the year 140000. *)
Definition clock (t : Z) : Prop := 0 <= t < 2 ^ 62.
(* Values that are put in events: integers of 64 bits, texts, finite numbers, and lists
   and maps of these. *)
Inductive plain : value -> Prop :=
| pl_null : plain VNull
| pl_bool b : plain (VBool b)
| pl_int z : - 2 ^ 63 <= z < 2 ^ 64 -> plain (VInt z)
| pl_float q : plain (VFloat q)
| pl_str s : plain (VStr s)
| pl_arr l : Forall plain l -> plain (VArr l)
| pl_obj l : NoDup (map fst l) -> Forall (fun kv => plain (snd kv)) l -> plain (VObj l).
(* The events the programs make. *)
Inductive made : event -> Prop :=
| made_normal p t now name type args : clock now -> type <> "X" -> type <> "c" -> Forall (fun a => plain (snd a)) args ->
    made (Normal (NewEvent (NewEventFactory p t) now name type args))
| made_complete p t now name args : clock now -> Forall (fun a => plain (snd a)) args ->
    made (NewCompleteEvent (NewEventFactory p t) now name args)
| made_issuer p t now id : clock now -> 0 <= id < 2 ^ 63 -> made (NewIssuerClockSyncEvent (NewEventFactory p t) now id)
| made_receiver p t now id : clock now -> 0 <= id < 2 ^ 63 -> made (NewReceiverClockSyncEvent (NewEventFactory p t) now id).
(* What is in a collector: events that were finalized when added. *)
Definition collected (e : event) : Prop :=
  exists e0 now, made e0 /\ clock now /\ Finalize now e0 = Some e.

(* A number that went through a float64: unchanged up to 2^53, and within one part
   in 2^53 always. *)
Definition float_near (z : Z) (q : Q) : Prop :=
  (Z.abs z <= 2 ^ 53 -> q = inject_Z z) /\ exists z', q = inject_Z z' /\ Z.abs (z' - z) * 2 ^ 53 <= Z.abs z.
(* The same value, up to that. *)
Inductive arrives : value -> value -> Prop :=
| ar_null : arrives VNull VNull
| ar_bool b : arrives (VBool b) (VBool b)
| ar_int z q : float_near z q -> arrives (VInt z) (VFloat q)
| ar_float q : arrives (VFloat q) (VFloat q)
| ar_str s : arrives (VStr s) (VStr s)
| ar_arr l l' : Forall2 arrives l l' -> arrives (VArr l) (VArr l')
| ar_obj l l' : Forall2 (fun a b => fst a = fst b /\ arrives (snd a) (snd b)) l l' -> arrives (VObj l) (VObj l').
Definition same_args (skip : string -> Prop) (a b : option (list (string * value))) : Prop :=
  forall k, ~ skip k ->
    match args_get a k, args_get b k with
    | None, None => True
    | Some v, Some w => arrives v w
    | _, _ => False
    end.
Definition same_head (a b : NormalEvent) : Prop :=
  Name a = Name b /\ Type_ a = Type_ b /\ Timestamp a = Timestamp b /\ PID a = PID b /\ TID a = TID b.
(* An event and what the other side has of it. *)
Inductive same_event : event -> event -> Prop :=
| se_complete n n' d : same_head n n' -> same_args (fun _ => False) (Args n) (Args n') -> same_event (Complete n d) (Complete n' d)
| se_issuer n n' s s' : same_head n n' -> same_args (fun _ => False) (Args n) (Args n') -> float_near s (inject_Z s') -> same_event (Issuer n s) (Issuer n' s')
| se_normal n n' : Type_ n <> "c" -> same_head n n' -> same_args (fun _ => False) (Args n) (Args n') -> same_event (Normal n) (Normal n')
| se_receiver n n' s s' : Type_ n = "c" -> same_head n n' -> same_args (fun k => k = "sync_id") (Args n) (Args n') ->
    args_get (Args n) "sync_id" = Some (VInt s) -> args_get (Args n') "sync_id" = Some (VInt s') -> float_near s (inject_Z s') ->
    same_event (Normal n) (Normal n').

(* What encoding/json does with finite numbers and field names. *)
Definition json_numbers (show : Q -> json) (dec : Q -> option Q) : Prop :=
  forall q, dec_value dec (show q) = Some (VFloat q).

(* ---- C70 ---- *)
(* The lines of a file: one per event. *)
Fixpoint lines (text : event -> string) (l : list (nat * nat * event)) : string :=
  match l with [] => "" | (_, _, e) :: l' => (text e ++ "," ++ LF ++ lines text l')%string end.

(* Contexts of a program: no collector is there twice (each DebugContext has a memory of its own). *)
Definition contexts (ls : list label) : Prop := forall i k e x, In (Adds i k e x) ls -> NoDup (collectors x).
(* x is in l, somewhere before y, and y is not before x. *)
Definition before (l : list (nat * nat)) (x y : nat * nat) : Prop :=
  forall n m, nth_error l n = Some x -> nth_error l m = Some y -> (n < m)%nat.
Definition keys (s : state) (c : nat) : list (nat * nat) := map fst (log s c).
(* No write failed. *)
Definition writes_ok (ls : list label) : Prop := forall i k, ~ In (Returns i k false) ls.
(* Events Finalize can be called on: all those that are made or were decoded. *)
Definition finalizable (e : event) : Prop := forall now, exists e', Finalize now e = Some e'.
(* How much of an Add is left. *)
Definition left (a : option (nat * event * list nat * phase)) : nat :=
  match a with None => 0 | Some (_, _, cs, ph) => 1 + 3 * length cs - match ph with Between => 0 | Locked => 1 | Half => 2 end end%nat.
Definition starts (l : label) : Prop := match l with Adds _ _ _ _ => True | _ => False end.

(* Model of broadcaster/filter.go and of the parts of broadcaster/subscriber.go
   that decide who receives what: Message (46-53), ValidateFilterResponse
   (56-62), Subscriber (210-223), NewSubscriber (226-311), Matches (320-327). *)
From Coq Require Import String Ascii List ZArith Bool.
From Verif Require Import GoStr.
Import ListNotations.
Local Open Scope string_scope.

(* Message, broadcaster/subscriber.go:46-53. *)
Record message := mkMsg { m_contest : string; m_problemset : Z; m_problem : string; m_user : string; m_public : bool; m_text : string }.

(* The five Filter types, broadcaster/filter.go:18-112. *)
Inductive filter :=
| AllEvents
| User (user : string)
| Problem (problem : string)
| Problemset (problemset : Z) (token : string)
| Contest (contest : string) (token : string).

(* Subscriber without its channels; the maps are key lists. *)
Record subscriber := mkSub {
  s_user : string; s_admin : bool;
  s_problems : list string; s_contests : list string; s_problemsets : list Z;
  s_filters : list filter
}.

(* String, filter.go:22-24, 39-41, 56-58, 76-81, 99-104. *)
Definition String_ (f : filter) : string :=
  match f with
  | AllEvents => "all-events"
  | User u => "user/" ++ u
  | Problem p => "problem/" ++ p
  | Problemset z t => if t =? "" then "problemset/" ++ fmt_int z else "problemset/" ++ fmt_int z ++ "/" ++ t
  | Contest c t => if t =? "" then "contest/" ++ c else "contest/" ++ c ++ "/" ++ t
  end.

(* filter.go:161-169 *)
Definition stringMapContains (m : list string) (k : string) : bool := existsb (String.eqb k) m.
Definition intMapContains (m : list Z) (k : Z) : bool := existsb (Z.eqb k) m.

(* Matches, filter.go:28-30, 45-47, 62-66, 85-89, 108-112. *)
Definition filter_matches (f : filter) (m : message) (s : subscriber) : bool :=
  match f with
  | AllEvents => s_admin s
  | User _ => m_user m =? s_user s
  | Problem p =>
      (m_problem m =? p) && (s_admin s || m_public m ||
      (negb (s_user s =? "") && (m_user m =? s_user s)) ||
      stringMapContains (s_problems s) (m_problem m))
  | Problemset z _ =>
      (m_problemset m =? z)%Z && (s_admin s || m_public m ||
      (negb (s_user s =? "") && (m_user m =? s_user s)) ||
      intMapContains (s_problemsets s) (m_problemset m))
  | Contest c _ =>
      (m_contest m =? c) && (s_admin s || m_public m ||
      (negb (s_user s =? "") && (m_user m =? s_user s)) ||
      stringMapContains (s_contests s) (m_contest m))
  end.
(* Subscriber.Matches, subscriber.go:320-327. *)
Definition matches (s : subscriber) (m : message) : bool := existsb (fun f => filter_matches f m s) (s_filters s).

(* Outcome of a Go function that may panic. *)
Inductive outcome (A : Type) := Ok (a : A) | Err | Panic.
Arguments Ok {A}. Arguments Err {A}. Arguments Panic {A}.

(* NewFilter, filter.go:116-159.  tokens[2] at line 140 panics when there are
   only two tokens. *)
Definition NewFilter (filter_string : string) : outcome filter :=
  match split "/" filter_string with
  | [] | [_] => Err
  | t0 :: t1 :: rest =>
    if negb (t0 =? "") then Err
    else if t1 =? "all-events" then match rest with [] => Ok AllEvents | _ => Err end
    else if t1 =? "user" then match rest with [u] => Ok (User u) | _ => Err end
    else if t1 =? "problem" then match rest with [p] => Ok (Problem p) | _ => Err end
    else if t1 =? "problemset" then
      match rest with
      | [] => Panic
      | t2 :: rest' =>
        match ParseInt t2 with
        | None => Err
        | Some z => match rest' with [] => Ok (Problemset z "") | [t] => Ok (Problemset z t) | _ => Err end
        end
      end
    else if t1 =? "contest" then match rest with [c] => Ok (Contest c "") | [c; t] => Ok (Contest c t) | _ => Err end
    else Err
  end.

(* The loop of NewSubscriber over the comma-separated filters,
   subscriber.go:246-252. *)
Fixpoint parse_filters (l : list string) : outcome (list filter) :=
  match l with
  | [] => Ok []
  | x :: l' =>
    match NewFilter x with
    | Ok f => match parse_filters l' with Ok fs => Ok (f :: fs) | Err => Err | Panic => Panic end
    | Err => Err
    | Panic => Panic
    end
  end.
(* The frontend's answer, subscriber.go:254-293: None when the request fails,
   otherwise the status code and the decoded body, if it decodes. *)
Record validation := mkV { v_user : string; v_admin : bool; v_problems : list string; v_contests : list string; v_problemsets : list Z }.
Definition answer := option (Z * option validation).
(* NewSubscriber, subscriber.go:226-311. *)
Definition NewSubscriber (filterString : string) (reply : answer) : outcome subscriber :=
  match parse_filters (split "," filterString) with
  | Err => Err
  | Panic => Panic
  | Ok fs =>
    match reply with
    | Some (status, Some v) =>
        if (status =? 200)%Z then Ok (mkSub (v_user v) (v_admin v) (v_problems v) (v_contests v) (v_problemsets v) fs) else Err
    | _ => Err
    end
  end.

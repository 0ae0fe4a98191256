(* Specification of filters and of who may see a message (C27, C28). *)
From Coq Require Import String Ascii List ZArith.
From Verif Require Import GoStr BcFilterModel.
Import ListNotations.
Local Open Scope string_scope.

Definition plain (s : string) : Prop := ~ contains "/" s.
(* The grammar of filters. *)
Inductive denotes : string -> filter -> Prop :=
| d_all : denotes "/all-events" AllEvents
| d_user u : plain u -> denotes ("/user/" ++ u) (User u)
| d_problem p : plain p -> denotes ("/problem/" ++ p) (Problem p)
| d_problemset d z : numeral d z -> (- 2 ^ 63 <= z < 2 ^ 63)%Z -> denotes ("/problemset/" ++ d) (Problemset z "")
| d_problemset_token d z t : numeral d z -> (- 2 ^ 63 <= z < 2 ^ 63)%Z -> plain t -> denotes ("/problemset/" ++ d ++ "/" ++ t) (Problemset z t)
| d_contest c : plain c -> denotes ("/contest/" ++ c) (Contest c "")
| d_contest_token c t : plain c -> plain t -> denotes ("/contest/" ++ c ++ "/" ++ t) (Contest c t).

(* What a message is about, as far as a filter can say. *)
Definition about (f : filter) (m : message) : Prop :=
  match f with
  | AllEvents => True
  | User u => m_user m = u
  | Problem p => m_problem m = p
  | Problemset z _ => m_problemset m = z
  | Contest c _ => m_contest m = c
  end.
(* Who may see a message: site administrators, everybody if it is public, the
   user it concerns, and the administrators of the problem, contest or problemset
   it concerns. *)
Definition may_see (s : subscriber) (m : message) : Prop :=
  s_admin s = true \/ m_public m = true \/ (s_user s <> "" /\ m_user m = s_user s) \/
  In (m_problem m) (s_problems s) \/ In (m_contest m) (s_contests s) \/ In (m_problemset m) (s_problemsets s).
(* What the subscriber's filters ask for, without [User] filters. *)
Definition is_user_filter (f : filter) : Prop := exists u, f = User u.

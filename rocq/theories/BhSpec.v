(* Specification for C81: the broadcaster as its HTTP clients see it. *)
From Coq Require Import String Ascii List Arith ZArith Bool.
From Verif Require Import GoStr BcFilterModel BcFilterSpec BcModel BhModel.
Import ListNotations.
Local Open Scope string_scope.

Section Spec.
Variable req : nat -> request.

(* Request i asks for the filters fs (each "filter" parameter holds one or more,
   separated by commas), all well formed, and the frontend answered 200 to them,
   with the rights v. *)
Definition granted (i : nat) (v : validation) (fs : list filter) : Prop :=
  exists accept up params body, req i = Events accept up params (Some (200%Z, Some v)) body /\ params <> [] /\
  Forall2 denotes (flat_map (split ",") params) fs.
Definition with_rights (v : validation) (fs : list filter) : subscriber :=
  mkSub (v_user v) (v_admin v) (v_problems v) (v_contests v) (v_problemsets v) fs.

(* The message posted by request j, if it is a well-formed POST. *)
Definition posted (j : nat) : option message :=
  match req j with PostBroadcast method (Some m) => if method =? "POST" then Some m else None | _ => None end.
(* A message about a graded run of a contest. *)
Definition run_update_of_contest (m : message) : Prop :=
  m_contest m <> "" /\ exists a b, m_text m = a ++ run_update ++ b.

(* The user a path names: /deauthenticate/USER or /deauthenticate/USER/... *)
Definition names_user (path user : string) : Prop :=
  ~ contains "/" user /\ (path = "/deauthenticate/" ++ user \/ exists rest, path = "/deauthenticate/" ++ user ++ "/" ++ rest).
(* net/http gives the handler only paths with its prefix. *)
Definition routed : Prop := forall i path, req i = Deauth path -> exists rest, path = "/deauthenticate/" ++ rest.

(* An Accept header that lists a type. *)
Definition spaces : list ascii := ["009"; "010"; "011"; "012"; "013"; " "]%char.
Definition blank (s : string) : Prop := forall c, contains c s -> In c spaces.
Definition lists_type (accept : list string) (mime : string) : Prop :=
  exists a l x r, In a accept /\ In (l ++ x ++ r) (split "," a) /\ x = mime /\ blank l /\ blank r.
End Spec.

(* Specification of the cache of ephemeral runs (C10-C12). *)
From Coq Require Import List ZArith String.
From Verif Require Import EphModel.
Import ListNotations.
Local Open Scope Z_scope.

Fixpoint total (es : list entry) : Z := match es with [] => 0 | e :: es' => snd e + total es' end.
Definition keys (es : list entry) : list path := map fst es.
(* The runs kept, newest first. *)
Definition kept (s : sys) : list entry := rev (evictList (s_mgr s)).
Definition served (s : sys) (p : path) : Prop := get (s_mgr s) p = Some p.
Definition exists_on_disk (s : sys) (p : path) : Prop := exists z, In (p, z) (s_disk s).

(* [best limit h] of the additions h (newest first): keep the newest, and as many
   of the preceding ones, without gaps, as fit. *)
Definition best (limit : Z) (h k : list entry) : Prop :=
  (exists rest, h = k ++ rest) /\
  (total k <= limit \/ (List.length k <= 1)%nat) /\
  (h <> [] -> k <> []) /\
  (forall k' rest', h = k' ++ rest' -> total k' <= limit -> (List.length k' <= List.length k)%nat).

(* A removal fails during the event. *)
Definition removal_fails (ev : event) : Prop :=
  match ev with EAdd _ rms => exists z, In (RmErr z) rms | _ => False end.
(* No directory has a negative size. *)
Definition sizes_ok (ev : event) : Prop :=
  match ev with
  | EMkdir _ _ z => 0 <= z
  | EWrite _ z => 0 <= z
  | EAdd _ rms => forall z, In (RmErr z) rms -> 0 <= z
  | _ => True
  end.
Definition disk_ok (d : disk) : Prop := (forall p z, In (p, z) d -> 0 <= z) /\ NoDup (keys d).

(* Each directory is handed to the manager at most once: nobody starts to commit
   a directory that is already being committed or kept. *)
Definition once (s : sys) (ev : event) : Prop :=
  match ev with ESize p => ~ In p (keys (s_pending s)) /\ ~ In p (keys (kept s)) | _ => True end.
(* Nobody but the manager removes a directory that is being committed or kept. *)
Definition leaves_kept_alone (s : sys) (ev : event) : Prop :=
  match ev with EDiscard p => ~ In p (keys (s_pending s)) /\ ~ In p (keys (kept s)) | _ => True end.
(* A property of every step of a history. *)
Fixpoint along (P : sys -> event -> Prop) (s : sys) (evs : list event) : Prop :=
  match evs with
  | [] => True
  | ev :: evs' => P s ev /\ along P (step s ev) evs'
  end.

(* Model of grader/queue.go:75-265 (EphemeralRunManager) and of the goroutines
   that use it: Initialize, started in the background by
   cmd/omegaup-grader/main.go:216-226, and the request handlers
   (cmd/omegaup-grader/ephemeral.go:142-226, ci.go:637-706).

   Simplifications: base.Byte (int64) is an unbounded integer (directory sizes do
   not overflow int64); the contents of a directory are reduced to the total size
   directorySize finds; the random names and the outcome of each os.RemoveAll are
   arbitrary inputs. *)
From Coq Require Import List NArith ZArith Bool String.
Import ListNotations.
Local Open Scope Z_scope.

Notation path := string.
(* ephemeralRunEntry, grader/queue.go:87-90. *)
Notation entry := (string * Z)%type.
(* The ephemeral directory on disk: each subdirectory with its current size. *)
Notation disk := (list (string * Z)).

(* EphemeralRunManager, grader/queue.go:77-85.  [evictList] is oldest first: its
   head is the Go list's Back(), PushFront appends.  [paths] is the key set of
   the Go map. *)
Record mgr := Mgr { evictList : list entry; paths : list path; totalSize : Z; sizeLimit : Z }.
(* NewEphemeralRunManager, grader/queue.go:106-114. *)
Definition new_mgr (limit : Z) : mgr := Mgr [] [] 0 limit.

(* delete(m, k) on a map's key set. *)
Definition remove_path (p : path) (l : list path) : list path := filter (fun q => negb (String.eqb p q)) l.
Definition remove_dir (p : path) (d : disk) : disk := filter (fun e => negb (String.eqb p (fst e))) d.
Definition on_disk (p : path) (d : disk) : bool := existsb (fun e => String.eqb p (fst e)) d.
Fixpoint dir_size (p : path) (d : disk) : option Z :=
  match d with
  | [] => None
  | (q, s) :: d' => if String.eqb p q then Some s else dir_size p d'
  end.
Definition set_size (p : path) (s : Z) (d : disk) : disk :=
  map (fun e => if String.eqb p (fst e) then (fst e, s) else e) d.

(* Outcome of os.RemoveAll: everything gone, or an error with [rest] bytes
   still in the directory (RemoveAll may have removed part of it). *)
Inductive rmres := RmOk | RmErr (rest : Z).

(* The loop of add, grader/queue.go:246-262.  [rms]: outcomes of the removals, in
   order (RmOk when the list is over).  Returns the state and whether the loop
   ended without an error. *)
Fixpoint evict_loop (limit need : Z) (es : list entry) (ps : list path) (total : Z) (d : disk) (rms : list rmres)
  : list entry * list path * Z * disk * bool :=
  match es with
  | [] => (es, ps, total, d, true)
  | (p, s) :: es' =>
      if limit <? total + need then
        match rms with
        | RmErr rest :: _ => (es, ps, total, set_size p rest d, false)
        | _ => evict_loop limit need es' (remove_path p ps) (total - s) (remove_dir p d) (tl rms)
        end
      else (es, ps, total, d, true)
  end.

(* add, grader/queue.go:242-269 (one critical section of the mutex). Returns
   whether it succeeded. *)
Definition add (m : mgr) (d : disk) (e : entry) (rms : list rmres) : mgr * disk * bool :=
  let '(es, ps, total, d', ok) := evict_loop (sizeLimit m) (snd e) (evictList m) (paths m) (totalSize m) d rms in
  if ok then
    (Mgr (es ++ [e]) (fst e :: remove_path (fst e) ps) (total + snd e) (sizeLimit m), d', true)
  else (Mgr es ps total (sizeLimit m), d', false).

(* Get, grader/queue.go:224-236; [p] is path.Join(ephemeralPath, token). *)
Definition get (m : mgr) (p : path) : option path :=
  if existsb (String.eqb p) (paths m) then Some p else None.

(* tempDir, grader/queue.go:173-197: tries are the random names in the order they
   are drawn; [mkdir_fails] says that os.Mkdir fails for another reason than the
   directory's existence. *)
Fixpoint temp_dir (tries : nat) (names : list path) (mkdir_fails : bool) (d : disk) (sz : Z) : option path * disk :=
  match tries, names with
  | S t, p :: names' =>
      if on_disk p d then temp_dir t names' mkdir_fails d sz       (* IsExist: continue *)
      else if mkdir_fails then (None, d) else (Some p, d ++ [(p, sz)])
  | _, _ => (None, d)                                              (* err is the last IsExist error *)
  end.

(* The system: the manager, the disk, the entries whose size was computed
   (directorySize, line 211 or 139) but whose add did not yet run, and the
   sequence of entries added successfully since the last restart, newest first
   (the last is not part of the program). *)
Record sys := Sys { s_mgr : mgr; s_disk : disk; s_pending : list entry; s_hist : list entry }.
Definition init_sys (limit : Z) (d : disk) : sys := Sys (new_mgr limit) d [] [].

Inductive event :=
| EMkdir (names : list path) (fails : bool) (sz : Z)  (* SetEphemeral, grader/queue.go:201-206 *)
| EWrite (p : path) (sz : Z)                          (* somebody writes in a directory *)
| ESize (p : path)                                    (* directorySize in Commit (211) or Initialize (139) *)
| EAdd (i : nat) (rms : list rmres)                   (* add for the i-th pending entry (216, 156) *)
| EDiscard (p : path)                                 (* RemoveAll of a run that is not committed
                                                         (ephemeral.go:151-158), or whose size could
                                                         not be computed (queue.go:146) *)
| ECrash.                                             (* the process dies and is started again *)

Fixpoint drop_nth {A} (i : nat) (l : list A) : list A :=
  match l, i with
  | [], _ => []
  | _ :: l', O => l'
  | x :: l', S i' => x :: drop_nth i' l'
  end.

Definition step (s : sys) (ev : event) : sys :=
  match ev with
  | EMkdir names fails sz =>
      Sys (s_mgr s) (snd (temp_dir (N.to_nat 10000) names fails (s_disk s) sz)) (s_pending s) (s_hist s)
  | EWrite p sz => Sys (s_mgr s) (set_size p sz (s_disk s)) (s_pending s) (s_hist s)
  | ESize p =>
      match dir_size p (s_disk s) with
      | Some z => Sys (s_mgr s) (s_disk s) (s_pending s ++ [(p, z)]) (s_hist s)
      | None => s      (* Walk reports an error *)
      end
  | EAdd i rms =>
      match nth_error (s_pending s) i with
      | Some e =>
          let '(m, d, ok) := add (s_mgr s) (s_disk s) e rms in
          Sys m d (drop_nth i (s_pending s)) (if ok then e :: s_hist s else s_hist s)
      | None => s
      end
  | EDiscard p => Sys (s_mgr s) (remove_dir p (s_disk s)) (s_pending s) (s_hist s)
  | ECrash => Sys (new_mgr (sizeLimit (s_mgr s))) (s_disk s) [] []
  end.

Definition run (s : sys) (evs : list event) : sys := fold_left step evs s.

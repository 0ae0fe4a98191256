(* C10-C12: the cache of ephemeral runs. *)
From Coq Require Import String List NArith ZArith Bool Lia.
From Verif Require Import EphModel EphSpec EphProofs.
Import ListNotations.
Local Open Scope Z_scope.
Local Open Scope string_scope.

(* ---- C10 ---- *)
(* After any history of directory creations, writes, commits, evictions with any
   outcome and restarts, the accounted size is the sum over the runs kept, and
   only runs kept are served. *)
Theorem C10_accounting : forall limit d evs, let s := run (init_sys limit d) evs in
  totalSize (s_mgr s) = total (kept s) /\ (forall p, served s p -> In p (keys (kept s))) /\
  (forall p q, get (s_mgr s) p = Some q -> q = p /\ served s p).
Proof.
  intros limit d evs s. destruct (run_inv evs _ (init_inv limit d)) as [H1 H2]. fold s in H1, H2.
  split; [unfold kept; rewrite total_rev; auto|]. split.
  - intros p Hp. apply kept_keys. apply H2, get_spec, Hp.
  - intros p q H. pose proof (get_some _ _ _ H). subst q. auto.
Qed.
Print Assumptions C10_accounting.

(* When each directory is handed to the manager once, every run kept is served,
   and none is kept twice. *)
Theorem C10_exact : forall limit d evs, let s := run (init_sys limit d) evs in
  along once (init_sys limit d) evs ->
  (forall p, served s p <-> In p (keys (kept s))) /\ NoDup (keys (kept s)).
Proof.
  intros limit d evs s HO. destruct (run_inv1 evs _ HO (init_inv1 limit d)) as (H1 & H2 & H3 & H4). fold s in H1, H2, H3, H4.
  split.
  - intros p. split; [apply C10_accounting|]. intros H. apply get_spec, H4, kept_keys, H.
  - unfold kept, keys. rewrite map_rev. apply NoDup_rev. exact H2.
Qed.
Print Assumptions C10_exact.

(* If moreover nobody else deletes them, every run served is on disk. *)
Theorem C10_served_exists : forall limit d evs, let s := run (init_sys limit d) evs in
  along once (init_sys limit d) evs -> along leaves_kept_alone (init_sys limit d) evs ->
  forall p, served s p -> exists_on_disk s p.
Proof.
  intros limit d evs s HO HL p Hp. assert (I2 : inv2 (init_sys limit d)) by (split; cbn; intros q []).
  destruct (run_inv2 evs _ HO HL (init_inv1 limit d) I2) as [_ H]. apply H.
  apply kept_keys, (proj1 (proj2 (C10_accounting limit d evs))), Hp.
Qed.
Print Assumptions C10_served_exists.

(* False of the code: that these two hold for every history.  Initialize runs in
   the background while requests are served, so a run in progress may be found by
   Initialize and committed again by its request.  The second commit may then
   evict the first: the run is served but its files are gone.  Or, later, the
   eviction of the first makes a kept run unknown. *)
Definition double_commit : list event :=
  [EMkdir ["a"] false 5; ESize "a"; EAdd 0 []; EWrite "a" 6; ESize "a"; EAdd 0 []].
Theorem C10_served_exists_refuted : exists limit evs p, let s := run (init_sys limit []) evs in
  along (fun _ ev => ~ removal_fails ev) (init_sys limit []) evs /\
  along leaves_kept_alone (init_sys limit []) evs /\
  served s p /\ ~ exists_on_disk s p.
Proof.
  exists 8, double_commit, "a". vm_compute. repeat split; auto; try (intros [z []]; fail).
Qed.
Print Assumptions C10_served_exists_refuted.
Theorem C10_exact_refuted : exists limit evs p, let s := run (init_sys limit []) evs in
  along (fun _ ev => ~ removal_fails ev) (init_sys limit []) evs /\
  In p (keys (kept s)) /\ ~ served s p.
Proof.
  exists 12, (double_commit ++ [EMkdir ["b"] false 1; ESize "b"; EAdd 0 []; EMkdir ["c"] false 1; ESize "c"; EAdd 0 []])%list, "a".
  vm_compute. split; [|split; [auto|discriminate]]. repeat split; auto; intros [z []].
Qed.
Print Assumptions C10_exact_refuted.

(* False of the code: that every directory of the runtime path is accounted for
   once its request is over.  A commit whose eviction fails is ignored by the
   handler (ephemeral.go:224-225 and ci.go:706), which leaves the directory. *)
Theorem C10_failed_commit_leaks_refuted : exists limit evs p, let s := run (init_sys limit []) evs in
  s_pending s = [] /\ exists_on_disk s p /\ ~ In p (keys (kept s)) /\ In (ESize p) evs /\ ~ In (EDiscard p) evs.
Proof.
  exists 8, [EMkdir ["a"] false 5; ESize "a"; EAdd 0 []; EMkdir ["b"] false 6; ESize "b"; EAdd 0 [RmErr 5]], "b".
  vm_compute. split; [auto|]. split; [exists 6; auto|]. split; [intros [H|[]]; discriminate H|]. split; [tauto|].
  intros H. repeat (destruct H as [H|H]; [discriminate H|]). exact H.
Qed.
Print Assumptions C10_failed_commit_leaks_refuted.

Example C10_example : exists evs, let s := run (init_sys 10 [("z", 3)]) evs in
  along once (init_sys 10 [("z", 3)]) evs /\ along leaves_kept_alone (init_sys 10 [("z", 3)]) evs /\
  kept s = [("b", 4); ("a", 5)] /\ served s "a" /\ ~ served s "z" /\ totalSize (s_mgr s) = 9.
Proof.
  exists [ESize "z"; EAdd 0 []; EMkdir ["a"] false 1; EWrite "a" 5; ESize "a"; EAdd 0 []; EMkdir ["a"; "b"] false 4; ESize "b"; EDiscard "q"; EAdd 0 []].
  vm_compute. repeat split; auto; try discriminate; intuition discriminate.
Qed.

(* A token given to a client names a directory created for it: no other run uses
   it. *)
Theorem C10_fresh_directory : forall tries names fails d sz,
  let (r, d') := temp_dir tries names fails d sz in
  match r with
  | Some p => In p names /\ ~ In p (keys d) /\ d' = (d ++ [(p, sz)])%list
  | None => d' = d
  end.
Proof.
  intros tries names fails d sz. revert names. induction tries as [|t IH]; intros [|p names]; cbn; auto.
  destruct (on_disk p d) eqn:E.
  - specialize (IH names). destruct (temp_dir t names fails d sz) as [[q|] d']; [|auto]. intuition.
  - destruct fails; [auto|]. split; [auto|]. split; [|auto]. intros H. apply in_map_iff in H. destruct H as (e & <- & H).
    assert (X : on_disk (fst e) d = true) by (apply existsb_exists; exists e; split; [auto|apply String.eqb_refl]). congruence.
Qed.
Print Assumptions C10_fresh_directory.

(* ---- C11 ---- *)
(* At every moment the runs kept fit in the limit, or there is only one. *)
Theorem C11_within_limit : forall limit d evs, let s := run (init_sys limit d) evs in
  disk_ok d -> along (fun _ ev => sizes_ok ev) (init_sys limit d) evs ->
  total (kept s) <= limit \/ (List.length (kept s) <= 1)%nat.
Proof.
  intros limit d evs s [HD _] HZ.
  assert (N : nonneg (init_sys limit d)) by (split; [exact HD|split; cbn; intros e []]).
  assert (S0 : small (init_sys limit d)) by (right; cbn; lia).
  destruct (run_small evs _ HZ N (init_inv limit d) S0) as [H _]. fold s in H. unfold small in H. subst s. rewrite limit_run in H.
  unfold kept. rewrite total_rev, rev_length. exact H.
Qed.
Print Assumptions C11_within_limit.

(* One commit in any reachable state: either it succeeds: the run is kept, served
   and the newest, and everything fits or it is alone; or a removal failed, and
   then the run is not added, and the state is as if some of the oldest runs had
   been evicted. *)
Theorem C11_commit : forall limit d evs i rms e, let s := run (init_sys limit d) evs in
  nth_error (s_pending s) i = Some e -> let s' := step s (EAdd i rms) in
  (s_hist s' = e :: s_hist s /\ served s' (fst e) /\
   exists k gone, kept s = (k ++ gone)%list /\ kept s' = e :: k /\ (total (kept s') <= limit \/ kept s' = [e]) /\
   (forall p, served s' p <-> p = fst e \/ served s p /\ ~ In p (keys gone)))
  \/
  (s_hist s' = s_hist s /\ (exists z, In (RmErr z) rms) /\
   exists k gone, kept s = (k ++ gone)%list /\ kept s' = k /\
   (forall p, served s' p <-> served s p /\ ~ In p (keys gone))).
Proof.
  intros limit d evs i rms e s HE s'. destruct (run_inv evs _ (init_inv limit d)) as [I1 _]. fold s in I1.
  assert (LM : sizeLimit (s_mgr s) = limit) by (unfold s; rewrite limit_run; auto).
  unfold s'. cbn [step]. rewrite HE. destruct (add _ _ _ _) as [[m dd] ok] eqn:E. apply add_spec in E.
  destruct E as (EL & gone & k & E & _ & _ & _ & X). rewrite I1, LM in *.
  unfold served, kept. cbn [s_mgr s_hist]. rewrite E. destruct ok; [left|right]; destruct X as (X1 & X2 & X3 & X4); rewrite X1.
  - split; [auto|]. split; [apply get_spec, X3; auto|]. exists (rev k), (rev gone). rewrite !rev_app_distr. cbn [rev app]. split; [auto|]. split; [auto|]. split.
    + destruct X4 as [->|X4]; [right; auto|left]. cbn [total]. rewrite total_rev. rewrite E, total_app in X2. lia.
    + intros p. rewrite !get_spec, X3. unfold keys. rewrite map_rev, <- in_rev. tauto.
  - split; [auto|]. split; [auto|]. exists (rev k), (rev gone). rewrite rev_app_distr. split; [auto|]. split; [auto|].
    intros p. rewrite !get_spec, X3. unfold keys. rewrite map_rev, <- in_rev. tauto.
Qed.
Print Assumptions C11_commit.
Example C11_example : let evs := [EMkdir ["a"] false 50; ESize "a"; EAdd 0 []; EMkdir ["b"] false 60; ESize "b"] in
  let s := run (init_sys 10 []) evs in
  along (fun _ ev => sizes_ok ev) (init_sys 10 []) evs /\ nth_error (s_pending s) 0 = Some ("b", 60) /\
  kept (step s (EAdd 0 [])) = [("b", 60)] /\ kept (step s (EAdd 0 [RmErr 50])) = [("a", 50)].
Proof. vm_compute. repeat split; auto; try discriminate; intros ? []. Qed.

(* ---- C12 ---- *)
(* The runs kept are always the most recently added ones, without gaps. *)
Theorem C12_most_recent : forall limit d evs, let s := run (init_sys limit d) evs in
  exists rest, s_hist s = (kept s ++ rest)%list.
Proof. intros limit d evs s. apply run_recent. exists []. reflexivity. Qed.
Print Assumptions C12_most_recent.
(* As long as removals work, they are exactly as many as fit: no run is evicted
   unless it and all newer ones exceed the limit. *)
Theorem C12_as_many_as_fit : forall limit d evs, let s := run (init_sys limit d) evs in
  disk_ok d -> along (fun _ ev => sizes_ok ev) (init_sys limit d) evs -> along (fun _ ev => ~ removal_fails ev) (init_sys limit d) evs ->
  best limit (s_hist s) (kept s).
Proof.
  intros limit d evs s [HD _] HZ HF.
  assert (N : nonneg (init_sys limit d)) by (split; [exact HD|split; cbn; intros e []]).
  apply (run_best evs (init_sys limit d)); auto; [apply init_inv|].
  split; [exists []; reflexivity|]. split; [right; cbn; lia|]. split; [auto|]. intros k' r' H. symmetry in H. apply app_eq_nil in H. destruct H as [-> _]. cbn. lia.
Qed.
Print Assumptions C12_as_many_as_fit.
(* The ghost history is the sequence of successful commits: it changes only by a
   commit, which prepends the run, and by a restart. *)
Theorem C12_history : forall s ev, let s' := step s ev in
  s_hist s' = s_hist s \/ (exists i rms e, ev = EAdd i rms /\ nth_error (s_pending s) i = Some e /\ s_hist s' = e :: s_hist s) \/ ev = ECrash /\ s_hist s' = [].
Proof.
  intros s ev s'. unfold s'. destruct ev as [names f sz|p sz|p|i rms|p|]; cbn [step]; auto.
  - destruct (dir_size _ _); auto.
  - destruct (nth_error _ _) as [e|] eqn:E; [|auto]. destruct (add _ _ _ _) as [[m d] [|]]; cbn [s_hist]; [right; left; eauto 6|auto].
Qed.
Print Assumptions C12_history.
(* False of the code: the eviction policy of the type's comment, "last-in,
   first-out".  The run evicted here is the first in. *)
Theorem C12_last_in_first_out_refuted : exists limit evs, let s := run (init_sys limit []) evs in
  s_hist s = [("c", 4); ("b", 4); ("a", 4)] /\ kept s = [("c", 4); ("b", 4)].
Proof.
  exists 8, [EMkdir ["a"] false 4; ESize "a"; EAdd 0 []; EMkdir ["b"] false 4; ESize "b"; EAdd 0 []; EMkdir ["c"] false 4; ESize "c"; EAdd 0 []].
  split; reflexivity.
Qed.
Print Assumptions C12_last_in_first_out_refuted.
(* False of the code: that a restart keeps the most recent runs.  Initialize adds
   them in the order of the directory listing, so the oldest may be kept. *)
Theorem C12_restart_keeps_recent_refuted : exists limit evs evs', let s := run (init_sys limit []) evs in
  s_hist s = [("c", 4); ("b", 4); ("a", 4)] /\ kept s = [("c", 4); ("b", 4)] /\
  s_disk s = [("b", 4); ("c", 4)] /\
  evs' = [ECrash; ESize "c"; EAdd 0 []; ESize "b"; EAdd 0 []; EMkdir ["d"] false 4; ESize "d"; EAdd 0 []] /\
  kept (run s evs') = [("d", 4); ("b", 4)].
Proof.
  exists 8, [EMkdir ["a"] false 4; ESize "a"; EAdd 0 []; EMkdir ["b"] false 4; ESize "b"; EAdd 0 []; EMkdir ["c"] false 4; ESize "c"; EAdd 0 []].
  eexists. split; [reflexivity|]. split; [reflexivity|]. split; [reflexivity|]. split; reflexivity.
Qed.
Print Assumptions C12_restart_keeps_recent_refuted.
Example C12_example : let evs := [EMkdir ["a"] false 4; ESize "a"; EAdd 0 []; EMkdir ["b"] false 7; ESize "b"; EAdd 0 []] in
  along (fun _ ev => sizes_ok ev) (init_sys 8 []) evs /\ along (fun _ ev => ~ removal_fails ev) (init_sys 8 []) evs /\
  kept (run (init_sys 8 []) evs) = [("b", 7)].
Proof. vm_compute. repeat split; auto; try discriminate; try (intros ? []); intros [? []]. Qed.

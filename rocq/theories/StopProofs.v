(* Proofs for C91. *)
From Coq Require Import List Bool Arith Lia.
From Verif Require Import StopModel StopSpec.
Import ListNotations.

Lemma nth_set : forall l k p0 p j, nth_error l k = Some p0 -> nth_error (set_part l k p) j = if j =? k then Some p else nth_error l j.
Proof.
  intros l k p0 p j H. unfold set_part. assert (Hk : k < length l) by (apply nth_error_Some; congruence).
  assert (L : length (firstn k l) = k) by (rewrite firstn_length; lia).
  destruct (Nat.eqb_spec j k) as [E|E].
  - subst j. rewrite nth_error_app2 by lia. rewrite L, Nat.sub_diag. reflexivity.
  - destruct (Nat.lt_ge_cases j k) as [F|F].
    + rewrite nth_error_app1 by lia. rewrite <- (firstn_skipn k l) at 2. rewrite nth_error_app1 by lia. reflexivity.
    + rewrite nth_error_app2 by lia. rewrite L. destruct (j - k) as [|m] eqn:M; [lia|]. cbn [nth_error].
      rewrite <- (firstn_skipn (S k) l) at 2. rewrite nth_error_app2 by (rewrite firstn_length; lia).
      f_equal. rewrite firstn_length. lia.
Qed.
Lemma len_set : forall l k p0 p, nth_error l k = Some p0 -> length (set_part l k p) = length l.
Proof.
  intros l k p0 p H. unfold set_part. assert (Hk : k < length l) by (apply nth_error_Some; congruence).
  rewrite app_length, firstn_length. cbn [length]. rewrite skipn_length. lia.
Qed.
Lemma set_split : forall l i (c0 : option nat) c, nth_error l i = Some c0 ->
  exists l1 l2, l = l1 ++ c0 :: l2 /\ set_conn l i c = l1 ++ c :: l2 /\ drop_conn l i = l1 ++ l2.
Proof.
  intros l i c0 c H. apply nth_error_split in H as (l1 & l2 & -> & <-). exists l1, l2. split; [reflexivity|].
  unfold set_conn, drop_conn. rewrite firstn_app, Nat.sub_diag, firstn_all, firstn_O, app_nil_r.
  assert (E : skipn (S (length l1)) (l1 ++ c0 :: l2) = l2).
  { change (l1 ++ c0 :: l2) with (l1 ++ [c0] ++ l2). rewrite app_assoc. rewrite skipn_app.
    rewrite (@skipn_all2 _ (S (length l1)) (l1 ++ [c0])) by (rewrite app_length; cbn [length]; lia).
    replace (S (length l1) - length (l1 ++ [c0])) with 0 by (rewrite app_length; cbn [length]; lia). reflexivity. }
  rewrite E. split; reflexivity.
Qed.
Lemma in_set : forall l i (c0 c x : option nat), nth_error l i = Some c0 -> In x l -> x = c0 \/ In x (set_conn l i c).
Proof.
  intros l i c0 c x H I. destruct (set_split l i c0 c H) as (l1 & l2 & -> & E & _). rewrite E.
  apply in_app_or in I as [I|[I|I]]; [right; apply in_or_app; left; exact I|left; symmetry; exact I|right; apply in_or_app; right; right; exact I].
Qed.
Lemma in_set_new : forall l i (c0 c : option nat), nth_error l i = Some c0 -> In c (set_conn l i c).
Proof. intros l i c0 c H. destruct (set_split l i c0 c H) as (l1 & l2 & -> & E & _). rewrite E. apply in_or_app. right. left. reflexivity. Qed.
Lemma in_drop : forall l i (c0 x : option nat), nth_error l i = Some c0 -> In x l -> x = c0 \/ In x (drop_conn l i).
Proof.
  intros l i c0 x H I. destruct (set_split l i c0 c0 H) as (l1 & l2 & -> & _ & E). rewrite E.
  apply in_app_or in I as [I|[I|I]]; [right; apply in_or_app; left; exact I|left; symmetry; exact I|right; apply in_or_app; right; exact I].
Qed.

(* Histories *)
Lemma run_split : forall ks tr s, run ks tr s -> forall t1 e t2, tr = t1 ++ e :: t2 ->
  exists s1 s2, run ks t1 s1 /\ step s1 e s2 /\ run ks (t1 ++ [e]) s2.
Proof.
  intros ks tr s R. induction R as [|tr s e0 s' R IH St]; intros t1 e t2 E.
  - destruct t1; discriminate E.
  - destruct t2 as [|x t2] using rev_ind.
    + apply app_inj_tail in E as [-> ->]. exists s, s'. split; [exact R|]. split; [exact St|]. exact (run_snoc ks t1 s e s' R St).
    + change (t1 ++ e :: t2 ++ [x]) with (t1 ++ (e :: t2) ++ [x]) in E. rewrite app_assoc in E.
      apply app_inj_tail in E as [E _]. exact (IH t1 e t2 E).
Qed.
Lemma in_snoc : forall {A} (x e : A) l, In x (l ++ [e]) <-> In x l \/ x = e.
Proof. intros A x e l. rewrite in_app_iff. cbn [In]. split; intros [H|H]; auto; destruct H as [H|H]; auto; contradiction. Qed.
Lemma after_more : forall b a tr e, after b a tr -> after b a (tr ++ [e]).
Proof. intros b a tr e (t1 & t2 & -> & H). exists t1, (t2 ++ [e]). split; [rewrite <- app_assoc; reflexivity|exact H]. Qed.
Lemma after_app : forall b a t u, after b a t -> after b a (t ++ u).
Proof. intros b a t u (t1 & t2 & -> & H). exists t1, (t2 ++ u). split; [rewrite <- app_assoc; reflexivity|exact H]. Qed.
Lemma over_more : forall k r tr e, was_over k r tr -> was_over k r (tr ++ [e]).
Proof. intros k r tr e (x & I & O). exists x. split; [apply in_or_app; left; exact I|exact O]. Qed.

Ltac steps_of St := destruct St as [St|[St|St]]; inversion St; subst; clear St.
Ltac rd := unfold put, go, with_conns in *; cbn [at_ parts expired reports next what running listening called conns] in *.

(* What main does *)
Definition sofar (n : nat) (x : place) (l : list event) : Prop :=
  match x with
  | Starting k => k <= n /\ l = map Begins (seq 0 k)
  | Ready => l = map Begins (seq 0 n) ++ [SaysReady]
  | Next k => k <= n /\ l = map Begins (seq 0 n) ++ [SaysReady] ++ map Calls (seq 0 k)
  | Inside k => k < n /\ l = map Begins (seq 0 n) ++ [SaysReady] ++ map Calls (seq 0 (S k))
  | Joining => l = map Begins (seq 0 n) ++ [SaysReady] ++ map Calls (seq 0 n) ++ [Joins]
  | Exited => l = whole_life n
  | Panicked => exists rest, whole_life n = l ++ rest
  end.
Lemma seq_split : forall k n, k <= n -> seq 0 n = seq 0 k ++ seq k (n - k).
Proof. intros k n H. rewrite <- (Nat.add_0_l k) at 3. rewrite <- seq_app. f_equal. lia. Qed.
Lemma sofar_prefix : forall n x l, sofar n x l -> exists rest, whole_life n = l ++ rest.
Proof.
  intros n x l H. unfold whole_life. destruct x as [k| |k|k| | |]; cbn [sofar] in H.
  - destruct H as [Hk ->]. eexists. rewrite (seq_split k n Hk), map_app, <- app_assoc. reflexivity.
  - subst l. eexists. rewrite <- app_assoc. reflexivity.
  - destruct H as [Hk ->]. eexists. rewrite (seq_split k n Hk) at 2. rewrite (map_app Calls), <- !app_assoc. reflexivity.
  - destruct H as [Hk ->]. eexists. rewrite (seq_split (S k) n Hk) at 2. rewrite (map_app Calls), <- !app_assoc. reflexivity.
  - subst l. exists [Exits]. rewrite <- !app_assoc. reflexivity.
  - subst l. exists []. rewrite app_nil_r. reflexivity.
  - exact H.
Qed.
Lemma parts_len : forall ks tr s, run ks tr s -> length (parts s) = length ks.
Proof.
  intros ks tr s R. induction R as [|tr s e s' R IH St]; [cbn; apply map_length|].
  steps_of St; rd; try exact IH; match goal with H : nth_error (parts _) _ = Some _ |- _ => rewrite (len_set _ _ _ _ H) end; exact IH.
Qed.
Lemma main_sofar : forall ks tr s, run ks tr s -> sofar (length ks) (at_ s) (filter by_main tr).
Proof.
  intros ks tr s R. induction R as [|tr s e s' R IH St].
  - cbn. split; [lia|reflexivity].
  - pose proof (parts_len ks tr s R) as L. rewrite filter_app. cbn [filter].
    steps_of St; cbn [by_main] in *; rewrite ?app_nil_r; rd;
      try (repeat match goal with H : at_ _ = _ |- _ => rewrite H in * end; exact IH).
    + rewrite H in IH. cbn [sofar] in *. destruct IH as [Hk E].
      assert (k < length ks) by (rewrite <- L; apply nth_error_Some; congruence). split; [lia|]. rewrite E, seq_S, map_app. reflexivity.
    + rewrite H in IH. cbn [sofar] in *. destruct IH as [Hk E]. rewrite L in E. rewrite E. reflexivity.
    + rewrite H in IH. cbn [sofar] in *. cbn [seq map]. rewrite app_nil_r. split; [lia|exact IH].
    + rewrite H in IH. cbn [sofar] in *. destruct IH as [Hk E].
      assert (k < length ks) by (rewrite <- L; apply nth_error_Some; congruence). split; [lia|]. rewrite E, (seq_S k 0), map_app. rewrite <- !app_assoc. reflexivity.
    + rewrite H in IH. cbn [sofar] in *. destruct IH as [Hk E]. rewrite L in E. rewrite E. rewrite <- !app_assoc. reflexivity.
    + rewrite H in IH. cbn [sofar] in *. rewrite IH. unfold whole_life. rewrite <- !app_assoc. reflexivity.
    + cbn [sofar]. exact (sofar_prefix _ _ _ IH).
Qed.
Lemma calls_in : forall ks tr s k, run ks tr s -> In (Calls k) tr ->
  match at_ s with Starting _ | Ready => False | Next m => k < m | Inside m => k <= m | _ => k < length ks end.
Proof.
  intros ks tr s k R I. pose proof (main_sofar ks tr s R) as M.
  assert (J : In (Calls k) (filter by_main tr)) by (apply filter_In; split; [exact I|reflexivity]).
  assert (NB : forall n, ~ In (Calls k) (map Begins (seq 0 n))) by (intros n Q; apply in_map_iff in Q as (y & Q & _); discriminate Q).
  assert (IC : forall m, In (Calls k) (map Calls (seq 0 m)) -> k < m) by (intros m Q; apply in_map_iff in Q as (y & Q & P); apply in_seq in P; inversion Q; lia).
  pose proof (sofar_prefix _ _ _ M) as (rest & W).
  assert (Z : k < length ks).
  { assert (Q : In (Calls k) (whole_life (length ks))) by (rewrite W; apply in_or_app; left; exact J).
    unfold whole_life in Q. rewrite !in_app_iff in Q. destruct Q as [Q|[[Q|Q]|[Q|[Q|[Q|Q]]]]]; try discriminate Q; try contradiction; [exfalso; exact (NB _ Q)|exact (IC _ Q)]. }
  destruct (at_ s) as [m| |m|m| | |]; cbn [sofar] in M; try exact Z.
  - destruct M as [_ M]. rewrite M in J. exact (NB _ J).
  - rewrite M in J. apply in_app_or in J as [J|[J|J]]; [exact (NB _ J)|discriminate J|contradiction].
  - destruct M as [_ M]. rewrite M in J. rewrite !in_app_iff in J. destruct J as [J|[[J|J]|J]]; [exfalso; exact (NB _ J)|discriminate J|contradiction|exact (IC _ J)].
  - destruct M as [_ M]. rewrite M in J. rewrite !in_app_iff in J. destruct J as [J|[[J|J]|J]]; [exfalso; exact (NB _ J)|discriminate J|contradiction|]. apply IC in J. lia.
Qed.

(* The parts *)
Definition fine (tr : list event) (k : nat) (p : part) : Prop :=
  (called p = true <-> In (Calls k) tr) /\ (called p = true -> listening p = false) /\
  (what p = Worker -> running p = false -> conns p = []) /\
  (In (Returns k true) tr -> called p = true /\ conns p = [] /\ (what p = Worker -> running p = false)) /\
  (forall r, In (Starts k r) tr -> was_over k r tr \/ In (Some r) (conns p)).
Definition unstarted (x : place) (k : nat) (p : part) : Prop := match x with Starting m => m <= k -> p = idle (what p) | _ => True end.
Definition all_fine (tr : list event) (s : state) : Prop := forall k p, nth_error (parts s) k = Some p -> fine tr k p /\ unstarted (at_ s) k p.
Lemma fine_more : forall tr k p e, e <> Calls k -> e <> Returns k true -> (forall r, e <> Starts k r) -> fine tr k p -> fine (tr ++ [e]) k p.
Proof.
  intros tr k p e N1 N2 N3 (A & B & C & D & E). split; [rewrite in_snoc; split; [intros H; left; apply A; exact H|intros [H|H]; [apply A; exact H|congruence]]|].
  split; [exact B|]. split; [exact C|]. split; [rewrite in_snoc; intros [H|H]; [exact (D H)|congruence]|].
  intros r. rewrite in_snoc. intros [H|H]; [|exfalso; exact (N3 r (eq_sym H))]. destruct (E r H) as [O|I]; [left; exact (over_more _ _ _ _ O)|right; exact I].
Qed.
Lemma fine_same : forall tr k p q, called q = called p -> listening q = listening p -> conns q = conns p -> what q = what p -> (running q = false -> running p = false) -> (running p = false -> running q = false) ->
  fine tr k p -> fine tr k q.
Proof.
  intros tr k p q E1 E2 E3 E4 E5 E6 (A & B & C & D & E). unfold fine. rewrite E1, E2, E3, E4. repeat apply conj; try assumption.
  - exact (proj1 A). - exact (proj2 A).
  - intros W Q. exact (C W (E5 Q)).
  - intros H. destruct (D H) as (D1 & D2 & D3). split; [exact D1|]. split; [exact D2|]. intros W. exact (E6 (D3 W)).
Qed.
Lemma inside_called : forall ks tr s k, run ks tr s -> at_ s = Inside k -> In (Calls k) tr.
Proof.
  intros ks tr s k R H. pose proof (main_sofar ks tr s R) as M. rewrite H in M. cbn [sofar] in M. destruct M as [_ M].
  assert (J : In (Calls k) (filter by_main tr)).
  { rewrite M. apply in_or_app. right. apply in_or_app. right. apply in_map. apply in_seq. lia. }
  apply filter_In in J. exact (proj1 J).
Qed.
Lemma idle_fine : forall k w tr, ~ In (Calls k) tr -> (forall r, ~ In (Starts k r) tr) -> ~ In (Returns k true) tr -> fine tr k (idle w).
Proof.
  intros k w tr N1 N2 N3. unfold fine, idle. cbn [called listening what running conns].
  split; [split; [discriminate|intros H; exfalso; exact (N1 H)]|]. split; [reflexivity|]. split; [reflexivity|].
  split; [intros H; exfalso; exact (N3 H)|]. intros r H. exfalso. exact (N2 r H).
Qed.
(* One part changes, by event e. *)
Lemma fine_put : forall tr s k p q e x s', nth_error (parts s) k = Some p -> all_fine tr s ->
  parts s' = set_part (parts s) k q -> at_ s' = x ->
  (forall j, j <> k -> e <> Calls j /\ e <> Returns j true /\ (forall r, e <> Starts j r)) ->
  (forall j r, j <> k -> unstarted (at_ s) j r -> unstarted x j r) ->
  fine (tr ++ [e]) k q /\ unstarted x k q -> all_fine (tr ++ [e]) s'.
Proof.
  intros tr s k p q e x s' H F P X N U Q j p' J. rewrite P, (nth_set _ _ _ _ _ H) in J. rewrite X. destruct (Nat.eqb_spec j k) as [E|E].
  - inversion J; subst. exact Q.
  - destruct (N j E) as (N1 & N2 & N3). destruct (F j p' J) as [F1 F2]. split; [exact (fine_more _ _ _ _ N1 N2 N3 F1)|exact (U j p' E F2)].
Qed.
Lemma fine_none : forall tr s e s', all_fine tr s -> parts s' = parts s ->
  (forall j, e <> Calls j /\ e <> Returns j true /\ (forall r, e <> Starts j r)) ->
  (forall j r, unstarted (at_ s) j r -> unstarted (at_ s') j r) -> all_fine (tr ++ [e]) s'.
Proof.
  intros tr s e s' F P N U j p' J. rewrite P in J. destruct (N j) as (N1 & N2 & N3). destruct (F j p' J) as [F1 F2].
  split; [exact (fine_more _ _ _ _ N1 N2 N3 F1)|exact (U j p' F2)].
Qed.
Ltac other := intros; split; [|split; [|intros ?]]; intros ?Q; congruence.
Lemma returns_calls : forall ks tr s, run ks tr s -> forall k q, In (Returns k q) tr -> In (Calls k) tr /\ (q = false -> In Expires tr).
Proof.
  assert (X : forall ks tr s, run ks tr s -> (expired s = true -> In Expires tr) /\ forall k q, In (Returns k q) tr -> In (Calls k) tr /\ (q = false -> In Expires tr)).
  { intros ks tr s R. induction R as [|tr s e s' R [IH1 IH2] St]; [split; [discriminate|intros k q []]|].
    split.
    - intros H. steps_of St; rd; try (apply in_or_app; left; exact (IH1 H)). apply in_or_app. right. left. reflexivity.
    - intros k q H. rewrite in_snoc in H. destruct H as [H|H].
      + destruct (IH2 k q H) as [A B]. split; [apply in_or_app; left; exact A|intros Q; apply in_or_app; left; exact (B Q)].
      + subst e. destruct St as [St|[St|St]]; inversion St; subst.
        * split; [apply in_or_app; left; match goal with Q : at_ s = Inside k |- _ => exact (inside_called ks tr s k R Q) end|discriminate].
        * split; [apply in_or_app; left; match goal with Q : at_ s = Inside k |- _ => exact (inside_called ks tr s k R Q) end|]. intros _. apply in_or_app. left. match goal with Q : expired s = true |- _ => exact (IH1 Q) end. }
  intros ks tr s R. exact (proj2 (X ks tr s R)).
Qed.
Lemma expired_in : forall ks tr s, run ks tr s -> expired s = true <-> In Expires tr.
Proof.
  intros ks tr s R. induction R as [|tr s e s' R IH St]; [split; [discriminate|intros []]|].
  rewrite in_snoc, <- IH. steps_of St; rd; split; intros H9; auto; destruct H9 as [H9|H9]; auto; discriminate H9.
Qed.

Lemma all_fine_run : forall ks tr s, run ks tr s -> all_fine tr s.
Proof.
  intros ks tr s R. induction R as [|tr s e s' R IH St].
  - intros k p H. cbn [init parts at_] in *. rewrite nth_error_map in H. destruct (nth_error ks k) as [w|] eqn:W; [|discriminate H].
    cbn [option_map] in H. inversion H; subst. split; [apply idle_fine; [exact (fun x => x)|exact (fun _ x => x)|exact (fun x => x)]|]. intros _. reflexivity.
  - pose proof (calls_in ks tr s) as CI. pose proof (returns_calls ks tr s R) as RC. pose proof (run_snoc ks tr s e s' R St) as R'. pose proof (inside_called ks tr s) as IC.
    destruct St as [St|[St|St]]; inversion St; subst.
    + (* begins *) destruct (IH k p H0) as [F U]. rewrite H in U. specialize (U (le_n k)). rewrite U in F. destruct F as (A & B & C & D & G).
      eapply (fine_put tr s k p _ _ _ _ H0 IH); [reflexivity|reflexivity|other|rd; rewrite H; cbn [unstarted]; intros j r E1 E2 E3; apply E2; lia|].
      split; [|rd; cbn [unstarted]; intros Q; lia]. unfold fine, idle in *. rd. cbn [idle called listening what running conns] in *.
      assert (N : ~ In (Calls k) tr) by (intros Q; specialize (CI k R Q); rewrite H in CI; exact CI).
      split; [rewrite in_snoc; split; [discriminate|intros [Q|Q]; [exfalso; exact (N Q)|discriminate Q]]|]. split; [reflexivity|]. split; [intros; reflexivity|].
      split; [rewrite in_snoc; intros [Q|Q]; [exfalso; exact (N (proj1 (RC _ _ Q)))|discriminate Q]|].
      intros r. rewrite in_snoc. intros [Q|Q]; [|discriminate Q]. destruct (G r Q) as [O|[]]. left. exact (over_more _ _ _ _ O).
    + (* is_ready *) apply (fine_none tr s _ _ IH); [reflexivity|other|rd; cbn; auto].
    + apply (fine_none tr s _ _ IH); [reflexivity|other|rd; cbn; auto].
    + (* calls *) destruct (IH k p H0) as [(A & B & C & D & G) U].
      eapply (fine_put tr s k p _ _ _ _ H0 IH); [reflexivity|reflexivity|other|rd; cbn [unstarted]; auto|].
      split; [|rd; exact Logic.I]. unfold fine. rd. split; [rewrite in_snoc; split; auto|]. split; [reflexivity|]. split; [exact C|].
      split; [rewrite in_snoc; intros [Q|Q]; [destruct (D Q) as (D1 & D2 & D3); auto|discriminate Q]|].
      intros r. rewrite in_snoc. intros [Q|Q]; [|discriminate Q]. destruct (G r Q) as [O|O]; [left; exact (over_more _ _ _ _ O)|right; exact O].
    + (* drained *) intros j p' J. rd. split; [|exact Logic.I]. destruct (IH j p' J) as [(A & B & C & D & G) U].
      pose proof (IC k R H) as Q0. unfold fine. split; [rewrite in_snoc; split; [intros Q; left; apply A; exact Q|intros [Q|Q]; [apply A; exact Q|discriminate Q]]|].
      split; [exact B|]. split; [exact C|]. split.
      * rewrite in_snoc. intros [Q|Q]; [exact (D Q)|]. inversion Q; subst. rewrite J in H0. inversion H0; subst.
        split; [apply A; exact Q0|]. destruct (what p) eqn:W; [split; [exact H1|discriminate]|split; [exact (C eq_refl H1)|intros _; exact H1]].
      * intros r. rewrite in_snoc. intros [Q|Q]; [|discriminate Q]. destruct (G r Q) as [O|O]; [left; exact (over_more _ _ _ _ O)|right; exact O].
    + apply (fine_none tr s _ _ IH); [reflexivity|other|rd; cbn; auto].
    + apply (fine_none tr s _ _ IH); [reflexivity|other|rd; cbn; auto].
    + apply (fine_none tr s _ _ IH); [reflexivity|other|rd; cbn; auto].
    + (* server_ends *) destruct (IH k p H0) as [F U].
      eapply (fine_put tr s k p _ _ _ _ H0 IH); [reflexivity|reflexivity|other|rd; auto|].
      assert (F' : fine (tr ++ [Ends k]) k p) by (apply fine_more; [discriminate|discriminate|discriminate|exact F]). destruct F' as (A & B & C & D & G).
      split; [unfold fine; rd; repeat apply conj; try assumption; [exact (proj1 A)|exact (proj2 A)|rewrite H1; discriminate|intros Q; destruct (D Q) as (D1 & D2 & D3); auto]|].
      rd. unfold unstarted in *. destruct (at_ s); auto. intros Q. rewrite (U Q) in H2. discriminate H2.
    + (* worker_ends *) destruct (IH k p H0) as [F U].
      eapply (fine_put tr s k p _ _ _ _ H0 IH); [reflexivity|reflexivity|other|rd; auto|].
      assert (F' : fine (tr ++ [Ends k]) k p) by (apply fine_more; [discriminate|discriminate|discriminate|exact F]). destruct F' as (A & B & C & D & G).
      split; [unfold fine; rd; repeat apply conj; try assumption; [exact (proj1 A)|exact (proj2 A)|intros _ _; exact H4|intros Q; destruct (D Q) as (D1 & D2 & D3); auto]|].
      rd. unfold unstarted in *. destruct (at_ s); auto. intros Q. rewrite (U Q) in H2. discriminate H2.
    + apply (fine_none tr s' _ _ IH); [reflexivity|other|rd; cbn; auto].
    + apply (fine_none tr s _ _ IH); [reflexivity|other|rd; cbn; auto].
    + (* listens *) destruct (IH k p H0) as [F U].
      eapply (fine_put tr s k p _ _ _ _ H0 IH); [reflexivity|reflexivity|other|rd; auto|].
      assert (F' : fine (tr ++ [Listens k]) k p) by (apply fine_more; [discriminate|discriminate|discriminate|exact F]). destruct F' as (A & B & C & D & G).
      split; [unfold fine; rd; repeat apply conj; try assumption; [exact (proj1 A)|exact (proj2 A)|rewrite H3; discriminate]|].
      rd. unfold unstarted in *. destruct (at_ s); auto. intros Q. rewrite (U Q) in H2. discriminate H2.
    + apply (fine_none tr s _ _ IH); [reflexivity|other|rd; cbn; auto].
    + (* connects *) destruct (IH k p H0) as [F U].
      eapply (fine_put tr s k p _ _ _ _ H0 IH); [reflexivity|reflexivity|other|rd; auto|].
      assert (F' : fine (tr ++ [Connects k]) k p) by (apply fine_more; [discriminate|discriminate|discriminate|exact F]). destruct F' as (A & B & C & D & G).
      split; [unfold fine; rd; repeat apply conj; try assumption; [exact (proj1 A)|exact (proj2 A)|rewrite H1; discriminate| |]|].
      * intros Q. destruct (D Q) as (D1 & D2 & D3). rewrite (B D1) in H2. discriminate H2.
      * intros r Q. destruct (G r Q) as [O|O]; [left; exact O|right; apply in_or_app; left; exact O].
      * rd. unfold unstarted in *. destruct (at_ s); auto. intros Q. rewrite (U Q) in H2. discriminate H2.
    + (* starts *) destruct (IH k p H0) as [F U].
      eapply (fine_put tr s k p (with_conns p (set_conn (conns p) i (Some (next s)))) _ _ _ H0 IH); [reflexivity|reflexivity| |rd; auto|].
      { intros j E. repeat split; try discriminate. intros r Q. inversion Q. congruence. }
      destruct F as (A & B & C & D & G).
      split; [unfold fine; rd; repeat apply conj|].
      * intros Q. apply in_or_app. left. apply A. exact Q.
      * rewrite in_snoc. intros [Q|Q]; [apply A; exact Q|discriminate Q].
      * exact B.
      * rewrite H1. discriminate.
      * rewrite in_snoc. intros [Q|Q]; [|discriminate Q]. destruct (D Q) as (D1 & D2 & D3). rewrite D2 in H2. destruct i; discriminate H2.
      * intros r. rewrite in_snoc. intros [Q|Q].
        -- destruct (G r Q) as [O|O]; [left; exact (over_more _ _ _ _ O)|]. right.
           destruct (in_set (conns p) i None (Some (next s)) (Some r) H2 O) as [X|X]; [discriminate X|exact X].
        -- inversion Q; subst. right. exact (in_set_new _ _ _ _ H2).
      * rd. unfold unstarted in *. destruct (at_ s); auto. intros Q. rewrite (U Q) in H2. destruct i; discriminate H2.
    + (* answers *) destruct (IH k p H0) as [F U].
      eapply (fine_put tr s k p _ _ _ _ H0 IH); [reflexivity|reflexivity|other|rd; auto|].
      assert (F' : fine (tr ++ [Answers k r]) k p) by (apply fine_more; [discriminate|discriminate|discriminate|exact F]). destruct F' as (A & B & C & D & G).
      split; [unfold fine; rd; repeat apply conj; try assumption; [exact (proj1 A)|exact (proj2 A)| | |]|].
      * intros W Q. rewrite (C W Q) in H1. destruct i; discriminate H1.
      * intros Q. destruct (D Q) as (D1 & D2 & D3). rewrite D2 in H1. destruct i; discriminate H1.
      * intros r' Q. destruct (G r' Q) as [O|O]; [left; exact O|].
        assert (X : Some r' = Some r \/ In (Some r') (match what p with Server => set_conn (conns p) i None | Worker => drop_conn (conns p) i end))
          by (destruct (what p); [exact (in_set _ _ _ _ _ H1 O)|exact (in_drop _ _ _ _ H1 O)]).
        destruct X as [X|X]; [|right; exact X]. inversion X; subst. left. exists (Answers k r). split; [apply in_or_app; right; left; reflexivity|left; reflexivity].
      * rd. unfold unstarted in *. destruct (at_ s); auto. intros Q. rewrite (U Q) in H1. destruct i; discriminate H1.
    + (* submits *) destruct (IH k p H0) as [F U].
      eapply (fine_put tr s k p (with_conns p (set_conn (conns p) i None)) _ _ _ H0 IH); [reflexivity|reflexivity|other|rd; auto|].
      assert (F' : fine (tr ++ [Submits k r]) k p) by (apply fine_more; [discriminate|discriminate|discriminate|exact F]). destruct F' as (A & B & C & D & G).
      split; [unfold fine; rd; repeat apply conj; try assumption; [exact (proj1 A)|exact (proj2 A)|rewrite H1; discriminate| |]|].
      * intros Q. destruct (D Q) as (D1 & D2 & D3). rewrite D2 in H2. destruct i; discriminate H2.
      * intros r' Q. destruct (G r' Q) as [O|O]; [left; exact O|].
        destruct (in_set _ _ _ None _ H2 O) as [X|X]; [|right; exact X]. inversion X; subst. left. exists (Submits k r). split; [apply in_or_app; right; left; reflexivity|right; left; reflexivity].
      * rd. unfold unstarted in *. destruct (at_ s); auto. intros Q. rewrite (U Q) in H2. destruct i; discriminate H2.
    + (* hijacks *) destruct (IH k p H0) as [F U].
      eapply (fine_put tr s k p _ _ _ _ H0 IH); [reflexivity|reflexivity|other|rd; auto|].
      assert (F' : fine (tr ++ [Hijacks k r]) k p) by (apply fine_more; [discriminate|discriminate|discriminate|exact F]). destruct F' as (A & B & C & D & G).
      split; [unfold fine; rd; repeat apply conj; try assumption; [exact (proj1 A)|exact (proj2 A)|rewrite H1; discriminate| |]|].
      * intros Q. destruct (D Q) as (D1 & D2 & D3). rewrite D2 in H2. destruct i; discriminate H2.
      * intros r' Q. destruct (G r' Q) as [O|O]; [left; exact O|].
        destruct (in_drop _ _ _ _ H2 O) as [X|X]; [|right; exact X]. inversion X; subst. left. exists (Hijacks k r). split; [apply in_or_app; right; left; reflexivity|right; right; reflexivity].
      * rd. unfold unstarted in *. destruct (at_ s); auto. intros Q. rewrite (U Q) in H2. destruct i; discriminate H2.
    + (* closes *) destruct (IH k p H0) as [F U].
      eapply (fine_put tr s k p _ _ _ _ H0 IH); [reflexivity|reflexivity|other|rd; auto|].
      assert (F' : fine (tr ++ [Closes k]) k p) by (apply fine_more; [discriminate|discriminate|discriminate|exact F]). destruct F' as (A & B & C & D & G).
      split; [unfold fine; rd; repeat apply conj; try assumption; [exact (proj1 A)|exact (proj2 A)|rewrite H1; discriminate| |]|].
      * intros Q. destruct (D Q) as (D1 & D2 & D3). rewrite D2 in H2. destruct i; discriminate H2.
      * intros r' Q. destruct (G r' Q) as [O|O]; [left; exact O|].
        destruct (in_drop _ _ _ _ H2 O) as [X|X]; [discriminate X|right; exact X].
      * rd. unfold unstarted in *. destruct (at_ s); auto. intros Q. rewrite (U Q) in H2. destruct i; discriminate H2.
    + (* takes *) destruct (IH k p H0) as [F U].
      eapply (fine_put tr s k p (with_conns p [Some r]) _ _ _ H0 IH); [reflexivity|reflexivity| |rd; auto|].
      { intros j E. repeat split; try discriminate. intros r' Q. inversion Q. congruence. }
      destruct F as (A & B & C & D & G).
      split; [unfold fine; rd; repeat apply conj|].
      * intros Q. apply in_or_app. left. apply A. exact Q.
      * rewrite in_snoc. intros [Q|Q]; [apply A; exact Q|discriminate Q].
      * exact B.
      * rewrite H2. discriminate.
      * rewrite in_snoc. intros [Q|Q]; [|discriminate Q]. destruct (D Q) as (D1 & D2 & D3). rewrite (D3 H1) in H2. discriminate H2.
      * intros r'. rewrite in_snoc. intros [Q|Q].
        -- destruct (G r' Q) as [O|O]; [left; exact (over_more _ _ _ _ O)|]. rewrite H3 in O. destruct O.
        -- inversion Q; subst. right. left. reflexivity.
      * rd. unfold unstarted in *. destruct (at_ s); auto. intros Q. rewrite (U Q) in H2. discriminate H2.
Qed.
(* Main has returned from the Shutdowns before. *)
Lemma returned : forall ks tr s, run ks tr s -> forall j,
  match at_ s with Next k | Inside k => j < k | Joining | Exited => j < length ks | _ => False end -> exists q, In (Returns j q) tr.
Proof.
  intros ks tr s R. induction R as [|tr s e s' R IH St]; intros j H; [destruct H|].
  pose proof (parts_len ks tr s R) as L.
  assert (M : (exists q, In (Returns j q) tr) -> exists q, In (Returns j q) (tr ++ [e])) by (intros (q & Q); exists q; apply in_or_app; left; exact Q).
  steps_of St; rd; try contradiction; try (apply M; apply IH; repeat match goal with X : at_ _ = _ |- _ => rewrite X in * end; exact H); try (apply M; apply IH; exact H).
  - lia.
  - assert (C : j < k \/ j = k) by lia. destruct C as [C|C]; [apply M; apply IH; rewrite H0; exact C|]. subst j. exists true. apply in_or_app. right. left. reflexivity.
  - assert (C : j < k \/ j = k) by lia. destruct C as [C|C]; [apply M; apply IH; rewrite H0; exact C|]. subst j. exists false. apply in_or_app. right. left. reflexivity.
  - apply M. apply IH. rewrite H0. rewrite L. exact H.
Qed.
(* The signal that was heard *)
Lemma heard : forall ks tr s, run ks tr s -> match at_ s with
  | Starting _ => ~ In SaysReady tr | Ready => In SaysReady tr | Next _ | Inside _ | Joining | Exited => In SaysReady tr /\ after SaysReady Signal tr | Panicked => True end.
Proof.
  intros ks tr s R. induction R as [|tr s e s' R IH St]; [exact (fun x => x)|].
  assert (A1 : In SaysReady tr -> In SaysReady (tr ++ [e])) by (intros Q; apply in_or_app; left; exact Q).
  assert (A2 : after SaysReady Signal tr -> after SaysReady Signal (tr ++ [e])) by (apply after_more).
  assert (A3 : e <> SaysReady -> ~ In SaysReady tr -> ~ In SaysReady (tr ++ [e])) by (intros N Q; rewrite in_snoc; intros [Z|Z]; [exact (Q Z)|exact (N (eq_sym Z))]).
  steps_of St; rd; try exact Logic.I; repeat match goal with X : at_ _ = _ |- _ => rewrite X in * end;
    try (match goal with X : at_ ?s = _ \/ at_ ?s = _ |- _ => destruct X as [X|X]; rewrite X in * end);
    try (destruct IH as [I1 I2]; split; [exact (A1 I1)|exact (A2 I2)]);
    try (destruct (at_ s) eqn:?; [apply A3; [discriminate|exact IH]|exact (A1 IH)|destruct IH as [I1 I2]; split; [exact (A1 I1)|exact (A2 I2)]|destruct IH as [I1 I2]; split; [exact (A1 I1)|exact (A2 I2)]|destruct IH as [I1 I2]; split; [exact (A1 I1)|exact (A2 I2)]|destruct IH as [I1 I2]; split; [exact (A1 I1)|exact (A2 I2)]|exact Logic.I]).
  - apply A3; [discriminate|exact IH].
  - apply in_or_app. right. left. reflexivity.
  - split; [exact (A1 IH)|]. exists tr, []. split; [reflexivity|exact IH].
  - destruct (at_ s') eqn:?; [apply A3; [discriminate|exact IH]|exact (A1 IH)|destruct IH as [I1 I2]; split; [exact (A1 I1)|exact (A2 I2)]|destruct IH as [I1 I2]; split; [exact (A1 I1)|exact (A2 I2)]|destruct IH as [I1 I2]; split; [exact (A1 I1)|exact (A2 I2)]|destruct IH as [I1 I2]; split; [exact (A1 I1)|exact (A2 I2)]|exact Logic.I].
Qed.
Lemma no_step_dead : forall s e s', step s e s' -> alive s.
Proof.
  intros s e s' St. destruct St as [St|[St|St]]; inversion St; subst; try assumption; try (split; congruence).
  destruct H as [H|H]; split; congruence.
Qed.
Lemma step_exits : forall s s', step s Exits s' -> at_ s' = Exited.
Proof. intros s s' St. destruct St as [St|[St|St]]; inversion St; subst. reflexivity. Qed.
Lemma step_panics : forall s s', step s Panics s' -> at_ s' = Panicked.
Proof. intros s s' St. destruct St as [St|[St|St]]; inversion St; subst. reflexivity. Qed.
(* Once it is over nothing more happens. *)
Lemma last_event : forall ks t1 e t2 s, run ks (t1 ++ e :: t2) s -> e = Exits \/ e = Panics -> t2 = [].
Proof.
  intros ks t1 e t2 s R E. destruct t2 as [|x t2]; [reflexivity|exfalso].
  destruct (run_split ks _ s R (t1 ++ [e]) x t2) as (s1 & s2 & R1 & St & _); [rewrite <- app_assoc; reflexivity|].
  destruct (run_split ks _ s1 R1 t1 e []) as (s3 & s4 & R3 & St3 & R4); [reflexivity|].
  apply no_step_dead in St as [N1 N2].
  assert (Z : at_ s1 = Exited \/ at_ s1 = Panicked).
  { clear R4. inversion R1 as [Z|tr y z w Ry Sy Q]; [destruct t1; discriminate|]. apply app_inj_tail in Q as [-> ->]. subst. destruct E as [-> | ->]; [left; exact (step_exits _ _ Sy)|right; exact (step_panics _ _ Sy)]. }
  destruct Z; contradiction.
Qed.

(* A part that returned well has no more of its requests. *)
Lemma quiet_over : forall ks t1 t2 s k r, run ks (t1 ++ Returns k true :: t2) s -> In (Starts k r) (t1 ++ Returns k true :: t2) -> In (Starts k r) t1 /\ was_over k r t1.
Proof.
  intros ks t1 t2 s k r R I.
  destruct (run_split ks _ s R t1 (Returns k true) t2 eq_refl) as (s1 & s2 & R1 & St & R2).
  assert (P : exists p, nth_error (parts s1) k = Some p /\ conns p = []).
  { pose proof (all_fine_run ks t1 s1 R1) as F. destruct St as [St|[St|St]]; inversion St; subst. exists p. split; [assumption|].
    destruct (what p) eqn:W; [assumption|]. destruct (F k p) as [(A & B & C & D & G) U]; [assumption|]. apply C; assumption. }
  destruct P as (p & P & PC).
  assert (Z : In (Starts k r) t1 -> was_over k r t1).
  { intros Q. destruct (all_fine_run ks t1 s1 R1 k p P) as [(A & B & C & D & G) U]. destruct (G r Q) as [O|O]; [exact O|]. rewrite PC in O. destruct O. }
  apply in_app_or in I as [I|[I|I]]; [split; [exact I|exact (Z I)]|discriminate I|exfalso].
  apply in_split in I as (t3 & t4 & ->).
  destruct (run_split ks _ s R (t1 ++ Returns k true :: t3) (Starts k r) t4) as (u & u' & Ru & Su & _); [rewrite <- app_assoc; reflexivity|].
  assert (J : In (Returns k true) (t1 ++ Returns k true :: t3)) by (apply in_or_app; right; left; reflexivity).
  destruct Su as [Su|[Su|Su]]; inversion Su; subst.
  - destruct (all_fine_run ks _ u Ru k p0 ltac:(assumption)) as [(A & B & C & D & G) U]. destruct (D J) as (D1 & D2 & D3).
    match goal with X : nth_error (conns p0) ?i = Some None |- _ => rewrite D2 in X; destruct i; discriminate X end.
  - destruct (all_fine_run ks _ u Ru k p0 ltac:(assumption)) as [(A & B & C & D & G) U]. destruct (D J) as (D1 & D2 & D3).
    rewrite D3 in * by assumption. discriminate.
Qed.

Lemma closed_after : forall ks t1 t2 s k e, run ks (t1 ++ Calls k :: t2) s -> In e t2 -> e <> Connects k /\ e <> Listens k.
Proof.
  intros ks t1 t2 s k e R I. apply in_split in I as (t3 & t4 & ->).
  destruct (run_split ks _ s R (t1 ++ Calls k :: t3) e t4) as (u & u' & Ru & Su & _); [rewrite <- app_assoc; reflexivity|].
  assert (J : In (Calls k) (t1 ++ Calls k :: t3)) by (apply in_or_app; right; left; reflexivity).
  pose proof (all_fine_run ks _ u Ru) as F.
  split; intros ->; destruct Su as [Su|[Su|Su]]; inversion Su; subst;
    destruct (F k p ltac:(assumption)) as [(A & B & C & D & G) U]; pose proof (proj2 A J) as Q; try rewrite (B Q) in *; congruence.
Qed.
Lemma waits_all : forall ks tr s j r i t1 t2, run ks tr s -> In (Starts j r) tr -> ~ was_over j r tr -> j < i -> tr = t1 ++ Calls i :: t2 -> In Expires t1.
Proof.
  intros ks tr s j r i t1 t2 R I N L ->.
  destruct (run_split ks _ s R t1 (Calls i) t2 eq_refl) as (s1 & s2 & R1 & St & R2).
  assert (A : at_ s1 = Next i) by (destruct St as [St|[St|St]]; inversion St; subst; assumption).
  pose proof (returned ks t1 s1 R1 j) as Q. rewrite A in Q. destruct (Q L) as ([|] & Z).
  - exfalso. apply in_split in Z as (t3 & t4 & ->). rewrite <- app_assoc in R, I, N. cbn [app] in R, I, N.
    destruct (quiet_over ks t3 _ s j r R I) as [_ (e & E1 & E2)]. apply N. exists e. split; [apply in_or_app; left; exact E1|exact E2].
  - exact (proj2 (returns_calls ks t1 s1 R1 j false Z) eq_refl).
Qed.

Lemma parts_what : forall ks tr s, run ks tr s -> forall k p, nth_error (parts s) k = Some p -> nth_error ks k = Some (what p).
Proof.
  intros ks tr s R. induction R as [|tr s e s' R IH St]; intros j p' J.
  - cbn [init parts] in J. rewrite nth_error_map in J. destruct (nth_error ks j); [|discriminate J]. cbn in J. inversion J. reflexivity.
  - steps_of St; rd; try (exact (IH j p' J));
      match goal with X : nth_error (parts _) ?k = Some _ |- _ => rewrite (nth_set _ _ _ _ _ X) in J; destruct (Nat.eqb_spec j k) as [E|E]; [inversion J; subst; cbn [what]; apply IH; assumption|exact (IH j p' J)] end.
Qed.
Lemma reports_kept : forall ks tr s, run ks tr s -> submitted tr = taken ks tr ++ reports s /\ length (reports s) <= 128.
Proof.
  intros ks tr s R. induction R as [|tr s e s' R [IH1 IH2] St]; [split; [reflexivity|cbn; lia]|].
  unfold submitted, taken in *. rewrite !flat_map_app. cbn [flat_map]. rewrite !app_nil_r. rewrite IH1. pose proof (parts_what ks tr s R) as PW.
  steps_of St; rd; rewrite ?app_nil_r; try (split; [reflexivity|exact IH2]).
  - rewrite (PW k p H0), H1. rewrite app_nil_r. split; [reflexivity|exact IH2].
  - rewrite app_assoc. split; [reflexivity|]. rewrite app_length. cbn [length]. lia.
  - rewrite (PW k p H0), H1, H4. rewrite <- app_assoc. rewrite H4 in IH2. split; [reflexivity|cbn [length] in IH2; lia].
Qed.

(* It stops by itself when the time is over. *)
Definition busy_server (p : part) : bool := match what p with Server => running p | Worker => false end.
Definition left_ (l : list part) : nat := length (filter busy_server l).
Lemma left_le : forall l, left_ l <= length l.
Proof. induction l as [|p l IH]; [cbn; lia|]. unfold left_ in *. cbn [filter]. destruct (busy_server p); cbn [length]; lia. Qed.
Lemma set_part_split : forall l k p0 p, nth_error l k = Some p0 -> exists l1 l2, l = l1 ++ p0 :: l2 /\ set_part l k p = l1 ++ p :: l2.
Proof.
  intros l k p0 p H. apply nth_error_split in H as (l1 & l2 & -> & <-). exists l1, l2. split; [reflexivity|].
  unfold set_part. rewrite firstn_app, Nat.sub_diag, firstn_all, firstn_O, app_nil_r. f_equal. f_equal.
  change (l1 ++ p0 :: l2) with (l1 ++ [p0] ++ l2). rewrite app_assoc, skipn_app.
  rewrite (@skipn_all2 _ (S (length l1)) (l1 ++ [p0])) by (rewrite app_length; cbn [length]; lia).
  replace (S (length l1) - length (l1 ++ [p0])) with 0 by (rewrite app_length; cbn [length]; lia). reflexivity.
Qed.
Lemma stop_joining : forall n ks tr s, run ks tr s -> at_ s = Joining -> left_ (parts s) = n ->
  exists tr' s', run ks (tr ++ tr') s' /\ In Exits tr' /\ Forall its_own tr' /\ length tr' = n + 1.
Proof.
  induction n as [|n IH]; intros ks tr s R A L.
  - exists [Exits]. eexists. split; [|split; [left; reflexivity|split; [constructor; [exact Logic.I|constructor]|reflexivity]]].
    eapply run_snoc; [exact R|]. left. apply exits; [exact A|]. intros k p P W. unfold left_ in L.
    destruct (running p) eqn:Q; [exfalso|reflexivity]. assert (Z : In p (filter busy_server (parts s))) by (apply filter_In; split; [exact (nth_error_In _ _ P)|unfold busy_server; rewrite W; exact Q]).
    destruct (filter busy_server (parts s)); [destruct Z|discriminate L].
  - assert (Z : exists p, In p (parts s) /\ busy_server p = true).
    { unfold left_ in L. destruct (filter busy_server (parts s)) as [|p l] eqn:Q; [discriminate L|]. exists p. apply filter_In. rewrite Q. left. reflexivity. }
    destruct Z as (p & P & B). apply In_nth_error in P as (k & P). assert (W : what p = Server /\ running p = true) by (unfold busy_server in B; destruct (what p); [auto|discriminate B]). destruct W as [W RP].
    assert (C : called p = true).
    { destruct (all_fine_run ks tr s R k p P) as [(F & _) _]. apply F.
      pose proof (main_sofar ks tr s R) as M. rewrite A in M. cbn [sofar] in M.
      assert (J : In (Calls k) (filter by_main tr)).
      { rewrite M. rewrite !in_app_iff. right. right. left. apply in_map. apply in_seq. split; [lia|]. rewrite <- (parts_len ks tr s R). cbn. apply nth_error_Some. congruence. }
      apply filter_In in J. exact (proj1 J). }
    assert (AL : alive s) by (split; rewrite A; discriminate).
    pose proof (or_intror (or_introl (server_ends s k p AL P W RP C)) : step s (Ends k) _) as St.
    set (q := {| what := what p; running := false; listening := listening p; called := called p; conns := conns p |}) in *.
    pose proof (run_snoc ks tr s _ _ R St) as R'.
    destruct (IH ks _ _ R' A) as (tr' & s' & R2 & I2 & F2 & L2).
    + rd. destruct (set_part_split _ _ _ q P) as (l1 & l2 & E1 & E2). rewrite E2. rewrite E1 in L. unfold left_ in *. rewrite filter_app, app_length in *. cbn [filter] in *.
      rewrite B in L. cbn [length] in L. replace (busy_server q) with false by (unfold busy_server, q; cbn; rewrite W; reflexivity). lia.
    + exists (Ends k :: tr'), s'. rewrite <- app_assoc in R2. cbn [app] in R2. split; [exact R2|]. split; [right; exact I2|]. split; [constructor; [exact Logic.I|exact F2]|]. cbn [length]. lia.
Qed.
Lemma own_app : forall ks tr e (s : state) n,
  (exists tr' s', run ks ((tr ++ [e]) ++ tr') s' /\ In Exits tr' /\ Forall its_own tr' /\ length tr' <= n) -> its_own e -> s = s ->
  exists tr' (s' : state), run ks (tr ++ tr') s' /\ In Exits tr' /\ Forall its_own tr' /\ length tr' <= S n.
Proof.
  intros ks tr e s n (tr' & s' & R & I & F & L) O _. exists (e :: tr'), s'. rewrite <- app_assoc in R. split; [exact R|]. split; [right; exact I|]. split; [constructor; assumption|]. cbn [length]. lia.
Qed.
Lemma stop_next : forall m ks tr s k, run ks tr s -> expired s = true -> length ks - k = m ->
  (at_ s = Next k -> exists tr' s', run ks (tr ++ tr') s' /\ In Exits tr' /\ Forall its_own tr' /\ length tr' <= 2 * m + 2 + length ks) /\
  (at_ s = Inside k -> exists tr' s', run ks (tr ++ tr') s' /\ In Exits tr' /\ Forall its_own tr' /\ length tr' <= 2 * m + 1 + length ks).
Proof.
  induction m as [|m IH]; intros ks tr s k R X M; pose proof (parts_len ks tr s R) as L; pose proof (main_sofar ks tr s R) as SF.
  - split; intros A; rewrite A in SF; cbn [sofar] in SF; destruct SF as [K _]; [|lia]. assert (k = length ks) by lia. subst k. rewrite <- L in A.
    pose proof (run_snoc ks tr s _ _ R (or_introl (joins s A))) as R'.
    apply (own_app ks tr Joins s (1 + length ks)); [|exact Logic.I|reflexivity].
    destruct (stop_joining _ ks _ _ R' eq_refl eq_refl) as (tr' & s' & R2 & I2 & F2 & L2). exists tr', s'. split; [exact R2|]. split; [exact I2|]. split; [exact F2|].
    rewrite L2. rd. pose proof (left_le (parts s)). lia.
  - assert (INS : forall tr0 s0, run ks tr0 s0 -> expired s0 = true -> at_ s0 = Inside k -> exists tr' s', run ks (tr0 ++ tr') s' /\ In Exits tr' /\ Forall its_own tr' /\ length tr' <= 2 * S m + 1 + length ks).
    { intros tr0 s0 R0 X0 A0. pose proof (parts_len ks tr0 s0 R0) as L0. destruct (nth_error (parts s0) k) as [p|] eqn:P; [|apply nth_error_None in P; lia].
      assert (Z : exists q s1, step s0 (Returns k q) s1 /\ at_ s1 = Next (S k) /\ expired s1 = true).
      { destruct (what p) eqn:W.
        - destruct (conns p) eqn:C.
          + exists true. eexists. split; [left; apply (drained s0 k p A0 P); rewrite W; exact C|]. split; [reflexivity|exact X0].
          + exists false. eexists. split; [left; apply (gives_up s0 k p A0 P X0); rewrite W, C; discriminate|]. split; [reflexivity|exact X0].
        - exists false. eexists. split; [left; apply (gives_up s0 k p A0 P X0); rewrite W; exact Logic.I|]. split; [reflexivity|exact X0]. }
      destruct Z as (q & s1 & St & A1 & X1). pose proof (run_snoc ks tr0 s0 _ _ R0 St) as R1.
      destruct (IH ks _ s1 (S k) R1 X1) as [N _]; [lia|].
      replace (2 * S m + 1 + length ks) with (S (2 * m + 2 + length ks)) by lia. apply (own_app ks tr0 (Returns k q) s0); [exact (N A1)|exact Logic.I|reflexivity]. }
    split; intros A; [|exact (INS tr s R X A)].
    destruct (nth_error (parts s) k) as [p|] eqn:P; [|apply nth_error_None in P; lia].
    pose proof (run_snoc ks tr s _ _ R (or_introl (calls s k p A P))) as R'.
    replace (2 * S m + 2 + length ks) with (S (2 * S m + 1 + length ks)) by lia. apply (own_app ks tr (Calls k) s); [|exact Logic.I|reflexivity].
    exact (INS _ _ R' X eq_refl).
Qed.
Lemma after_signal : forall ks tr s, run ks tr s -> after SaysReady Signal tr -> match at_ s with Starting _ | Ready => False | _ => True end.
Proof.
  intros ks tr s R. induction R as [|tr s e s' R IH St]; intros (t1 & t2 & E & I); [destruct t1; discriminate E|].
  destruct t2 as [|x t2] using rev_ind.
  - apply app_inj_tail in E as [<- ->]. pose proof (heard ks tr s R) as H.
    destruct St as [St|[St|St]]; inversion St; subst; [exact Logic.I|]. destruct (at_ s'); auto.
  - change (tr ++ [e] = t1 ++ (Signal :: t2) ++ [x]) in E. rewrite app_assoc in E. apply app_inj_tail in E as [-> ->].
    assert (Z : after SaysReady Signal (t1 ++ Signal :: t2)) by (exists t1, t2; split; [reflexivity|exact I]).
    specialize (IH Z). steps_of St; rd; repeat match goal with X : at_ _ = _ |- _ => rewrite X in * end; auto; try contradiction.
Qed.

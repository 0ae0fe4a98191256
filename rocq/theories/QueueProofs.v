From Coq Require Import List Arith Lia Bool Permutation.
From Verif Require Import GoBase QueueModel QueueSpec.
Import ListNotations.

Section P.
  Context {R : Type}.
  Notation state := (state R). Notation thread := (thread R). Notation event := (event R).
  Implicit Types (s : state) (th : thread) (e : event) (es : list event).

  Definition mid (t : thread) : nat := match t with PSent _ _ => 1 | _ => 0 end.
  Definition scan_ge (k : nat) (t : thread) : nat :=
    match t with CScan i => if k <=? i then 1 else 0 | _ => 0 end.
  Definition runs_ge (k : nat) (s : state) : nat := sumf (@length R) (skipn k (chans s)).

  Record Inv (s : state) : Prop := {
    I_len : length (chans s) = QueueCount;
    I_cap : forall p q, nth_error (chans s) p = Some q -> length q <= cap s;
    I_tok : tokens s + sumf mid (threads s) + sumf (scan_ge 0) (threads s) = runs_ge 0 s;
    I_scan : forall k, sumf (scan_ge k) (threads s) <= runs_ge k s;
    I_panic : ~ In CPanic (threads s)
  }.

  Lemma runs_ge_upd s p q (q' : list R) (th : list thread) tk k :
    nth_error (chans s) p = Some q ->
    runs_ge k (mk (cap s) (upd (chans s) p q') tk th) + (if k <=? p then length q else 0)
    = runs_ge k s + (if k <=? p then length q' else 0).
  Proof.
    intros H. unfold runs_ge; cbn [chans]. destruct (Nat.leb_spec k p).
    - rewrite skipn_upd_le by lia.
      apply (sumf_upd (@length R)). rewrite nth_error_skipn. rewrite <- H. f_equal. lia.
    - rewrite skipn_upd_gt by lia. lia.
  Qed.

  Lemma in_upd {A} (l : list A) i x y : In y (upd l i x) -> y = x \/ In y l.
  Proof. revert i; induction l as [|h t IH]; intros [|i]; simpl; intros H; auto; intuition. apply IH in H0. intuition. Qed.

  Lemma inv_init n : Inv (init R n).
  Proof.
    split; cbn; auto.
    - intros p q H. destruct p as [|[|[|[|p]]]]; simpl in H; try (injection H as <-; simpl; lia); destruct p; discriminate.
    - intros k. lia.
  Qed.

  Lemma inv_spawn s th :
    Inv s -> mid th = 0 -> (forall k, scan_ge k th = 0) -> th <> CPanic -> Inv (spawn s th).
  Proof.
    intros [H1 H2 H3 H4 H5] M S N. split; cbn; auto.
    - rewrite !sumf_app. cbn. rewrite M, S. unfold runs_ge in *; cbn in *. lia.
    - intros k. rewrite sumf_app. cbn. rewrite S. specialize (H4 k). unfold runs_ge in *; cbn in *. lia.
    - intros H. apply in_app_or in H. destruct H as [H|[H|[]]]; auto.
  Qed.

  Lemma inv_set s t th th' :
    Inv s -> nth_error (threads s) t = Some th ->
    mid th' = mid th -> (forall k, scan_ge k th' = scan_ge k th) -> th' <> CPanic -> Inv (set_thread s t th').
  Proof.
    intros [H1 H2 H3 H4 H5] Ht M S N. split; cbn; auto.
    - pose proof (sumf_upd mid _ _ _ th' Ht). pose proof (sumf_upd (scan_ge 0) _ _ _ th' Ht).
      rewrite M in *. rewrite S in *. unfold runs_ge in *; cbn in *. lia.
    - intros k. specialize (H4 k). pose proof (sumf_upd (scan_ge k) _ _ _ th' Ht). rewrite S in *.
      unfold runs_ge in *; cbn in *. lia.
    - intros H. apply in_upd in H. destruct H; auto.
  Qed.

  Lemma inv_push s t th p r q :
    Inv s -> nth_error (threads s) t = Some th -> (th = PBlock p r \/ th = PTry p r) ->
    nth_error (chans s) p = Some q -> length q < cap s ->
    Inv (mk (cap s) (upd (chans s) p (q ++ [r])) (tokens s) (upd (threads s) t (PSent p r))).
  Proof.
    intros [H1 H2 H3 H4 H5] Ht Hth Hq Hl. split; cbn -[runs_ge]; auto.
    - rewrite upd_length. auto.
    - intros p' q' H. destruct (Nat.eq_dec p p') as [<-|E].
      + rewrite (nth_error_upd_eq _ _ _ _ Hq) in H. injection H as <-. rewrite app_length. simpl. lia.
      + rewrite nth_error_upd_neq in H by auto. eauto.
    - pose proof (sumf_upd mid _ _ _ (PSent p r) Ht) as A.
      pose proof (sumf_upd (scan_ge 0) _ _ _ (PSent p r) Ht) as B.
      pose proof (runs_ge_upd s p q (q ++ [r]) (upd (threads s) t (PSent p r)) (tokens s) 0 Hq) as C.
      rewrite app_length in C. simpl in C. destruct Hth as [-> | ->]; cbn in A, B; lia.
    - intros k. specialize (H4 k).
      pose proof (sumf_upd (scan_ge k) _ _ _ (PSent p r) Ht) as B.
      pose proof (runs_ge_upd s p q (q ++ [r]) (upd (threads s) t (PSent p r)) (tokens s) k Hq) as C.
      rewrite app_length in C. simpl in C. destruct (k <=? p); destruct Hth as [-> | ->]; cbn in B; lia.
    - intros H. apply in_upd in H. destruct H; auto. discriminate.
  Qed.

  Lemma runs_ge_len k s : length (chans s) <= k -> runs_ge k s = 0.
  Proof. intros H. unfold runs_ge. rewrite skipn_all2; auto. Qed.

  Lemma runs_ge_S i s q : nth_error (chans s) i = Some q -> runs_ge i s = length q + runs_ge (S i) s.
  Proof.
    unfold runs_ge. generalize (chans s). intros l. revert i.
    induction l as [|h t IH]; intros [|i] H; simpl in H; try discriminate.
    - injection H as ->. reflexivity.
    - cbn [skipn]. apply IH in H. rewrite H. destruct t; reflexivity.
  Qed.

  Lemma sumf_scan_split k l : sumf (scan_ge (S k)) l <= sumf (scan_ge k) l.
  Proof.
    apply sumf_le. intros [] _; cbn [scan_ge]; auto.
    destruct (Nat.leb_spec (S k) i), (Nat.leb_spec k i); lia.
  Qed.

  Lemma inv_thread s t th : Inv s -> nth_error (threads s) t = Some th -> Inv (fst (step_thread s t th)).
  Proof.
    intros HI Ht. destruct th as [p r|p r|p r|p r|p r|p r| |i|p r| |]; cbn [step_thread]; auto.
    - destruct (nth_error (chans s) p) as [q|] eqn:Hq.
      + destruct (Nat.ltb_spec (length q) (cap s)); cbn [fst]; auto.
        eapply inv_push; eauto.
      + cbn [fst]. eapply inv_set; eauto; discriminate.
    - destruct (nth_error (chans s) p) as [q|] eqn:Hq.
      + destruct (Nat.ltb_spec (length q) (cap s)); cbn [fst]; auto.
        eapply inv_push; eauto. eapply inv_set; eauto; discriminate.
      + cbn [fst]. eapply inv_set; eauto; discriminate.
    - destruct (Nat.ltb_spec (tokens s) (QueueCount * cap s)); cbn [fst]; auto.
      destruct HI as [H1 H2 H3 H4 H5]. split; cbn -[runs_ge]; auto.
      + pose proof (sumf_upd mid _ _ _ (PDone p r) Ht) as A.
        pose proof (sumf_upd (scan_ge 0) _ _ _ (PDone p r) Ht) as B.
        cbn in A, B. unfold runs_ge in *; cbn in *. lia.
      + intros k. specialize (H4 k). pose proof (sumf_upd (scan_ge k) _ _ _ (PDone p r) Ht) as B.
        cbn in B. unfold runs_ge in *; cbn in *. lia.
      + intros HH. apply in_upd in HH. destruct HH; auto. discriminate.
    - destruct (tokens s) as [|n] eqn:Etok; cbn [fst]; auto.
      destruct HI as [H1 H2 H3 H4 H5]. split; cbn -[runs_ge]; auto.
      + pose proof (sumf_upd mid _ _ _ (CScan 0) Ht) as A.
        pose proof (sumf_upd (scan_ge 0) _ _ _ (CScan 0) Ht) as B.
        cbn in A, B. unfold runs_ge in *; cbn in *. lia.
      + intros k. specialize (H4 k). pose proof (sumf_upd (scan_ge k) _ _ _ (CScan 0) Ht) as B.
        destruct k as [|k].
        * cbn in B. unfold runs_ge in *; cbn in *. lia.
        * cbn in B. unfold runs_ge in *; cbn in *. lia.
      + intros HH. apply in_upd in HH. destruct HH; auto. discriminate.
    - destruct (nth_error (chans s) i) as [[|r q]|] eqn:Hq; cbn [fst].
      + (* empty: move on *)
        pose proof HI as HI'.
        destruct HI as [H1 H2 H3 H4 H5]. split; cbn -[runs_ge]; auto.
        * pose proof (sumf_upd mid _ _ _ (CScan (S i)) Ht) as A.
          pose proof (sumf_upd (scan_ge 0) _ _ _ (CScan (S i)) Ht) as B.
          cbn in A, B. unfold runs_ge in *; cbn in *. lia.
        * intros k. pose proof (sumf_upd (scan_ge k) _ _ _ (CScan (S i)) Ht) as B.
          cbn [scan_ge] in B.
          assert (E : runs_ge k (set_thread s t (CScan (S i))) = runs_ge k s) by reflexivity.
          rewrite E. destruct (Nat.eq_dec k (S i)) as [->|Hk].
          -- pose proof (runs_ge_S i s [] Hq) as C. simpl in C.
             specialize (H4 i).
             (* all scanners >= S i afterwards were >= i before *)
             pose proof (sumf_upd (scan_ge i) _ _ _ (CScan (S i)) Ht) as D. cbn [scan_ge] in D.
             pose proof (sumf_scan_split i (upd (threads s) t (CScan (S i)))) as F.
             destruct (Nat.leb_spec i (S i)); try lia. destruct (Nat.leb_spec i i); try lia.
          -- specialize (H4 k).
             destruct (Nat.leb_spec k (S i)), (Nat.leb_spec k i); try lia.
        * intros HH. apply in_upd in HH. destruct HH; auto. discriminate.
      + destruct HI as [H1 H2 H3 H4 H5]. split; cbn -[runs_ge]; auto.
        * rewrite upd_length. auto.
        * intros p' q' H. destruct (Nat.eq_dec i p') as [<-|E].
          -- rewrite (nth_error_upd_eq _ _ _ _ Hq) in H. injection H as <-. apply H2 in Hq. simpl in Hq. lia.
          -- rewrite nth_error_upd_neq in H by auto. eauto.
        * pose proof (sumf_upd mid _ _ _ (CGot i r) Ht) as A.
          pose proof (sumf_upd (scan_ge 0) _ _ _ (CGot i r) Ht) as B.
          pose proof (runs_ge_upd s i (r :: q) q (upd (threads s) t (CGot i r)) (tokens s) 0 Hq) as C.
          cbn in A, B, C. unfold runs_ge in *; cbn in *. lia.
        * intros k. specialize (H4 k).
          pose proof (sumf_upd (scan_ge k) _ _ _ (CGot i r) Ht) as B.
          pose proof (runs_ge_upd s i (r :: q) q (upd (threads s) t (CGot i r)) (tokens s) k Hq) as C.
          cbn [scan_ge length] in B, C. destruct (k <=? i); lia.
        * intros HH. apply in_upd in HH. destruct HH; auto. discriminate.
      + (* the panic branch is impossible *)
        exfalso. destruct HI as [H1 H2 H3 H4 H5].
        specialize (H4 QueueCount). rewrite runs_ge_len in H4 by lia.
        apply nth_error_None in Hq. rewrite H1 in Hq.
        pose proof (sumf_ge (scan_ge QueueCount) _ _ _ Ht) as G. cbn [scan_ge] in G.
        destruct (Nat.leb_spec QueueCount i); lia.
  Qed.

  Lemma inv_step s e : Inv s -> Inv (fst (step s e)).
  Proof.
    intros HI. destruct e as [p r|p r| |t|t]; cbn [step fst].
    - apply inv_spawn; auto; discriminate.
    - apply inv_spawn; auto; discriminate.
    - apply inv_spawn; auto; discriminate.
    - destruct (nth_error (threads s) t) as [th|] eqn:Ht; auto. apply inv_thread; auto.
    - destruct (nth_error (threads s) t) as [[]|] eqn:Ht; auto.
      eapply inv_set; eauto; discriminate.
  Qed.

  Lemma exec_cons (s : state) e es : exec s (e :: es) =
    (fst (exec (fst (step s e)) es), snd (step s e) ++ snd (exec (fst (step s e)) es)).
  Proof. cbn [exec]. destruct (step s e) as [s1 o1]. cbn [fst snd]. destruct (exec s1 es). reflexivity. Qed.

  Lemma exec_app (s : state) a b : fst (exec s (a ++ b)) = fst (exec (fst (exec s a)) b).
  Proof.
    revert s; induction a as [|e a IH]; intros s; [reflexivity|].
    rewrite <- app_comm_cons, !exec_cons. cbn [fst]. apply IH.
  Qed.

  Lemma exec_app_obs (s : state) a b : snd (exec s (a ++ b)) = snd (exec s a) ++ snd (exec (fst (exec s a)) b).
  Proof.
    revert s; induction a as [|e a IH]; intros s; [reflexivity|].
    rewrite <- app_comm_cons, !exec_cons. cbn [fst snd]. rewrite IH, app_assoc. reflexivity.
  Qed.

  Lemma inv_exec (s : state) es : Inv s -> Inv (fst (exec s es)).
  Proof.
    revert s; induction es as [|e es IH]; intros s H; [exact H|].
    rewrite exec_cons. cbn [fst]. apply IH, inv_step, H.
  Qed.

  Lemma inv_reachable n s : reachable n s -> Inv s.
  Proof. intros [es ->]. apply inv_exec, inv_init. Qed.

  Lemma getrun_never_panics_l n s : reachable n s -> ~ In CPanic (threads s).
  Proof. intros H. apply (I_panic _ (inv_reachable _ _ H)). Qed.

  (* A woken consumer is never stuck: it terminates with a run. *)
  Lemma woken_has_run_l n s t i :
    reachable n s -> nth_error (threads s) t = Some (CScan i) -> exists p r q, i <= p /\ nth_error (chans s) p = Some (r :: q).
  Proof.
    intros H Ht. pose proof (inv_reachable _ _ H) as [H1 H2 H3 H4 H5].
    pose proof (sumf_ge (scan_ge i) _ _ _ Ht) as G. cbn [scan_ge] in G. rewrite Nat.leb_refl in G.
    specialize (H4 i). unfold runs_ge in H4.
    assert (A : forall l : list (list R), 1 <= sumf (@length R) l -> exists p r q, nth_error l p = Some (r :: q)).
    { induction l as [|[|r q] l IH]; simpl; intros L; try lia.
      - destruct IH as (p & r & q & E); try lia. exists (S p), r, q. exact E.
      - exists 0, r, q. reflexivity. }
    destruct (A (skipn i (chans s))) as (p & r & q & E); [lia|].
    rewrite nth_error_skipn in E. exists (i + p), r, q. split; [lia|exact E].
  Qed.

  (* Conservation *)
  Definition Cons (s : state) : Prop := Permutation (accepted s) (handed_out s ++ waiting s).

  Lemma flat_map_app' {A B} (f : A -> list B) l1 l2 : flat_map f (l1 ++ l2) = flat_map f l1 ++ flat_map f l2.
  Proof. apply flat_map_app. Qed.

  Lemma flat_map_upd_same {A B} (f : A -> list B) l i x y :
    nth_error l i = Some x -> f x = f y -> flat_map f (upd l i y) = flat_map f l.
  Proof.
    revert i; induction l as [|h t IH]; intros [|i]; simpl; intros H E; try discriminate.
    - injection H as ->. congruence.
    - erewrite IH; eauto.
  Qed.

  Lemma cons_step s e : Cons s -> Cons (fst (step s e)).
  Proof.
    intros H. unfold Cons, accepted, handed_out, waiting in *.
    destruct e as [p r|p r| |t|t]; cbn [step fst spawn threads chans]; rewrite ?flat_map_app'; cbn [flat_map accepted_by handed_by];
      rewrite ?app_nil_r; auto.
    - destruct (nth_error (threads s) t) as [th|] eqn:Ht; [|exact H].
      assert (PUSH : forall p r q, (th = PBlock p r \/ th = PTry p r) -> nth_error (chans s) p = Some q ->
         Permutation (flat_map accepted_by (upd (threads s) t (PSent p r)))
          (flat_map handed_by (upd (threads s) t (PSent p r)) ++ concat (upd (chans s) p (q ++ [r])))).
      { intros p r q Hth Hq.
        rewrite (flat_map_upd_same handed_by _ _ th) by (auto; destruct Hth; subst; reflexivity).
        rewrite (concat_upd_push _ _ _ r Hq).
        pose proof (flat_map_upd_perm accepted_by _ _ _ (PSent p r) Ht) as A.
        destruct Hth; subst; cbn [accepted_by app] in A; rewrite A, H; apply Permutation_middle. }
      destruct th as [p r|p r|p r|p r|p r|p r| |i|p r| |]; cbn [step_thread]; auto.
      + destruct (nth_error (chans s) p) as [q|] eqn:Hq; [|cbn; rewrite !(flat_map_upd_same _ _ _ (PBlock p r)); auto].
        destruct (Nat.ltb_spec (length q) (cap s)); cbn [fst threads chans]; auto.
      + destruct (nth_error (chans s) p) as [q|] eqn:Hq; [|cbn; rewrite !(flat_map_upd_same _ _ _ (PTry p r)); auto].
        destruct (Nat.ltb_spec (length q) (cap s)); cbn [fst threads chans set_thread]; auto.
        rewrite !(flat_map_upd_same _ _ _ (PTry p r)); auto.
      + destruct (Nat.ltb_spec (tokens s) (QueueCount * cap s)); cbn [fst threads chans]; auto.
        rewrite !(flat_map_upd_same _ _ _ (PSent p r)); auto.
      + destruct (tokens s); cbn [fst threads chans]; auto.
        rewrite !(flat_map_upd_same _ _ _ CWait); auto.
      + destruct (nth_error (chans s) i) as [[|r q]|] eqn:Hq; cbn [fst threads chans set_thread].
        * rewrite !(flat_map_upd_same _ _ _ (CScan i)); auto.
        * rewrite (flat_map_upd_same accepted_by _ _ (CScan i)) by auto.
          pose proof (flat_map_upd_perm handed_by _ _ _ (CGot i r) Ht) as A. cbn [handed_by app] in A.
          rewrite A. rewrite H. rewrite (concat_upd_pop _ _ _ _ Hq).
          cbn. symmetry. apply Permutation_middle.
        * rewrite !(flat_map_upd_same _ _ _ (CScan i)); auto.
    - destruct (nth_error (threads s) t) as [[]|] eqn:Ht; auto.
      cbn. rewrite !(flat_map_upd_same _ _ _ CWait); auto.
  Qed.

  Lemma conservation_l n s : reachable n s -> Permutation (accepted s) (handed_out s ++ waiting s).
  Proof.
    intros [es ->]. change (Cons (fst (exec (init R n) es))).
    assert (H : Cons (init R n)) by (unfold Cons; cbn; auto).
    revert H. generalize (init R n). induction es as [|e es IH]; intros s H; [exact H|].
    rewrite exec_cons. cbn [fst]. apply IH, cons_step, H.
  Qed.

  (* FIFO *)
  Lemma fifo_step s e p :
    let q s := nth p (chans s) [] in
    q s ++ inserted p (snd (step s e)) = removed p (snd (step s e)) ++ q (fst (step s e)).
  Proof.
    intros q. unfold q. clear q.
    assert (NU : forall (qs : list (list R)) i x, nth_error qs i <> None -> nth p (upd qs i x) [] = if Nat.eqb p i then x else nth p qs []).
    { intros qs i x Hn. destruct (Nat.eqb_spec p i) as [->|E].
      - apply nth_error_nth. apply nth_error_upd_lt. apply nth_error_Some. exact Hn.
      - pose proof (nth_error_upd_neq qs i p x) as U. specialize (U (not_eq_sym E)).
        destruct (nth_error qs p) as [y|] eqn:Y.
        + rewrite (nth_error_nth _ _ [] U). rewrite (nth_error_nth _ _ [] Y). reflexivity.
        + apply nth_error_None in U. apply nth_error_None in Y. rewrite !nth_overflow; auto. }
    assert (PU : forall p0 r l, nth_error (chans s) p0 = Some l ->
      nth p (chans s) [] ++ inserted p [OIns p0 r] = removed p [OIns p0 r] ++ nth p (upd (chans s) p0 (l ++ [r])) []).
    { intros p0 r l Hq. rewrite NU by congruence. cbn. destruct (Nat.eqb_spec p p0) as [->|E].
      - rewrite (nth_error_nth _ _ [] Hq). reflexivity.
      - rewrite app_nil_r. reflexivity. }
    destruct e as [p0 r|p0 r| |t|t]; cbn [step fst snd spawn chans];
      try (cbn; rewrite app_nil_r; reflexivity).
    - destruct (nth_error (threads s) t) as [th|]; [|cbn; rewrite app_nil_r; reflexivity].
      destruct th as [p0 r|p0 r|p0 r|p0 r|p0 r|p0 r| |i|p0 r| |]; cbn [step_thread];
        try (cbn; rewrite app_nil_r; reflexivity).
      + destruct (nth_error (chans s) p0) as [q|] eqn:Hq; [|cbn; rewrite app_nil_r; reflexivity].
        destruct (Nat.ltb_spec (length q) (cap s)); cbn [fst snd chans]; [auto|cbn; rewrite app_nil_r; reflexivity].
      + destruct (nth_error (chans s) p0) as [q|] eqn:Hq; [|cbn; rewrite app_nil_r; reflexivity].
        destruct (Nat.ltb_spec (length q) (cap s)); cbn [fst snd chans]; [auto|cbn; rewrite app_nil_r; reflexivity].
      + destruct (tokens s <? _); cbn; rewrite app_nil_r; reflexivity.
      + destruct (tokens s); cbn; rewrite app_nil_r; reflexivity.
      + destruct (nth_error (chans s) i) as [[|r q]|] eqn:Hq; cbn [fst snd chans set_thread];
          try (cbn; rewrite app_nil_r; reflexivity).
        rewrite NU by congruence. cbn. destruct (Nat.eqb_spec p i) as [->|E].
        * rewrite (nth_error_nth _ _ [] Hq). rewrite app_nil_r. reflexivity.
        * rewrite app_nil_r. reflexivity.
    - destruct (nth_error (threads s) t) as [[]|]; cbn; rewrite app_nil_r; reflexivity.
  Qed.

  Lemma fifo_exec s es p :
    nth p (chans s) [] ++ inserted p (snd (exec s es)) = removed p (snd (exec s es)) ++ nth p (chans (fst (exec s es))) [].
  Proof.
    revert s; induction es as [|e es IH]; intros s; [cbn; rewrite app_nil_r; reflexivity|].
    rewrite exec_cons. cbn [fst snd]. unfold inserted, removed in *. rewrite !flat_map_app'.
    rewrite app_assoc. pose proof (fifo_step s e p) as F. unfold inserted, removed in F. cbn zeta in F.
    rewrite F. rewrite <- !app_assoc. f_equal. apply IH.
  Qed.

  Lemma fifo_l n es p :
    inserted p (snd (exec (init R n) es)) =
    removed p (snd (exec (init R n) es)) ++ nth p (chans (fst (exec (init R n) es))) [].
  Proof.
    rewrite <- fifo_exec. cbn [init chans].
    assert (E : nth p (repeat (@nil R) QueueCount) [] = []).
    { unfold QueueCount. destruct p as [|[|[|[|[|p]]]]]; reflexivity. }
    rewrite E. reflexivity.
  Qed.

  (* Priority *)
  Lemma other_thread s e t th :
    nth_error (threads s) t = Some th -> e <> EStep t -> e <> EGone t -> nth_error (threads (fst (step s e))) t = Some th.
  Proof.
    intros Ht N1 N2. destruct e as [p r|p r| |t'|t']; cbn [step fst spawn threads]; try (apply nth_error_app_old; auto; fail).
    - assert (t' <> t) by congruence. destruct (nth_error (threads s) t') as [th'|]; auto.
      destruct th' as [p r|p r|p r|p r|p r|p r| |i|p r| |]; cbn [step_thread]; auto.
      + destruct (nth_error (chans s) p); [destruct (_ <? _)|]; cbn; rewrite ?nth_error_upd_neq; auto.
      + destruct (nth_error (chans s) p); [destruct (_ <? _)|]; cbn; rewrite ?nth_error_upd_neq; auto.
      + destruct (_ <? _); cbn; rewrite ?nth_error_upd_neq; auto.
      + destruct (tokens s); cbn; rewrite ?nth_error_upd_neq; auto.
      + destruct (nth_error (chans s) i) as [[|]|]; cbn; rewrite ?nth_error_upd_neq; auto.
    - assert (t' <> t) by congruence. destruct (nth_error (threads s) t') as [[]|]; cbn; rewrite ?nth_error_upd_neq; auto.
  Qed.

  Definition seen_empty (s : state) (es : list event) (q : nat) : Prop :=
    exists a b, es = a ++ b /\ nth_error (chans (fst (exec s a))) q = Some [].

  Lemma scan_seen es : forall s t i p r,
    nth_error (threads s) t = Some (CScan i) ->
    nth_error (threads (fst (exec s es))) t = Some (CGot p r) ->
    i <= p /\ (forall q, i <= q < p -> seen_empty s es q) /\
    exists a b rest, es = a ++ b /\ nth_error (chans (fst (exec s a))) p = Some (r :: rest).
  Proof.
    induction es as [|e es IH]; intros s t i p r Ht Hg.
    - cbn in Hg. congruence.
    - rewrite exec_cons in Hg. cbn [fst] in Hg.
      assert (LIFT : forall q, seen_empty (fst (step s e)) es q -> seen_empty s (e :: es) q).
      { intros q (a & b & E & F). exists (e :: a), b. split; [subst; reflexivity|]. rewrite exec_cons. exact F. }
      assert (LIFT2 : (exists a b rest, es = a ++ b /\ nth_error (chans (fst (exec (fst (step s e)) a))) p = Some (r :: rest)) ->
         exists a b rest, e :: es = a ++ b /\ nth_error (chans (fst (exec s a))) p = Some (r :: rest)).
      { intros (a & b & rest & E & F). exists (e :: a), b, rest. split; [subst; reflexivity|]. rewrite exec_cons. exact F. }
      assert (DEC : e = EStep t \/ e <> EStep t).
      { destruct e as [| | |t'|t']; try (right; discriminate). destruct (Nat.eq_dec t' t); [left|right]; congruence. }
      destruct DEC as [->|NE].
      + cbn [step] in Hg, LIFT, LIFT2. rewrite Ht in Hg, LIFT, LIFT2. cbn [step_thread] in Hg, LIFT, LIFT2.
        destruct (nth_error (chans s) i) as [[|r0 q0]|] eqn:Hq; cbn [fst] in Hg, LIFT, LIFT2.
        * assert (Ht' : nth_error (threads (set_thread s t (CScan (S i)))) t = Some (CScan (S i))).
          { cbn. eapply nth_error_upd_eq; eauto. }
          destruct (IH _ _ _ _ _ Ht' Hg) as (A & B & C).
          split; [lia|]. split; [|apply LIFT2, C].
          intros q Hqr. destruct (Nat.eq_dec q i) as [->|].
          -- exists [], (EStep t :: es). split; [reflexivity|]. exact Hq.
          -- apply LIFT, B. lia.
        * assert (Ht' : nth_error (upd (threads s) t (CGot i r0)) t = Some (CGot i r0)) by (eapply nth_error_upd_eq; eauto).
          (* a finished thread does not change *)
          assert (FIN : forall es s, nth_error (threads s) t = Some (CGot i r0) -> nth_error (threads (fst (exec s es))) t = Some (CGot i r0)).
          { clear. induction es as [|e es IH]; intros s H; [exact H|]. rewrite exec_cons. cbn [fst]. apply IH.
            destruct e as [p r|p r| |t'|t'].
            - apply other_thread; auto; discriminate.
            - apply other_thread; auto; discriminate.
            - apply other_thread; auto; discriminate.
            - destruct (Nat.eq_dec t' t) as [->|]; [|apply other_thread; congruence]. cbn [step]. rewrite H. exact H.
            - destruct (Nat.eq_dec t' t) as [->|]; [|apply other_thread; congruence]. cbn [step]. rewrite H. exact H. }
          rewrite FIN in Hg by exact Ht'. injection Hg as <- <-.
          split; [lia|]. split; [intros; lia|].
          exists [], (EStep t :: es), q0. split; [reflexivity|exact Hq].
        * assert (FIN : forall es s, nth_error (threads s) t = Some CPanic -> nth_error (threads (fst (exec s es))) t = Some CPanic).
          { clear. induction es as [|e es IH]; intros s H; [exact H|]. rewrite exec_cons. cbn [fst]. apply IH.
            destruct e as [p r|p r| |t'|t'].
            - apply other_thread; auto; discriminate.
            - apply other_thread; auto; discriminate.
            - apply other_thread; auto; discriminate.
            - destruct (Nat.eq_dec t' t) as [->|]; [|apply other_thread; congruence]. cbn [step]. rewrite H. exact H.
            - destruct (Nat.eq_dec t' t) as [->|]; [|apply other_thread; congruence]. cbn [step]. rewrite H. exact H. }
          rewrite FIN in Hg; [discriminate|]. cbn. eapply nth_error_upd_eq; eauto.
      + assert (Ht' : nth_error (threads (fst (step s e))) t = Some (CScan i)).
        { destruct e as [p0 r0|p0 r0| |t'|t']; try (apply other_thread; auto; discriminate).
          destruct (Nat.eq_dec t' t) as [->|]; [|apply other_thread; congruence]. cbn [step]. rewrite Ht. exact Ht. }
        destruct (IH _ _ _ _ _ Ht' Hg) as (A & B & C). split; [exact A|]. split; [|apply LIFT2, C].
        intros q Hq. apply LIFT, B, Hq.
  Qed.

  Lemma wait_seen es : forall s t p r,
    nth_error (threads s) t = Some CWait ->
    nth_error (threads (fst (exec s es))) t = Some (CGot p r) ->
    (forall q, q < p -> seen_empty s es q) /\
    exists a b rest, es = a ++ b /\ nth_error (chans (fst (exec s a))) p = Some (r :: rest).
  Proof.
    induction es as [|e es IH]; intros s t p r Ht Hg.
    - cbn in Hg. congruence.
    - rewrite exec_cons in Hg. cbn [fst] in Hg.
      assert (LIFT : forall q, seen_empty (fst (step s e)) es q -> seen_empty s (e :: es) q).
      { intros q (a & b & E & F). exists (e :: a), b. split; [subst; reflexivity|]. rewrite exec_cons. exact F. }
      assert (LIFT2 : (exists a b rest, es = a ++ b /\ nth_error (chans (fst (exec (fst (step s e)) a))) p = Some (r :: rest)) ->
         exists a b rest, e :: es = a ++ b /\ nth_error (chans (fst (exec s a))) p = Some (r :: rest)).
      { intros (a & b & rest & E & F). exists (e :: a), b, rest. split; [subst; reflexivity|]. rewrite exec_cons. exact F. }
      assert (CASES : nth_error (threads (fst (step s e))) t = Some CWait \/
                      nth_error (threads (fst (step s e))) t = Some (CScan 0) \/
                      nth_error (threads (fst (step s e))) t = Some CGone).
      { destruct e as [p0 r0|p0 r0| |t'|t']; try (left; apply other_thread; auto; discriminate).
        - destruct (Nat.eq_dec t' t) as [->|]; [|left; apply other_thread; congruence].
          cbn [step]. rewrite Ht. cbn [step_thread]. destruct (tokens s); cbn; auto.
          right; left. eapply nth_error_upd_eq; eauto.
        - destruct (Nat.eq_dec t' t) as [->|]; [|left; apply other_thread; congruence].
          cbn [step]. rewrite Ht. cbn. right; right. eapply nth_error_upd_eq; eauto. }
      destruct CASES as [C|[C|C]].
      + destruct (IH _ _ _ _ C Hg) as (A & B). split; [|apply LIFT2, B]. intros; apply LIFT; auto.
      + destruct (scan_seen _ _ _ _ _ _ C Hg) as (A & B & D). split; [|apply LIFT2, D].
        intros q Hq. apply LIFT, B. lia.
      + exfalso. assert (FIN : forall es s, nth_error (threads s) t = Some CGone -> nth_error (threads (fst (exec s es))) t = Some CGone).
        { clear. induction es as [|e es IH]; intros s H; [exact H|]. rewrite exec_cons. cbn [fst]. apply IH.
          destruct e as [p r|p r| |t'|t'].
          - apply other_thread; auto; discriminate.
          - apply other_thread; auto; discriminate.
          - apply other_thread; auto; discriminate.
          - destruct (Nat.eq_dec t' t) as [->|]; [|apply other_thread; congruence]. cbn [step]. rewrite H. exact H.
          - destruct (Nat.eq_dec t' t) as [->|]; [|apply other_thread; congruence]. cbn [step]. rewrite H. exact H. }
        rewrite FIN in Hg; auto. discriminate.
  Qed.

  (* A GetRun that runs alone takes the oldest run of the most urgent priority. *)
  Lemma solo_scan s t : forall k i p r,
    nth_error (threads s) t = Some (CScan i) -> most_urgent s p r -> p = i + k ->
    nth_error (threads (fst (exec s (repeat (EStep t) (S k))))) t = Some (CGot p r).
  Proof.
    intros k; revert s. induction k as [|k IH]; intros s i p r Ht [[q Hq] Hlt] E.
    - replace p with i in * by lia. cbn [repeat]. rewrite exec_cons. cbn [step]. rewrite Ht. cbn [step_thread].
      rewrite Hq. cbn. eapply nth_error_upd_eq; eauto.
    - change (repeat (EStep t) (S (S k))) with (@EStep R t :: repeat (EStep t) (S k)).
      rewrite exec_cons. cbn [step]. rewrite Ht. cbn [step_thread fst]. rewrite (Hlt i) by lia. cbn [fst].
      apply (IH (set_thread s t (CScan (S i))) (S i)); [|split|lia].
      + cbn. eapply nth_error_upd_eq; eauto.
      + exists q. exact Hq.
      + intros p' L. apply (Hlt p' L).
  Qed.

  Lemma first_nonempty (l : list (list R)) : 1 <= sumf (@length R) l ->
    exists p r q, nth_error l p = Some (r :: q) /\ forall p', p' < p -> nth_error l p' = Some [].
  Proof.
    induction l as [|[|r q] l IH]; simpl; intros L; try lia.
    - destruct IH as (p & r & q & E & F); try lia. exists (S p), r, q. split; [exact E|].
      intros [|p'] Lp; [reflexivity|]. apply F. lia.
    - exists 0, r, q. split; [reflexivity|]. intros; lia.
  Qed.

  Lemma exec_one (s : state) e : fst (exec s [e]) = fst (step s e).
  Proof. rewrite exec_cons. reflexivity. Qed.

  Lemma solo_getrun_l n s t :
    reachable n s -> nth_error (threads s) t = Some CWait -> tokens s > 0 ->
    exists p r k, most_urgent s p r /\
      nth_error (threads (fst (exec s (repeat (EStep t) k)))) t = Some (CGot p r).
  Proof.
    intros HR Ht Htok. pose proof (inv_reachable _ _ HR) as [H1 H2 H3 H4 H5].
    destruct (first_nonempty (chans s)) as (p & r & q & Hq & Hlt).
    { unfold runs_ge in H3. cbn [skipn] in H3. lia. }
    exists p, r, (S (S p)). split.
    - split; [exists q; exact Hq|exact Hlt].
    - change (repeat (EStep t) (S (S p))) with ([EStep t] ++ repeat (@EStep R t) (S p)).
      rewrite exec_app, exec_one. cbn [step]. rewrite Ht. cbn [step_thread].
      destruct (tokens s) as [|n0]; [lia|]. cbn [fst].
      apply (solo_scan _ t p 0); [|split|lia].
      + cbn. eapply nth_error_upd_eq; eauto.
      + exists q; exact Hq.
      + exact Hlt.
  Qed.

  (* No lost wake-up *)
  Lemma no_lost_wakeup_l n s :
    reachable n s ->
    (forall t th, nth_error (threads s) t = Some th -> mid th = 0 /\ scan_ge 0 th = 0) ->
    tokens s = length (waiting s).
  Proof.
    intros HR Hq. pose proof (inv_reachable _ _ HR) as [H1 H2 H3 H4 H5].
    assert (Z : forall f l, (forall t th, nth_error l t = Some th -> f th = 0) -> sumf (A:=thread) f l = 0).
    { clear. intros f l H. induction l as [|h t IH]; simpl; auto. rewrite (H 0 h eq_refl). rewrite IH; auto.
      intros t' th E. apply (H (S t') th E). }
    rewrite (Z mid) in H3 by (intros; eapply Hq; eauto).
    rewrite (Z (scan_ge 0)) in H3 by (intros; eapply Hq; eauto).
    unfold runs_ge in H3. cbn [skipn] in H3. unfold waiting.
    assert (L : length (concat (chans s)) = sumf (@length R) (chans s)).
    { generalize (chans s). clear. induction l; simpl; auto. rewrite app_length. lia. }
    lia.
  Qed.

  Lemma sum_le_cap (l : list (list R)) c : (forall p q, nth_error l p = Some q -> length q <= c) -> sumf (@length R) l <= length l * c.
  Proof.
    induction l as [|h t IH]; simpl; intros H; [lia|].
    pose proof (H 0 h eq_refl). assert (sumf (@length R) t <= length t * c) by (apply IH; intros p q E; apply (H (S p) q E)). lia.
  Qed.

  Lemma wakeup_never_blocks_l n s t p r :
    reachable n s -> nth_error (threads s) t = Some (PSent p r) ->
    nth_error (threads (fst (step s (EStep t)))) t = Some (PDone p r) /\ tokens (fst (step s (EStep t))) = S (tokens s).
  Proof.
    intros HR Ht. pose proof (inv_reachable _ _ HR) as [H1 H2 H3 H4 H5].
    cbn [step]. rewrite Ht. cbn [step_thread].
    pose proof (sumf_ge mid _ _ _ Ht) as G. cbn [mid] in G.
    pose proof (sum_le_cap (chans s) (cap s) H2) as L. rewrite H1 in L.
    unfold runs_ge in H3. cbn [skipn] in H3.
    destruct (Nat.ltb_spec (tokens s) (QueueCount * cap s)); [|lia].
    cbn. split; [eapply nth_error_upd_eq; eauto|reflexivity].
  Qed.

  Lemma cap_const s e : cap (fst (step s e)) = cap s.
  Proof.
    destruct e as [p r|p r| |t|t]; cbn [step fst spawn cap]; auto.
    - destruct (nth_error (threads s) t) as [th|]; auto.
      destruct th; cbn [step_thread]; auto;
        repeat match goal with |- context [match ?x with _ => _ end] => destruct x end; reflexivity.
    - destruct (nth_error (threads s) t) as [[]|]; reflexivity.
  Qed.

  Lemma reachable_cap n s : reachable n s -> cap s = n.
  Proof.
    intros [es ->]. assert (H : cap (init R n) = n) by reflexivity. revert H. generalize (init R n).
    induction es as [|e es IH]; intros s H; [exact H|]. rewrite exec_cons. cbn [fst]. apply IH. rewrite cap_const. exact H.
  Qed.

  Lemma capacity_l n s p q : reachable n s -> nth_error (chans s) p = Some q -> length q <= n.
  Proof. intros HR H. rewrite <- (reachable_cap _ _ HR). eapply I_cap; eauto using inv_reachable. Qed.

  Lemma reject_l s t p r q :
    nth_error (threads s) t = Some (PTry p r) -> nth_error (chans s) p = Some q ->
    (length q >= cap s -> nth_error (threads (fst (step s (EStep t)))) t = Some (PRejected p r) /\ chans (fst (step s (EStep t))) = chans s) /\
    (length q < cap s -> nth_error (threads (fst (step s (EStep t)))) t = Some (PSent p r) /\ nth_error (chans (fst (step s (EStep t)))) p = Some (q ++ [r])).
  Proof.
    intros Ht Hq. cbn [step]. rewrite Ht. cbn [step_thread]. rewrite Hq.
    destruct (Nat.ltb_spec (length q) (cap s)); split; intros; try lia; cbn.
    - split; eapply nth_error_upd_eq; eauto.
    - split; [eapply nth_error_upd_eq; eauto|reflexivity].
  Qed.

  Lemma block_l s t p r q :
    nth_error (threads s) t = Some (PBlock p r) -> nth_error (chans s) p = Some q ->
    (length q >= cap s -> fst (step s (EStep t)) = s) /\
    (length q < cap s -> nth_error (threads (fst (step s (EStep t)))) t = Some (PSent p r) /\ nth_error (chans (fst (step s (EStep t)))) p = Some (q ++ [r])).
  Proof.
    intros Ht Hq. cbn [step]. rewrite Ht. cbn [step_thread]. rewrite Hq.
    destruct (Nat.ltb_spec (length q) (cap s)); split; intros; try lia; cbn.
    - split; eapply nth_error_upd_eq; eauto.
    - reflexivity.
  Qed.
End P.

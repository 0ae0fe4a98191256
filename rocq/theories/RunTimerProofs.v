(* The per-attempt timer goroutine: every schedule. *)
From Coq Require Import List Arith ZArith NArith Bool Lia.
From Verif Require Import GoBase RunModel RunSpec RunProofs RunBoundsProofs.
Import ListNotations.

Definition tw (i : nat) (p : pc) : nat :=
  match timer_of p with Some j => at_ i j | None => 0 end.
Definition prew (i : nat) (p : pc) : nat :=
  match p with TDrain _ | TFin _ => 0 | _ => tw i p end.

Definition Tat (s : state) (i : nat) (y : istate) : Prop :=
  ntclose y + sumf (tw i) (threads s) <= 1 /\ b2n (tmo y) + sumf (prew i) (threads s) <= 1.
Definition T (s : state) : Prop := forall i y, nth_error (inflights s) i = Some y -> Tat s i y.

Definition icore (y : istate) := (ntclose y, tmo y).

Lemma T_ext s s' : map icore (inflights s') = map icore (inflights s) -> threads s' = threads s -> T s -> T s'.
Proof.
  intros E1 E2 HT i y Hy.
  assert (exists y0, nth_error (inflights s) i = Some y0 /\ icore y = icore y0) as (y0 & H0 & C).
  { apply (map_nth_error icore) in Hy. rewrite E1 in Hy.
    destruct (nth_error (inflights s) i) as [y0|] eqn:F.
    - apply (map_nth_error icore) in F. exists y0. split; auto. congruence.
    - apply nth_error_None in F.
      assert (L : nth_error (map icore (inflights s)) i = None) by (apply nth_error_None; rewrite map_length; lia). congruence. }
  destruct (HT _ _ H0) as [A B]. unfold icore in C. injection C as C1 C2. unfold Tat. rewrite E2, C1, C2. auto.
Qed.

Lemma remove_icore s a : map icore (inflights (remove s a)) = map icore (inflights s).
Proof.
  unfold remove. destruct (mget (mapping s) a) as [i|]; auto.
  destruct (nth_error (inflights s) i) as [x|] eqn:E; auto. cbn.
  eapply map_upd_same; eauto.
Qed.

Lemma T_thread s t p p' :
  T s -> nth_error (threads s) t = Some p ->
  (forall i, tw i p' <= tw i p /\ prew i p' <= prew i p) ->
  T (set_thread s t p').
Proof.
  intros HT Ht H i y Hy. cbn in Hy. destruct (HT _ _ Hy) as [A B]. destruct (H i) as [C D].
  pose proof (sumf_upd (tw i) _ _ _ p' Ht). pose proof (sumf_upd (prew i) _ _ _ p' Ht).
  unfold Tat in *. cbn [threads set_thread]. lia.
Qed.

Lemma T_thread_inf s t p p' i y z :
  T s -> nth_error (threads s) t = Some p -> nth_error (inflights s) i = Some y ->
  (forall j, tw j p' <= tw j p /\ prew j p' <= prew j p) ->
  ntclose z + tw i p' <= ntclose y + tw i p -> b2n (tmo z) + prew i p' <= b2n (tmo y) + prew i p ->
  T (set_thread (set_inf s i z) t p').
Proof.
  intros HT Ht Hi H H1 H2 j w Hw. cbn in Hw.
  pose proof (sumf_upd (tw j) _ _ _ p' Ht). pose proof (sumf_upd (prew j) _ _ _ p' Ht).
  destruct (H j) as [C D]. unfold Tat in *. cbn [threads set_thread set_inf].
  destruct (Nat.eq_dec i j) as [->|N].
  - rewrite (nth_error_upd_eq _ _ _ _ Hi) in Hw. injection Hw as <-. destruct (HT _ _ Hi) as [A B]. lia.
  - rewrite nth_error_upd_neq in Hw by auto. destruct (HT _ _ Hw) as [A B]. lia.
Qed.

Lemma tw_resume i k p :
  timer_of p = (match k with KTimer j => Some j | KEnd => None end) ->
  (match p with TDrain _ | TFin _ => False | _ => True end) ->
  tw i (resume k) <= tw i p /\ prew i (resume k) <= prew i p.
Proof.
  intros E N.
  assert (X : prew i p = tw i p) by (destruct p; try contradiction; reflexivity).
  assert (Y : tw i p = match k with KTimer j => at_ i j | KEnd => 0 end) by (unfold tw; rewrite E; destruct k; reflexivity).
  rewrite X, Y. destruct k; cbn; unfold tw; cbn; lia.
Qed.

Lemma T_step s e : Valid s -> T s -> T (step s e).
Proof.
  intros HV HT. destruct e as [m|n|a|t ch]; cbn [step].
  - exact HT.
  - destruct (nth_error (queue s) n) as [r0|] eqn:E; auto.
    intros i y Hy. cbn in Hy. destruct (HT _ _ Hy) as [A B]. unfold Tat; cbn [threads]. rewrite !sumf_app. cbn. lia.
  - destruct (mget (mapping s) a) as [i|]; auto.
    destruct (nth_error (inflights s) i) as [y|] eqn:E; auto.
    apply (T_ext (spawn s (HProc (irun y)))); auto.
    + cbn. eapply map_upd_same; eauto.
    + intros j z Hz. cbn in Hz. destruct (HT _ _ Hz) as [A B]. unfold Tat; cbn [threads spawn]. rewrite !sumf_app. cbn. lia.
  - destruct (nth_error (threads s) t) as [p|] eqn:Ht; auto.
    destruct p; cbn [step_thread]; auto.
    all: repeat match goal with
      | |- T (match nth_error (runs ?s) ?r with _ => _ end) => destruct (nth_error (runs s) r) as [x|] eqn:Hx; [|assumption]
      | |- T (match nth_error (inflights ?s) ?r with _ => _ end) => destruct (nth_error (inflights s) r) as [x|] eqn:Hx; [|assumption]
      | |- T (match ?ch with ChTrue => _ | _ => _ end) => destruct ch
      | |- T (if ?b then _ else _) => destruct b eqn:?
      | |- T _ => assumption
      end.
    all: try match goal with
      | |- T (set_thread (remove ?s ?a) ?t ?p') =>
        apply (T_ext (set_thread s t p'));
          [cbn; apply remove_icore | cbn; destruct (remove_shape s a) as (_ & _ & -> & _); reflexivity | ]
      | |- T (set_thread (set_run ?s ?r ?x) ?t ?p') => apply (T_ext (set_thread s t p')); [reflexivity..|]
      | |- T (set_thread (mkS _ _ _ _ _ _) ?t ?p') => idtac
      end.
    all: try (eapply T_thread; [eassumption|eassumption|]; first
       [ intros j; split; cbn; unfold tw; cbn; lia
       | intros j; destruct (mon x); split; cbn; unfold tw; cbn; lia
       | intros j; apply tw_resume; cbn; auto; fail
       | intros j; destruct (_ <=? _)%Z; split; cbn; unfold tw; cbn; lia
       | idtac ]; fail).
    + (* GR1 *)
      intros i y Hy. cbn in Hy. apply nth_error_app_inv in Hy.
      pose proof (sumf_upd (tw i) _ _ _ Done Ht) as A1. pose proof (sumf_upd (prew i) _ _ _ Done Ht) as A2. cbn in A1, A2.
      destruct Hy as [Hy|[-> ->]].
      * destruct (HT _ _ Hy) as [A B]. unfold Tat; cbn [threads]. rewrite !sumf_app.
        change (sumf (tw i) [TConn (length (inflights s))]) with (at_ i (length (inflights s)) + 0).
        change (sumf (prew i) [TConn (length (inflights s))]) with (at_ i (length (inflights s)) + 0). unfold at_.
        assert (i < length (inflights s)) by (apply nth_error_Some; congruence).
        destruct (Nat.eqb_spec (length (inflights s)) i); lia.
      * assert (Z0 : forall p, In p (threads s) -> tw (length (inflights s)) p = 0 /\ prew (length (inflights s)) p = 0).
        { intros p Hp. pose proof (V_t _ HV) as F. rewrite Forall_forall in F. destruct (F _ Hp) as [_ G].
          assert (tw (length (inflights s)) p = 0).
          { unfold tw. destruct (timer_of p) as [j|]; auto. unfold at_. destruct (Nat.eqb_spec j (length (inflights s))) as [->|]; auto.
            specialize (G _ eq_refl). lia. }
          split; auto. destruct p; auto. }
        unfold Tat; cbn [threads ntclose tmo]. rewrite !sumf_app.
        assert (S1 : sumf (tw (length (inflights s))) (threads s) = 0) by (apply sumf_zero; rewrite Forall_forall; intros p Hp; apply Z0; auto).
        assert (S2 : sumf (prew (length (inflights s))) (threads s) = 0) by (apply sumf_zero; rewrite Forall_forall; intros p Hp; apply Z0; auto).
        change (sumf (tw (length (inflights s))) [TConn (length (inflights s))]) with (at_ (length (inflights s)) (length (inflights s)) + 0).
        change (sumf (prew (length (inflights s))) [TConn (length (inflights s))]) with (at_ (length (inflights s)) (length (inflights s)) + 0).
        unfold at_. rewrite Nat.eqb_refl. cbn [b2n]. lia.
    + eapply T_thread_inf; eauto; try (intros; split); cbn; unfold tw; cbn; lia.
    + eapply T_thread_inf; eauto; try (intros; split); cbn; unfold tw; cbn; lia.
    + eapply T_thread_inf; eauto; try (intros; split); cbn; unfold tw; cbn; lia.
    + eapply T_thread_inf; eauto; try (intros; split); cbn; unfold tw; cbn; lia.
    + (* TSend *)
      eapply T_thread_inf; eauto; try (intros; split); cbn; unfold tw; cbn; unfold at_; rewrite ?Nat.eqb_refl, ?Heqb; cbn; lia.
    + (* TFin *)
      eapply T_thread_inf; eauto; try (intros; split); cbn; unfold tw; cbn; unfold at_; rewrite ?Nat.eqb_refl; cbn; lia.
    + (* RQ2 *)
      apply (T_ext (set_thread s t (RQ3 r k))); [destruct last; reflexivity..|].
      eapply T_thread; [eassumption|eassumption|]. intros j; split; cbn; unfold tw; cbn; lia.
    + eapply T_thread; [eassumption|eassumption|]. intros j. destruct pp; [split; cbn; unfold tw; cbn; lia|apply tw_resume; cbn; auto].
Qed.

Lemma T_reachable s : reachable s -> T s.
Proof.
  apply reachable_ind.
  - intros c i y H. destruct i; discriminate.
  - intros. apply T_step; auto.
Qed.

Lemma timeout_closed_once_l s i y : reachable s -> nth_error (inflights s) i = Some y -> ntclose y <= 1.
Proof. intros HR Hy. destruct (T_reachable _ HR _ _ Hy). lia. Qed.

Lemma timeout_send_never_blocks_l s t i : reachable s -> nth_error (threads s) t = Some (TSend i) ->
  exists y, nth_error (inflights s) i = Some y /\ tmo y = false.
Proof.
  intros HR Ht. pose proof (reachable_valid _ HR) as HV.
  pose proof (nth_error_Forall _ _ _ _ (V_t _ HV) Ht) as [_ G]. specialize (G i eq_refl).
  destruct (nth_error (inflights s) i) as [y|] eqn:Hy; [|apply nth_error_None in Hy; lia].
  exists y. split; auto. destruct (T_reachable _ HR _ _ Hy) as [_ B].
  pose proof (sumf_ge (prew i) _ _ _ Ht) as G'. change (prew i (TSend i)) with (at_ i i) in G'. unfold at_ in G'. rewrite Nat.eqb_refl in G'.
  destruct (tmo y); auto. cbn in B. lia.
Qed.

(* A thread blocked in the drain stays there for ever. *)
Lemma drain_stuck s t i e : nth_error (threads s) t = Some (TDrain i) -> nth_error (threads (step s e)) t = Some (TDrain i).
Proof.
  intros Ht. destruct e as [m|n|a|t' ch]; cbn [step].
  - exact Ht.
  - destruct (nth_error (queue s) n); auto. apply nth_error_app_old; auto.
  - destruct (mget _ _); auto. destruct (nth_error (inflights s) _); auto. apply nth_error_app_old; auto.
  - destruct (nth_error (threads s) t') as [p|] eqn:Hp; auto.
    destruct (Nat.eq_dec t' t) as [->|N].
    + rewrite Ht in Hp. injection Hp as <-. exact Ht.
    + assert (R : forall a, threads (remove s a) = threads s) by (intros; apply remove_shape).
      destruct p; cbn [step_thread];
      repeat match goal with
      | |- context [match nth_error ?l ?r with _ => _ end] => destruct (nth_error l r) eqn:?
      | |- context [match ch with ChTrue => _ | _ => _ end] => destruct ch
      | |- context [if ?b then _ else _] => destruct b eqn:?
      end; cbn; rewrite ?R, ?nth_error_upd_neq; auto.
      apply nth_error_app_old. rewrite nth_error_upd_neq; auto.
Qed.

Lemma fired_never_closed_l s t i y es : reachable s -> nth_error (threads s) t = Some (TDrain i) ->
  nth_error (inflights (exec s es)) i = Some y -> ntclose y = 0.
Proof.
  intros HR Ht Hy.
  assert (HR' : reachable (exec s es) /\ nth_error (threads (exec s es)) t = Some (TDrain i)).
  { clear Hy. revert s HR Ht. induction es as [|e es IH]; intros s HR Ht; [auto|].
    cbn. apply IH; [apply reachable_step; auto|apply drain_stuck; auto]. }
  destruct HR' as [HR' Ht'].
  destruct (T_reachable _ HR' _ _ Hy) as [A _].
  pose proof (sumf_ge (tw i) _ _ _ Ht') as G. change (tw i (TDrain i)) with (at_ i i) in G. unfold at_ in G. rewrite Nat.eqb_refl in G. lia.
Qed.

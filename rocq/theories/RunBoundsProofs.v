(* Unconditional invariants (every schedule, races included). *)
From Coq Require Import List Arith ZArith NArith Bool Lia.
From Verif Require Import GoBase RunModel RunSpec RunProofs.
Import ListNotations.

Definition b2n (b : bool) : nat := if b then 1 else 0.
Definition at_ (r r' : nat) : nat := if Nat.eqb r' r then 1 else 0.

Definition pr (r : nat) (p : pc) : nat :=
  match p with CL1 r' _ | CL1b r' _ | CL1c r' _ | CL2 r' _ _ | CL3 r' _ _ => at_ r r' | _ => 0 end.
Definition pp_ (r : nat) (p : pc) : nat :=
  match p with CL1 r' _ | CL1b r' _ | CL1c r' _ | CL2 r' _ _ | CL3 r' _ _ | CL4 r' _ => at_ r r' | _ => 0 end.
Definition c4 (r : nat) (p : pc) : nat := match p with CL4 r' _ => at_ r r' | _ => 0 end.
Definition pendq (r : nat) (p : pc) : nat :=
  match p with GR0 r' | GR1 r' | RQ2 r' _ _ | RQ3 r' _ | RQ4 r' _ => at_ r r' | _ => 0 end.
Definition M (z : Z) : nat := Z.to_nat (Z.max z 1).
Definition hand (r : nat) (l : list istate) : nat := sumf (fun x => at_ r (irun x)) l.

Arguments hand : simpl never.
Arguments M : simpl never.
Arguments b2n !b.

(* The bound on hand-outs is a parameter, so that the same invariant can be
   restarted from any state. *)
Section Bound.
Variable B : nat -> nat -> nat.

Definition Jat (s : state) (r : nat) (x : rstate) : Prop :=
  nready x + sumf (pr r) (threads s) <= b2n (closedF x) /\
  npost x + sumf (pp_ r) (threads s) <= b2n (closedF x) /\
  npost x + sumf (c4 r) (threads s) <= nready x /\
  nrunning x = b2n (runningF x) /\
  hand r (inflights s) + queued s r + sumf (pendq r) (threads s) + M (tries x) <= B r (maxtries x).

Definition J (s : state) : Prop := forall r x, nth_error (runs s) r = Some x -> Jat s r x.

Lemma hand_map r l l' : map irun l' = map irun l -> hand r l' = hand r l.
Proof.
  unfold hand. revert l'; induction l as [|h t IH]; intros [|h' t'] E; simpl in *; try discriminate; auto.
  injection E as E1 E2. rewrite E1, (IH _ E2). reflexivity.
Qed.

Lemma handouts_hand s r : handouts s r = hand r (inflights s).
Proof.
  unfold handouts, hand. induction (inflights s) as [|h t IH]; simpl; auto.
  unfold at_ at 1. destruct (Nat.eqb (irun h) r); simpl; lia.
Qed.

Lemma core_nth s s' r x : map core (runs s) = map core (runs s') -> nth_error (runs s) r = Some x ->
  exists x', nth_error (runs s') r = Some x' /\ core x = core x'.
Proof.
  intros E H. apply (map_nth_error core) in H. rewrite E in H.
  destruct (nth_error (runs s') r) as [x'|] eqn:F.
  - apply (map_nth_error core) in F. exists x'. split; [reflexivity|]. congruence.
  - apply nth_error_None in F. exfalso.
    assert (L : nth_error (map core (runs s')) r = None) by (apply nth_error_None; rewrite map_length; lia).
    congruence.
Qed.

Lemma J_ext s s' : map core (runs s') = map core (runs s) -> map irun (inflights s') = map irun (inflights s) ->
  queue s' = queue s -> threads s' = threads s -> J s -> J s'.
Proof.
  intros E1 E2 E3 E4 HJ r x Hx. destruct (core_nth _ _ _ _ E1 Hx) as (x' & Hx' & C).
  specialize (HJ _ _ Hx'). unfold Jat, queued in *. rewrite E3, E4, (hand_map _ _ _ E2).
  unfold core in C. injection C as -> _ -> -> -> -> -> ->. exact HJ.
Qed.

Ltac simp := cbn [runs threads queue inflights counter mapping set_thread set_run set_inf spawn new_run
   maxtries attempt tries closedF runningF mon nrunning nready npost].

Lemma J_upd s t p p' r0 x x' :
  J s -> nth_error (threads s) t = Some p -> nth_error (runs s) r0 = Some x ->
  (forall r, r <> r0 -> pr r p' <= pr r p /\ pp_ r p' <= pp_ r p /\ c4 r p' <= c4 r p /\ pendq r p' <= pendq r p) ->
  nready x' + pr r0 p' + b2n (closedF x) <= nready x + pr r0 p + b2n (closedF x') ->
  npost x' + pp_ r0 p' + b2n (closedF x) <= npost x + pp_ r0 p + b2n (closedF x') ->
  npost x' + c4 r0 p' + nready x <= npost x + c4 r0 p + nready x' ->
  nrunning x' = b2n (runningF x') ->
  pendq r0 p' + M (tries x') <= pendq r0 p + M (tries x) -> maxtries x' = maxtries x ->
  J (set_thread (set_run s r0 x') t p').
Proof.
  intros HJ Ht Hr HO H1 H2 H3 H4 H5 H6 r y Hy. cbn in Hy.
  pose proof (sumf_upd (pr r) _ _ _ p' Ht) as A1.
  pose proof (sumf_upd (pp_ r) _ _ _ p' Ht) as A2.
  pose proof (sumf_upd (c4 r) _ _ _ p' Ht) as A3.
  pose proof (sumf_upd (pendq r) _ _ _ p' Ht) as A4.
  unfold Jat, queued; simp.
  destruct (Nat.eq_dec r0 r) as [->|N].
  - rewrite (nth_error_upd_eq _ _ _ _ Hr) in Hy. injection Hy as <-.
    destruct (HJ _ _ Hr) as (B1 & B2 & B3 & B4 & B5). unfold queued in B5. rewrite H6.
    repeat split; try lia.
  - rewrite nth_error_upd_neq in Hy by auto.
    destruct (HJ _ _ Hy) as (B1 & B2 & B3 & B4 & B5). unfold queued in B5.
    destruct (HO r (not_eq_sym N)) as (C1 & C2 & C3 & C4).
    repeat split; try lia.
Qed.

Lemma J_thread s t p p' :
  J s -> nth_error (threads s) t = Some p ->
  (forall r, pr r p' <= pr r p /\ pp_ r p' <= pp_ r p /\ c4 r p' <= c4 r p /\ pendq r p' <= pendq r p) ->
  J (set_thread s t p').
Proof.
  intros HJ Ht HO r y Hy. cbn in Hy.
  pose proof (sumf_upd (pr r) _ _ _ p' Ht) as A1.
  pose proof (sumf_upd (pp_ r) _ _ _ p' Ht) as A2.
  pose proof (sumf_upd (c4 r) _ _ _ p' Ht) as A3.
  pose proof (sumf_upd (pendq r) _ _ _ p' Ht) as A4.
  destruct (HJ _ _ Hy) as (B1 & B2 & B3 & B4 & B5). destruct (HO r) as (C1 & C2 & C3 & C4).
  unfold Jat, queued in *; simp. repeat split; lia.
Qed.

Lemma J_thread_inf s t p p' i y z :
  J s -> nth_error (threads s) t = Some p -> nth_error (inflights s) i = Some y -> irun z = irun y ->
  (forall r, pr r p' <= pr r p /\ pp_ r p' <= pp_ r p /\ c4 r p' <= c4 r p /\ pendq r p' <= pendq r p) ->
  J (set_thread (set_inf s i z) t p').
Proof.
  intros HJ Ht Hi E HO. apply (J_ext (set_thread s t p')); cbn; auto.
  - eapply map_upd_same; eauto.
  - eapply J_thread; eauto.
Qed.

Lemma sumf_zero {A} (f : A -> nat) l : Forall (fun x => f x = 0) l -> sumf f l = 0.
Proof. induction 1; simpl; lia. Qed.

Lemma works_zero nr ni r p : okp nr ni p -> nr <= r -> pr r p = 0 /\ pp_ r p = 0 /\ c4 r p = 0 /\ pendq r p = 0.
Proof.
  intros [A _] L. destruct p; cbn; auto; unfold at_;
    destruct (Nat.eqb_spec r0 r) as [->|]; auto; specialize (A r eq_refl); lia.
Qed.

Lemma count_app (l1 l2 : list nat) r : count_occ Nat.eq_dec (l1 ++ l2) r = count_occ Nat.eq_dec l1 r + count_occ Nat.eq_dec l2 r.
Proof. apply count_occ_app. Qed.

Lemma count_remove_nth (l : list nat) n r0 r : nth_error l n = Some r0 ->
  count_occ Nat.eq_dec (firstn n l ++ skipn (S n) l) r + at_ r r0 = count_occ Nat.eq_dec l r.
Proof.
  revert n; induction l as [|h t IH]; intros [|n]; simpl; intros H; try discriminate.
  - injection H as ->. unfold at_. destruct (Nat.eq_dec r0 r), (Nat.eqb_spec r0 r); lia.
  - specialize (IH _ H). simpl in IH. destruct (Nat.eq_dec h r); lia.
Qed.

Lemma cond_same r0 p p' : (exists k, p' = resume k) -> forall r, r <> r0 ->
  pr r p' <= pr r p /\ pp_ r p' <= pp_ r p /\ c4 r p' <= c4 r p /\ pendq r p' <= pendq r p.
Proof. intros [[|i] ->] r _; cbn; lia. Qed.

Lemma weights_resume k r : pr r (resume k) = 0 /\ pp_ r (resume k) = 0 /\ c4 r (resume k) = 0 /\ pendq r (resume k) = 0.
Proof. destruct k; cbn; auto. Qed.

Ltac w_side := intros; cbn; unfold at_;
  repeat match goal with |- context [Nat.eqb ?a ?b] => destruct (Nat.eqb_spec a b); try congruence end;
  try lia.

Lemma J_step s e :
  (forall r m, length (runs s) <= r -> Nat.max m 1 + 1 <= B r m) -> Valid s -> J s -> J (step s e).
Proof.
  intros HB HV HJ. destruct e as [m|n|a|t ch]; cbn [step].
  - (* ENew *)
    intros r x Hx. cbn in Hx. apply nth_error_app_inv in Hx. destruct Hx as [Hx|[-> ->]].
    + assert (L : r < length (runs s)) by (apply nth_error_Some; congruence).
      destruct (HJ _ _ Hx) as (B1 & B2 & B3 & B4 & B5). unfold Jat, queued in *; cbn. rewrite count_app. cbn.
      destruct (Nat.eq_dec (length (runs s)) r); [lia|]. repeat split; auto. lia.
    + unfold Jat, queued; cbn. rewrite count_app. cbn. destruct (Nat.eq_dec (length (runs s)) (length (runs s))); [|lia].
      assert (Z0 : forall p, In p (threads s) -> pr (length (runs s)) p = 0 /\ pp_ (length (runs s)) p = 0 /\ c4 (length (runs s)) p = 0 /\ pendq (length (runs s)) p = 0).
      { intros p Hp. pose proof (V_t _ HV) as T. rewrite Forall_forall in T. eapply works_zero; eauto. }
      assert (Z1 : count_occ Nat.eq_dec (queue s) (length (runs s)) = 0).
      { apply count_occ_not_In. intros HIn. pose proof (V_q _ HV) as T. rewrite Forall_forall in T. apply T in HIn. lia. }
      assert (Z2 : hand (length (runs s)) (inflights s) = 0).
      { apply sumf_zero. eapply Forall_impl; [|exact (V_i _ HV)]. intros y Hy; cbv beta in *. unfold at_. destruct (Nat.eqb_spec (irun y) (length (runs s))); auto. lia. }
      rewrite !sumf_zero by (rewrite Forall_forall; intros p Hp; apply Z0; auto).
      unfold M. cbn. specialize (HB (length (runs s)) m (le_n _)). repeat split; try lia.
  - (* EGetRun *)
    destruct (nth_error (queue s) n) as [r0|] eqn:E; auto.
    intros r x Hx. cbn in Hx. destruct (HJ _ _ Hx) as (B1 & B2 & B3 & B4 & B5).
    unfold Jat, queued in *; cbn -[skipn]. rewrite !sumf_app. cbn -[skipn]. pose proof (count_remove_nth _ _ _ r E).
    repeat split; try lia.
  - destruct (mget (mapping s) a) as [i|]; auto.
    destruct (nth_error (inflights s) i) as [y|] eqn:E; auto.
    apply (J_ext (spawn s (HProc (irun y)))); cbn; auto.
    + eapply map_upd_same; eauto.
    + intros r x Hx. cbn in Hx. destruct (HJ _ _ Hx) as (B1 & B2 & B3 & B4 & B5).
      unfold Jat, queued in *; cbn. rewrite !sumf_app. cbn. repeat split; try lia.
  - destruct (nth_error (threads s) t) as [p|] eqn:Ht; auto.
    destruct p; cbn [step_thread]; auto.
    all: repeat match goal with
      | |- J (match nth_error (runs ?s) ?r with _ => _ end) => destruct (nth_error (runs s) r) as [x|] eqn:Hx; [|assumption]
      | |- J (match nth_error (inflights ?s) ?r with _ => _ end) => destruct (nth_error (inflights s) r) as [x|] eqn:Hx; [|assumption]
      | |- J (match ?ch with ChTrue => _ | _ => _ end) => destruct ch
      | |- J (if ?b then _ else _) => destruct b eqn:?
      | |- J _ => assumption
      end.
    all: try (eapply J_thread; [eassumption|eassumption|]; try (w_side; fail);
              intros r'; destruct (weights_resume k r') as (-> & -> & -> & ->); lia).
    all: try (eapply J_thread; [eassumption|eassumption|]; destruct (mon x); w_side; fail).
    all: try (eapply J_thread_inf; [eassumption|eassumption|eassumption|reflexivity|w_side]; fail).
    + (* GR0 *)
      eapply J_upd; eauto; try (w_side; fail).
      destruct (HJ _ _ Hx) as (_ & _ & _ & B4 & _). cbn. destruct (runningF x); cbn in *; lia.
    + (* GR1 *)
      intros r' y Hy. cbn in Hy.
      assert (exists y0, nth_error (runs s) r' = Some y0 /\ core y = core y0) as (y0 & Hy0 & C).
      { destruct (Nat.eq_dec r r') as [->|N].
        - rewrite (nth_error_upd_eq _ _ _ _ Hx) in Hy. injection Hy as <-. exists x. split; auto.
        - rewrite nth_error_upd_neq in Hy by auto. exists y; auto. }
      destruct (HJ _ _ Hy0) as (B1 & B2 & B3 & B4 & B5).
      unfold core in C. injection C as C1 _ C2 C3 C4 C5 C6 C7.
      unfold Jat, queued, hand in *; cbn. rewrite !sumf_app; cbn. rewrite C1, C2, C3, C4, C5, C6, C7.
      pose proof (sumf_upd (pr r') _ _ _ Done Ht) as A1.
      pose proof (sumf_upd (pp_ r') _ _ _ Done Ht) as A2.
      pose proof (sumf_upd (c4 r') _ _ _ Done Ht) as A3.
      pose proof (sumf_upd (pendq r') _ _ _ Done Ht) as A4. cbn in A1, A2, A3, A4.
      repeat split; try lia.
    + (* RQ0b *)
      apply (J_ext (set_thread s t (RQ1 r last k))); cbn; auto using remove_core, remove_irun.
      * apply remove_shape. * destruct (remove_shape s (attempt x)) as (_ & _ & -> & _); auto.
      * eapply J_thread; eauto; w_side.
    + (* RQ1 *)
      eapply J_upd; eauto; cbn; unfold M.
      * intros r' N. destruct (_ <=? _)%Z; w_side.
      * destruct (_ <=? _)%Z; w_side.
      * destruct (_ <=? _)%Z; w_side.
      * destruct (_ <=? _)%Z; w_side.
      * destruct (HJ _ _ Hx) as (_ & _ & _ & B4 & _). exact B4.
      * destruct (Z.leb_spec (tries x - 1) 0); cbn; unfold at_; rewrite ?Nat.eqb_refl; lia.
    + (* RQ2 *)
      destruct last.
      * eapply J_upd; eauto; try (w_side; fail).
        -- destruct (HJ _ _ Hx) as (_ & _ & _ & B4 & _). exact B4.
        -- w_side. unfold M. lia.
      * eapply J_thread; eauto; w_side.
    + (* RQ3 *)
      apply (J_ext (set_thread (set_run s r (with_attempt x (next_id (counter s)))) t (RQ4 r k))); auto.
      eapply J_upd; eauto; try (w_side; fail).
      destruct (HJ _ _ Hx) as (_ & _ & _ & B4 & _). exact B4.
    + (* RQ4 *)
      intros r' y Hy. cbn in Hy. destruct (HJ _ _ Hy) as (B1 & B2 & B3 & B4 & B5).
      unfold Jat, queued in *; cbn. rewrite count_app. cbn.
      pose proof (sumf_upd (pr r') _ _ _ (resume k) Ht) as A1.
      pose proof (sumf_upd (pp_ r') _ _ _ (resume k) Ht) as A2.
      pose proof (sumf_upd (c4 r') _ _ _ (resume k) Ht) as A3.
      pose proof (sumf_upd (pendq r') _ _ _ (resume k) Ht) as A4.
      destruct (weights_resume k r') as (W1 & W2 & W3 & W4). rewrite W1 in A1. rewrite W2 in A2. rewrite W3 in A3. rewrite W4 in A4.
      cbn in A1, A2, A3, A4. unfold at_ in A4.
      destruct (Nat.eq_dec r r'), (Nat.eqb_spec r r'); try congruence; repeat split; lia.
    + intros r' y Hy. cbn in Hy. destruct (HJ _ _ Hy) as (B1 & B2 & B3 & B4 & B5).
      unfold Jat, queued in *; cbn. rewrite count_app. cbn.
      pose proof (sumf_upd (pr r') _ _ _ (resume k) Ht) as A1.
      pose proof (sumf_upd (pp_ r') _ _ _ (resume k) Ht) as A2.
      pose proof (sumf_upd (c4 r') _ _ _ (resume k) Ht) as A3.
      pose proof (sumf_upd (pendq r') _ _ _ (resume k) Ht) as A4.
      destruct (weights_resume k r') as (W1 & W2 & W3 & W4). rewrite W1 in A1. rewrite W2 in A2. rewrite W3 in A3. rewrite W4 in A4.
      cbn in A1, A2, A3, A4. unfold at_ in A4.
      destruct (Nat.eq_dec r r'), (Nat.eqb_spec r r'); try congruence; repeat split; lia.
    + (* CL0 open *)
      eapply J_upd; eauto; try (w_side; fail).
      all: try (cbn; unfold at_; rewrite ?Nat.eqb_refl, Heqb; cbn; lia).
      destruct (HJ _ _ Hx) as (_ & _ & _ & B4 & _). exact B4.
    + (* CL1c *)
      apply (J_ext (set_thread s t (CL2 r true k))); cbn; auto using remove_core, remove_irun.
      * apply remove_shape. * destruct (remove_shape s (attempt x)) as (_ & _ & -> & _); auto.
      * eapply J_thread; eauto; w_side.
    + (* CL3 *)
      assert (WR : forall r', pr r' (resume k) = 0 /\ pp_ r' (resume k) = 0 /\ c4 r' (resume k) = 0 /\ pendq r' (resume k) = 0) by apply weights_resume.
      eapply J_upd; eauto; destruct pp; try (w_side; fail).
      all: try (intros r' _; destruct (WR r') as (-> & -> & -> & ->); lia).
      all: try (destruct (WR r) as (W1 & W2 & W3 & W4); rewrite ?W1, ?W2, ?W3, ?W4; cbn; unfold at_; rewrite ?Nat.eqb_refl; lia).
      all: destruct (HJ _ _ Hx) as (_ & _ & _ & B4 & _); exact B4.
    + (* CL4 *)
      assert (WR : forall r', pr r' (resume k) = 0 /\ pp_ r' (resume k) = 0 /\ c4 r' (resume k) = 0 /\ pendq r' (resume k) = 0) by apply weights_resume.
      eapply J_upd; eauto.
      all: try (intros r' _; destruct (WR r') as (-> & -> & -> & ->); lia).
      all: try (destruct (WR r) as (W1 & W2 & W3 & W4); rewrite ?W1, ?W2, ?W3, ?W4; cbn; unfold at_; rewrite ?Nat.eqb_refl; lia).
      destruct (HJ _ _ Hx) as (_ & _ & _ & B4 & _); exact B4.
Qed.

End Bound.

Definition B0 (r m : nat) : nat := Nat.max m 1 + 1.

Lemma J_reachable s : reachable s -> J B0 s.
Proof.
  apply reachable_ind.
  - intros c r x H. destruct r; discriminate.
  - intros. apply J_step; auto.
Qed.

Lemma handouts_bounded_l s r x : reachable s -> nth_error (runs s) r = Some x -> handouts s r <= Nat.max 1 (maxtries x).
Proof.
  intros HR Hx. destruct (J_reachable _ HR _ _ Hx) as (_ & _ & _ & _ & B). rewrite handouts_hand.
  assert (1 <= M (tries x)) by (unfold M; lia). unfold B0 in B. lia.
Qed.

Lemma closed_once_l s r x : reachable s -> nth_error (runs s) r = Some x ->
  nready x <= 1 /\ npost x <= 1 /\ nrunning x <= 1 /\ npost x <= nready x /\ (nready x = 1 -> closedF x = true).
Proof.
  intros HR Hx. destruct (J_reachable _ HR _ _ Hx) as (A & B & C & D & _).
  destruct (closedF x), (runningF x); cbn in *; repeat split; try lia.
Qed.

Lemma runs_len_step s e : length (runs s) <= length (runs (step s e)).
Proof.
  destruct e as [m|n|a|t ch]; cbn [step].
  - cbn. rewrite app_length. lia.
  - destruct (nth_error _ _); cbn; lia.
  - destruct (mget _ _) as [i|]; [|lia]. destruct (nth_error _ _); cbn; lia.
  - destruct (nth_error (threads s) t) as [p|]; [|lia].
    assert (R : forall a, length (runs (remove s a)) = length (runs s)) by (intros; apply remove_shape).
    destruct p; cbn [step_thread];
    repeat match goal with
      | |- context [match nth_error ?l ?r with _ => _ end] => destruct (nth_error l r) eqn:?
      | |- context [match ch with ChTrue => _ | _ => _ end] => destruct ch
      | |- context [if ?b then _ else _] => destruct b eqn:?
      end; cbn; rewrite ?upd_length, ?R; lia.
Qed.

Lemma reachable_valid s : reachable s -> Valid s.
Proof. apply reachable_ind; intros; [apply valid_init|apply valid_step; auto]. Qed.

Lemma reachable_step s e : reachable s -> reachable (step s e).
Proof. intros (c & es & ->). exists c, (es ++ [e]). rewrite exec_snoc. reflexivity. Qed.

(* Whatever happens after state s, run r is handed out at most as often as it
   already was, plus the entries already on their way, plus tries-1. *)
Lemma no_extra_handouts_l s es r x :
  reachable s -> nth_error (runs s) r = Some x ->
  handouts (exec s es) r <= handouts s r + queued s r + sumf (pendq r) (threads s) + Z.to_nat (tries x - 1).
Proof.
  intros HR Hx.
  set (bnd := hand r (inflights s) + queued s r + sumf (pendq r) (threads s) + M (tries x)).
  set (B := fun r' m => if Nat.eqb r' r then bnd else Nat.max m 1 + 1).
  assert (Hr : r < length (runs s)) by (apply nth_error_Some; congruence).
  assert (G : J B s).
  { intros r' y Hy. pose proof (J_reachable _ HR _ _ Hy) as (A1 & A2 & A3 & A4 & A5).
    repeat split; auto. unfold B. destruct (Nat.eqb_spec r' r) as [->|]; [|exact A5].
    replace y with x by congruence. unfold bnd. lia. }
  assert (G' : J B (exec s es) /\ Valid (exec s es) /\ r < length (runs (exec s es))).
  { pose proof (reachable_valid _ HR) as HV. clear - G HV Hr. clearbody B0 bnd || clearbody bnd.
    revert s G HV Hr. induction es as [|e es IH]; intros s G HV Hr; [auto|].
    cbn. apply IH.
    - apply J_step; auto. intros r' m L. unfold B. destruct (Nat.eqb_spec r' r); lia.
    - apply valid_step; auto.
    - pose proof (runs_len_step s e). lia. }
  destruct G' as (G' & _ & Hr').
  destruct (nth_error (runs (exec s es)) r) as [y|] eqn:Hy; [|apply nth_error_None in Hy; lia].
  destruct (G' _ _ Hy) as (_ & _ & _ & _ & A5). unfold B in A5. rewrite Nat.eqb_refl in A5.
  rewrite !handouts_hand. unfold bnd, M in A5.
  lia.
Qed.

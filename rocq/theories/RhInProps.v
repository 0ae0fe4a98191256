(* C61: sending inputs to runners. *)
From Coq Require Import List Bool Arith Lia.
From Verif Require Import RhModel RhSpec.
Import ListNotations.

Lemma nth_upd {A} (l : list A) i x j : nth_error (upd l i x) j = if Nat.eqb i j then match nth_error l i with Some _ => Some x | None => None end else nth_error l j.
Proof. revert i j. induction l as [|y l IH]; intros [|i] [|j]; cbn; auto. destruct (Nat.eqb i j); auto. Qed.
Lemma nth_snoc {A} (l : list A) x j : nth_error (l ++ [x]) j = if Nat.eqb j (length l) then Some x else nth_error l j.
Proof. revert j. induction l as [|y l IH]; intros [|j]; cbn; auto. destruct j; auto. Qed.
Lemma in_snoc {A} (x y : A) l : In x (l ++ [y]) <-> In x l \/ x = y.
Proof. rewrite in_app_iff. cbn. intuition. Qed.

Definition good (i : nat) (es : list event) : Prop := (exists a, In (Responds i a) es) -> False.
(* What is true of request i in a stage, in every execution. *)
Definition says (es : list event) (i : nat) (t : stage) : Prop :=
  match t with
  | Asked => ~ In (Acquires i) es /\ ~ In (Fails i) es /\ (forall a, ~ In (Responds i a) es) /\ ~ In (Releases i) es
  | Added true | Sending => In (Acquires i) es /\ ~ In (Fails i) es /\ (forall a, ~ In (Responds i a) es) /\ ~ In (Releases i) es
  | Added false => ~ In (Acquires i) es /\ In (Fails i) es /\ (forall a, ~ In (Responds i a) es) /\ ~ In (Releases i) es
  | Releasing => In (Acquires i) es /\ ~ In (Fails i) es /\ (forall a, In (Responds i a) es -> a = Sent \/ a = SendError) /\ ~ In (Releases i) es
  | Over => True
  end.
(* And in calm executions. *)
Definition says_calm (es : list event) (s : state) (i : nat) (t : stage) : Prop :=
  match t with
  | Added r => err s = negb r
  | Over => (In (Acquires i) es /\ ~ In (Fails i) es /\ (forall a, In (Responds i a) es -> a = Sent \/ a = SendError) /\ In (Releases i) es) \/
            (~ In (Acquires i) es /\ In (Fails i) es /\ (forall a, In (Responds i a) es -> a = NotFound) /\ ~ In (Releases i) es)
  | _ => True
  end.
Definition about (i : nat) (e : event) : Prop := match e with Asks j | Acquires j | Fails j | Releases j | Responds j _ => i = j | Silent => False end.
Definition known (es : list event) (s : state) : Prop := forall i e, In e es -> about i e -> nth_error (requests s) i <> None.

Lemma known_exec (ok : state -> Prop) es s : exec ok es s -> known es s.
Proof.
  induction 1 as [|es s e s' H IH S1 _]; intros i x X Y; [destruct X|].
  assert (GROW : forall i, nth_error (requests s) i <> None -> nth_error (requests s') i <> None).
  { intros j J. destruct S1; cbn [requests at_]; rewrite ?nth_snoc, ?nth_upd; try (destruct (Nat.eqb_spec i0 j) as [->|]; [destruct (nth_error (requests s) j); congruence|auto]).
    destruct (Nat.eqb j (length (requests s))); [discriminate|auto]. }
  apply in_snoc in X. destruct X as [X|X]; [apply GROW; eapply IH; eauto|]. subst x.
  destruct S1; cbn in Y; try contradiction; subst; try (apply GROW; congruence).
  cbn [requests]. rewrite nth_snoc, Nat.eqb_refl. discriminate.
Qed.
Lemma in_other (es : list event) e i x : ~ about i e -> about i x -> In x (es ++ [e]) <-> In x es.
Proof. intros N A. rewrite in_snoc. split; [intros [H| ->]; [auto|contradiction]|auto]. Qed.
Lemma says_other es e i t : ~ about i e -> says es i t -> says (es ++ [e]) i t.
Proof.
  intros N. assert (X : forall x, about i x -> In x (es ++ [e]) <-> In x es) by (intros x AX; eapply in_other; eauto).
  assert (A : In (Acquires i) (es ++ [e]) <-> In (Acquires i) es) by (apply X; cbn; auto).
  assert (F : In (Fails i) (es ++ [e]) <-> In (Fails i) es) by (apply X; cbn; auto).
  assert (R : In (Releases i) (es ++ [e]) <-> In (Releases i) es) by (apply X; cbn; auto).
  assert (P : forall a, In (Responds i a) (es ++ [e]) <-> In (Responds i a) es) by (intros; apply X; cbn; auto).
  destruct t as [|[]| | |]; cbn [says]; rewrite ?A, ?F, ?R; try tauto; intros (a & b & c & d); repeat split; auto; intros x Y; apply P in Y; try (eapply c; eauto; fail); apply c; auto.
Qed.
Ltac unsnoc := repeat match goal with H : In _ (_ ++ [_]) |- _ => apply in_snoc in H; destruct H as [H|H]; [|try discriminate H] end.
Ltac each := repeat split; try (apply in_snoc; auto; fail); intros; try (intros ?); unsnoc.
Lemma says_exec (ok : state -> Prop) es s i t : exec ok es s -> nth_error (requests s) i = Some t -> says es i t.
Proof.
  intros H. revert i t. induction H as [|es s e s' H IH S1 _]; intros i t T; [destruct i; discriminate T|].
  pose proof (known_exec _ _ _ H) as K.
  destruct S1; cbn [requests at_] in T; rewrite ?nth_snoc, ?nth_upd in T.
  - destruct (Nat.eqb_spec i (length (requests s))) as [->|N].
    + injection T as <-. assert (Z : forall x, about (length (requests s)) x -> ~ In x es).
      { intros x X Y. apply (K _ _ Y X). apply nth_error_None. auto. }
      cbn. each; match goal with X : In _ es |- _ => revert X; apply Z; cbn; auto end.
    + apply says_other; [cbn; auto|auto].
  - destruct (Nat.eqb_spec i0 i) as [->|N]; [|apply says_other; [cbn; auto|auto]]. rewrite H0 in T. injection T as <-.
    destruct (IH _ _ H0) as (a & b & c & d). cbn. each; try contradiction; eapply c; eauto.
  - destruct (Nat.eqb_spec i0 i) as [->|N]; [|apply says_other; [cbn; auto|auto]]. rewrite H0 in T. injection T as <-.
    destruct (IH _ _ H0) as (a & b & c & d). cbn. each; try contradiction; eapply c; eauto.
  - destruct (Nat.eqb_spec i0 i) as [->|N]; [|apply says_other; [cbn; auto|auto]]. rewrite H0 in T. injection T as <-. exact I.
  - destruct (Nat.eqb_spec i0 i) as [->|N]; [|apply says_other; [cbn; auto|auto]]. rewrite H0 in T. injection T as <-.
    apply says_other; [cbn; auto|]. apply (IH _ _ H0).
  - destruct (Nat.eqb_spec i0 i) as [->|N]; [|apply says_other; [cbn; auto|auto]]. rewrite H0 in T. injection T as <-. exact I.
  - destruct (Nat.eqb_spec i0 i) as [->|N]; [|apply says_other; [cbn; auto|auto]]. rewrite H0 in T. injection T as <-.
    destruct (IH _ _ H0) as (x & b & c & d). cbn. each; try contradiction; [exfalso; eapply c; eauto|]. match goal with X : Responds _ _ = _ |- _ => injection X as -> end. auto.
  - destruct (Nat.eqb_spec i0 i) as [->|N]; [|apply says_other; [cbn; auto|auto]]. rewrite H0 in T. injection T as <-. exact I.
Qed.
Lemma calm_exec es s i t : exec calm es s -> nth_error (requests s) i = Some t -> says_calm es s i t.
Proof.
  intros H. revert i t. induction H as [|es s e s' H IH S1 OK]; intros i t T; [destruct i; discriminate T|].
  assert (OTHER : forall i, ~ about i e -> nth_error (requests s) i = Some t -> (forall r, t = Added r -> err s' = err s) -> says_calm (es ++ [e]) s' i t).
  { intros j N G E. specialize (IH _ _ G).
    assert (X : forall x, about j x -> In x (es ++ [e]) <-> In x es) by (intros x AX; eapply in_other; eauto).
    assert (A : In (Acquires j) (es ++ [e]) <-> In (Acquires j) es) by (apply X; cbn; auto).
    assert (F : In (Fails j) (es ++ [e]) <-> In (Fails j) es) by (apply X; cbn; auto).
    assert (R : In (Releases j) (es ++ [e]) <-> In (Releases j) es) by (apply X; cbn; auto).
    assert (P : forall a, In (Responds j a) (es ++ [e]) <-> In (Responds j a) es) by (intros; apply X; cbn; auto).
    destruct t as [|r| | |]; cbn [says_calm] in *; auto; [rewrite (E r eq_refl); auto|]. rewrite A, F, R.
    destruct IH as [(a & b & c & d)|(a & b & c & d)]; [left|right]; repeat split; auto; intros x Y; apply P in Y; auto. }
  pose proof (fun i t => says_exec _ _ _ i t H) as SA. unfold calm in OK.
  destruct S1; cbn [requests at_ err] in *; rewrite ?nth_snoc, ?nth_upd in T.
  - destruct (Nat.eqb_spec i (length (requests s))) as [->|N]; [injection T as <-; exact I|]. apply OTHER; cbn; auto.
  - destruct (Nat.eqb_spec i0 i) as [->|N]; [rewrite H0 in T; injection T as <-; reflexivity|]. apply OTHER; [cbn; auto|auto|].
    intros r ->. exfalso. apply N. apply (OK i0 i true r); rewrite nth_upd; [rewrite Nat.eqb_refl, H0|rewrite (proj2 (Nat.eqb_neq _ _) N)]; auto.
  - destruct (Nat.eqb_spec i0 i) as [->|N]; [rewrite H0 in T; injection T as <-; reflexivity|]. apply OTHER; [cbn; auto|auto|].
    intros r ->. exfalso. apply N. apply (OK i0 i false r); rewrite nth_upd; [rewrite Nat.eqb_refl, H0|rewrite (proj2 (Nat.eqb_neq _ _) N)]; auto.
  - destruct (Nat.eqb_spec i0 i) as [->|N]; [|apply OTHER; cbn; auto]. rewrite H0 in T. injection T as <-. right.
    pose proof (IH _ _ H0) as E. cbn in E. rewrite E in H1. destruct r; [discriminate|]. destruct (SA _ _ H0) as (a & b & c & d).
    each; try contradiction; [exfalso; eapply c; eauto|]. match goal with X : Responds _ _ = _ |- _ => injection X as -> end. auto.
  - destruct (Nat.eqb_spec i0 i) as [->|N]; [rewrite H0 in T; injection T as <-; exact I|]. apply OTHER; cbn; auto.
  - exfalso. pose proof (IH _ _ H0) as E. cbn in E. congruence.
  - destruct (Nat.eqb_spec i0 i) as [->|N]; [rewrite H0 in T; injection T as <-; exact I|]. apply OTHER; cbn; auto.
  - destruct (Nat.eqb_spec i0 i) as [->|N]; [|apply OTHER; cbn; auto]. rewrite H0 in T. injection T as <-. left.
    destruct (SA _ _ H0) as (a & b & c & d).
    each; try contradiction. eapply c; eauto.
Qed.

(* If no two requests overlap in that way, a runner is told that an input does not
   exist only if it could not be had, gets it if it could, and nothing panics; and the
   reference to an input that was sent is released: already, or next. *)
Theorem C61_answers : forall es s i a, exec calm es s -> In (Responds i a) es ->
  a = NotFound /\ In (Fails i) es /\ ~ In (Acquires i) es \/ (a = Sent \/ a = SendError) /\ In (Acquires i) es /\ ~ In (Fails i) es.
Proof.
  intros es s i a H R. pose proof (known_exec _ _ _ H i _ R eq_refl) as K. destruct (nth_error (requests s) i) as [t|] eqn:T; [|congruence].
  pose proof (says_exec _ _ _ _ _ H T) as A. pose proof (calm_exec _ _ _ _ H T) as B.
  destruct t as [|[]| | |]; cbn in A, B; try (destruct A as (A1 & A2 & A3 & A4); exact (False_ind _ (A3 a R))).
  - right. destruct A as (A1 & A2 & A3 & A4). auto.
  - destruct B as [(B1 & B2 & B3 & B4)|(B1 & B2 & B3 & B4)]; [right|left]; auto.
Qed.
Theorem C61_released : forall es s i a, exec calm es s -> In (Acquires i) es -> In (Responds i a) es ->
  In (Releases i) es \/ exists s', step s (Releases i) s'.
Proof.
  intros es s i a H Q R. pose proof (known_exec _ _ _ H i _ R eq_refl) as K. destruct (nth_error (requests s) i) as [t|] eqn:T; [|congruence].
  pose proof (says_exec _ _ _ _ _ H T) as A. pose proof (calm_exec _ _ _ _ H T) as B.
  destruct t as [|[]| | |]; cbn in A, B; try (destruct A as (A1 & A2 & A3 & A4); exact (False_ind _ (A3 a R))).
  - right. eexists. apply releases. auto.
  - left. destruct B as [(B1 & B2 & B3 & B4)|(B1 & B2 & B3 & B4)]; [auto|contradiction].
Qed.
(* In every execution a reference is released at most once, and only if it was
   acquired. *)
Theorem C61_released_once : forall es s i es1 es2, exec (fun _ => True) es s -> es = es1 ++ [Releases i] ++ es2 ->
  In (Acquires i) es1 /\ ~ In (Releases i) es1.
Proof.
  intros es s i es1 es2 H. revert es1 es2. induction H as [|es s e s' H IH S1 _]; intros es1 es2 E; [destruct es1; discriminate|].
  destruct (@exists_last _ ([Releases i] ++ es2)) as (l & x & X); [discriminate|]. rewrite X, app_assoc in E. apply app_inj_tail in E. destruct E as [-> ->].
  destruct es2 as [|y es2].
  - destruct l as [|z l]; [|destruct l; discriminate]. injection X as <-. rewrite app_nil_r in H. inversion S1; subst.
    match goal with T : nth_error (requests _) _ = Some Releasing |- _ => destruct (says_exec _ _ _ _ _ H T) as (a & b & c & d) end. auto.
  - destruct l as [|z l]; [discriminate|]. cbn in X. injection X as <- X. eapply IH; eauto. reflexivity.
Qed.
Print Assumptions C61_answers.
Print Assumptions C61_released.
Print Assumptions C61_released_once.

(* ---- Executions ---- *)
Inductive steps (ok : state -> Prop) : state -> list event -> state -> Prop :=
| steps_nil : forall s, steps ok s [] s
| steps_cons : forall s e s1 es s2, step s e s1 -> ok s1 -> steps ok s1 es s2 -> steps ok s (e :: es) s2.
Lemma exec_steps ok es0 s0 es s : exec ok es0 s0 -> steps ok s0 es s -> exec ok (es0 ++ es) s.
Proof.
  intros E H. revert es0 E. induction H as [|s e s1 es s2 ST C H IH]; intros es0 E; [rewrite app_nil_r; auto|].
  replace (es0 ++ e :: es) with ((es0 ++ [e]) ++ es) by (rewrite <- app_assoc; reflexivity). apply IH. eapply exec_snoc; eauto.
Qed.
Lemma from_start ok es s : steps ok {| requests := []; err := false |} es s -> exec ok es s.
Proof. intros H. eapply (exec_steps ok []); [constructor|exact H]. Qed.
Definition is_added (t : stage) : bool := match t with Added _ => true | _ => false end.
Lemma count_calm s : length (List.filter is_added (requests s)) <= 1 -> calm s.
Proof.
  unfold calm. generalize (requests s) as l. intros l H i j a b. revert i j H.
  assert (POS : forall l j r, nth_error l j = Some (Added r) -> 1 <= length (List.filter is_added l)).
  { clear. induction l as [|t l IH]; intros [|j] r H; cbn in *; try discriminate; [injection H as ->; cbn; lia|apply IH in H; destruct (is_added t); cbn; lia]. }
  induction l as [|t l IH]; intros [|i] [|j] H A B; cbn in *; try discriminate; auto.
  - injection A as ->. cbn in H. apply POS in B. lia.
  - injection B as ->. cbn in H. apply POS in A. lia.
  - f_equal. apply IH; auto. destruct (is_added t); cbn in H; lia.
Qed.
Tactic Notation "go" uconstr(t) := eapply steps_cons; [eapply t; try reflexivity; auto | first [exact I | apply count_calm; cbn; lia] | cbn [requests err at_ app upd length]].
(* Two requests, calm: one input exists, one does not. *)
Example C61_met : exists es s, exec calm es s /\ In (Responds 0 Sent) es /\ In (Responds 1 NotFound) es /\ In (Releases 0) es.
Proof.
  eexists _, _. split.
  { apply from_start. go asks. go asks. go (adds _ 0). go (accepts _ 0). go (add_fails _ 1). go (sends _ 0 Sent). go (refuses _ 1). go (releases _ 0). apply steps_nil. }
  cbn. tauto.
Qed.
(* Otherwise a runner can be told that an input that exists does not, and its
   reference is never released: it stays in memory for ever. *)
Theorem C61_leak_refuted : exists es s, exec (fun _ => True) es s /\ In (Acquires 0) es /\ In (Responds 0 NotFound) es /\
  ~ In (Releases 0) es /\ forall e s', step s e s' -> exists i, e = Asks i.
Proof.
  eexists _, _. split.
  { apply from_start. go asks. go asks. go (adds _ 0). go (add_fails _ 1). go (refuses _ 0). go (refuses _ 1). apply steps_nil. }
  split; [cbn; tauto|]. split; [cbn; tauto|]. split; [cbn; intuition discriminate|].
  intros e s' H. inversion H; subst; eauto; exfalso;
    match goal with X : nth_error _ ?i = Some _ |- _ => destruct i as [|[|[|i]]]; cbn in X; try discriminate X end.
Qed.
(* And a request for an input that does not exist can panic. *)
Theorem C61_panic_refuted : exists es s, exec (fun _ => True) es s /\ In (Fails 0) es /\ In (Responds 0 Panicked) es.
Proof.
  eexists _, _. split.
  { apply from_start. go asks. go asks. go (add_fails _ 0). go (adds _ 1). go (derefs_nil _ 0). apply steps_nil. }
  cbn. tauto.
Qed.
Print Assumptions C61_leak_refuted.
Print Assumptions C61_panic_refuted.

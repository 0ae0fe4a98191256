From Coq Require Import List Arith NArith Bool Lia.
From Verif Require Import TokModel TokSpec TokProofs FoldModel FoldSpec.
Import ListNotations.
Local Open Scope N_scope.

Section F.
Variables canon SF : N -> N.
Hypothesis HS : simple_fold_for canon SF.
Hypothesis HA : ascii_case canon.

Lemma orbit_canon n : forall sr tr r, canon (orbit_loop SF n sr tr r) = canon r.
Proof.
  induction n as [|n IH]; intros; cbn; auto. destruct (_ && _); auto. rewrite IH. apply HS.
Qed.

Lemma orbit_reach n : forall sr tr r, canon r = canon tr -> sr < r -> r <= tr -> (N.to_nat (tr - r) <= n)%nat ->
  orbit_loop SF n sr tr r = tr.
Proof.
  induction n as [|n IH]; intros sr tr r HC H1 H2 HN; cbn.
  - lia.
  - destruct (N.eqb_spec r sr); [lia|]. cbn [negb andb]. destruct (N.ltb_spec r tr); [|lia].
    destruct (HS r) as [G1 [[G2 G3]|(G2 & G3 & G4)]].
    + specialize (G3 tr (eq_sym HC) H). apply IH; try lia; try congruence.
    + specialize (G3 tr (eq_sym HC)). lia.
Qed.

Lemma rune_eq_spec a b : rune_eq SF a b = true <-> canon a = canon b.
Proof.
  unfold rune_eq. destruct (N.eqb_spec b a) as [->|NE]; [tauto|].
  assert (G : forall sr tr, sr < tr ->
    (if tr <? 0x80 then (0x41 <=? sr) && (sr <=? 0x5A) && (tr =? sr + 0x20) else orbit_loop SF (N.to_nat tr) sr tr (SF sr) =? tr) = true <-> canon sr = canon tr).
  { intros sr tr HL. destruct (N.ltb_spec tr 128) as [Q|Q].
    - rewrite (HA sr tr HL Q). unfold upper. rewrite !andb_true_iff, !N.leb_le, N.eqb_eq. tauto.
    - rewrite N.eqb_eq. split.
      + intros E. rewrite <- E. rewrite orbit_canon. symmetry. apply HS.
      + intros E. destruct (HS sr) as [G1 [[G2 G3]|(G2 & G3 & G4)]].
        * specialize (G3 tr (eq_sym E) HL). apply orbit_reach; try lia; try congruence.
        * specialize (G3 tr (eq_sym E)). lia. }
  destruct (N.ltb_spec b a).
  - rewrite (G b a) by auto. split; congruence.
  - apply G. lia.
Qed.

Lemma equal_fold_spec n : forall a b, (length a < n)%nat -> (equal_fold SF n a b = true <-> same_caseless canon a b).
Proof.
  induction n as [|n IH]; intros a b HL; [lia|]. cbn [equal_fold]. unfold same_caseless.
  destruct a as [|x a], b as [|y b].
  - split; auto. constructor.
  - rewrite (chars_eq (y :: b)) by congruence. destruct (decode (y :: b)). split; [discriminate|intros H; inversion H].
  - rewrite (chars_eq (x :: a)) by congruence. destruct (decode (x :: a)). split; [discriminate|intros H; inversion H].
  - pose proof (decode_width (x :: a) ltac:(congruence)) as [[W1 W2] _].
    rewrite (chars_eq (x :: a)), (chars_eq (y :: b)) by congruence.
    destruct (decode (x :: a)) as [r w], (decode (y :: b)) as [r' w']. cbn [snd] in *.
    rewrite andb_true_iff, rune_eq_spec, IH by (rewrite skipn_length; lia). split.
    + intros [H1 H2]. constructor; auto.
    + intros H. inversion H; subst. auto.
Qed.
Lemma EqualFold_spec a b : EqualFold SF a b = true <-> same_caseless canon a b.
Proof. apply equal_fold_spec. lia. Qed.
End F.

Ltac cases := repeat match goal with
  | |- context [?x =? ?y] => destruct (N.eqb_spec x y)
  | |- context [?x <=? ?y] => destruct (N.leb_spec x y)
  | H : context [?x =? ?y] |- _ => destruct (N.eqb_spec x y)
  | H : context [?x <=? ?y] |- _ => destruct (N.leb_spec x y)
  end; cbn [andb] in *.
Lemma canon0_class x y : canon0 x = canon0 y ->
  x = y \/ (97 <= x <= 122 /\ y = x - 32) \/ (65 <= x <= 90 /\ y = x + 32).
Proof. unfold canon0. intros H. cases; lia. Qed.

Lemma fold0_ok : simple_fold_for canon0 SimpleFold0 /\ ascii_case canon0.
Proof.
  split.
  - intros r. split; [unfold canon0, SimpleFold0; cases; lia|].
    assert (D : (r < SimpleFold0 r) \/ (SimpleFold0 r <= r)) by lia. destruct D as [D|D]; [left|right]; (split; [exact D|]).
    + intros x Hx Hr. apply canon0_class in Hx. revert D. unfold SimpleFold0. cases; lia.
    + split; intros x Hx; apply canon0_class in Hx; revert D; unfold SimpleFold0; cases; lia.
  - intros x y H1 H2. unfold upper. split.
    + intros H. apply canon0_class in H. lia.
    + intros [H ->]. unfold canon0. cases; lia.
Qed.

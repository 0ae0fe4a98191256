(* Shared list utilities (no model content: plain mathematics). *)
From Coq Require Import List Arith Lia Bool Permutation.
Import ListNotations.

(* [upd l i x] is l with position i replaced by x (no effect when out of range). *)
Fixpoint upd {A} (l : list A) (i : nat) (x : A) : list A :=
  match l, i with
  | [], _ => []
  | _ :: t, 0 => x :: t
  | h :: t, S j => h :: upd t j x
  end.

Fixpoint sumf {A} (f : A -> nat) (l : list A) : nat :=
  match l with [] => 0 | x :: t => f x + sumf f t end.

Lemma upd_length {A} (l : list A) i x : length (upd l i x) = length l.
Proof. revert i; induction l as [|h t IH]; intros [|i]; simpl; auto. Qed.

Lemma nth_error_upd_eq {A} (l : list A) i x y :
  nth_error l i = Some y -> nth_error (upd l i x) i = Some x.
Proof. revert i; induction l as [|h t IH]; intros [|i]; simpl; intros H; try discriminate; auto. Qed.

Lemma nth_error_upd_lt {A} (l : list A) i x :
  i < length l -> nth_error (upd l i x) i = Some x.
Proof. revert i; induction l as [|h t IH]; intros [|i]; simpl; intros H; try lia; auto. apply IH; lia. Qed.

Lemma nth_error_upd_neq {A} (l : list A) i j x :
  i <> j -> nth_error (upd l i x) j = nth_error l j.
Proof.
  revert i j; induction l as [|h t IH]; intros [|i] [|j] H; simpl; auto; try lia.
Qed.

Lemma sumf_app {A} (f : A -> nat) l1 l2 : sumf f (l1 ++ l2) = sumf f l1 + sumf f l2.
Proof. induction l1; simpl; lia. Qed.

Lemma sumf_upd {A} (f : A -> nat) l i x y :
  nth_error l i = Some x -> sumf f (upd l i y) + f x = sumf f l + f y.
Proof.
  revert i; induction l as [|h t IH]; intros [|i]; simpl; intros H; try discriminate.
  - injection H as ->. lia.
  - specialize (IH _ H). lia.
Qed.

Lemma sumf_ge {A} (f : A -> nat) l i x :
  nth_error l i = Some x -> f x <= sumf f l.
Proof.
  revert i; induction l as [|h t IH]; intros [|i]; simpl; intros H; try discriminate.
  - injection H as ->. lia.
  - specialize (IH _ H). lia.
Qed.

Lemma sumf_le {A} (f g : A -> nat) l : (forall x, In x l -> f x <= g x) -> sumf f l <= sumf g l.
Proof.
  induction l as [|h t IH]; simpl; intros H; [lia|].
  pose proof (H h (or_introl eq_refl)). assert (sumf f t <= sumf g t) by (apply IH; auto). lia.
Qed.

Lemma sumf_ext {A} (f g : A -> nat) l : (forall x, In x l -> f x = g x) -> sumf f l = sumf g l.
Proof.
  induction l as [|h t IH]; simpl; intros H; [lia|].
  rewrite (H h) by auto. rewrite IH; auto.
Qed.

Lemma skipn_upd_le {A} (l : list A) i k x : k <= i -> skipn k (upd l i x) = upd (skipn k l) (i - k) x.
Proof.
  revert i k; induction l as [|h t IH]; intros i k H.
  - destruct k; reflexivity.
  - destruct k as [|k]; [rewrite Nat.sub_0_r; reflexivity|].
    destruct i as [|i]; [lia|]. cbn [upd skipn]. rewrite IH by lia. reflexivity.
Qed.

Lemma skipn_upd_gt {A} (l : list A) i k x : i < k -> skipn k (upd l i x) = skipn k l.
Proof.
  revert i k; induction l as [|h t IH]; intros i [|k] H; simpl; auto; try lia.
  destruct i as [|i]; simpl; [reflexivity|]. apply IH. lia.
Qed.

Lemma nth_error_skipn {A} (l : list A) k i : nth_error (skipn k l) i = nth_error l (k + i).
Proof. revert l; induction k as [|k IH]; intros [|h t]; simpl; auto. destruct i; auto. Qed.

Lemma nth_error_app_last {A} (l : list A) x : nth_error (l ++ [x]) (length l) = Some x.
Proof. rewrite nth_error_app2 by lia. rewrite Nat.sub_diag. reflexivity. Qed.

Lemma nth_error_app_old {A} (l : list A) x i y : nth_error l i = Some y -> nth_error (l ++ [x]) i = Some y.
Proof.
  intros H. rewrite nth_error_app1; auto. apply nth_error_Some. congruence.
Qed.

Lemma nth_error_app_inv {A} (l : list A) x i y :
  nth_error (l ++ [x]) i = Some y -> nth_error l i = Some y \/ (i = length l /\ y = x).
Proof.
  intros H. destruct (Nat.lt_ge_cases i (length l)) as [Hi|Hi].
  - rewrite nth_error_app1 in H by lia. auto.
  - right. rewrite nth_error_app2 in H by lia.
    destruct (i - length l) as [|n] eqn:E; simpl in H.
    + injection H as <-. split; [lia|reflexivity].
    + destruct n; discriminate.
Qed.

Lemma concat_upd_push {A} (qs : list (list A)) p q x :
  nth_error qs p = Some q -> Permutation (concat (upd qs p (q ++ [x]))) (x :: concat qs).
Proof.
  revert p; induction qs as [|h t IH]; intros [|p]; simpl; intros H; try discriminate.
  - injection H as ->. rewrite <- app_assoc. simpl. symmetry. apply Permutation_middle.
  - specialize (IH _ H). rewrite IH. symmetry. apply Permutation_middle.
Qed.

Lemma concat_upd_pop {A} (qs : list (list A)) p q x :
  nth_error qs p = Some (x :: q) -> Permutation (concat qs) (x :: concat (upd qs p q)).
Proof.
  revert p; induction qs as [|h t IH]; intros [|p]; simpl; intros H; try discriminate.
  - injection H as ->. reflexivity.
  - specialize (IH _ H). rewrite IH. symmetry. apply Permutation_middle.
Qed.

Lemma flat_map_upd_perm {A B} (f : A -> list B) l i x y :
  nth_error l i = Some x -> Permutation (f x ++ flat_map f (upd l i y)) (f y ++ flat_map f l).
Proof.
  revert i; induction l as [|h t IH]; intros [|i]; simpl; intros H; try discriminate.
  - injection H as ->. apply Permutation_app_swap_app.
  - specialize (IH _ H). rewrite Permutation_app_swap_app, IH. apply Permutation_app_swap_app.
Qed.

Lemma NoDup_map_inj {A B} (f : A -> B) l :
  (forall a b, In a l -> In b l -> f a = f b -> a = b) -> NoDup l -> NoDup (map f l).
Proof.
  intros HI HN. induction HN as [|x l Hx HN IH]; cbn; constructor.
  - intros Hf. apply in_map_iff in Hf. destruct Hf as (y & E & Hy). apply Hx.
    rewrite (HI x y); cbn; auto.
  - apply IH. intros a b Ha Hb. apply HI; cbn; auto.
Qed.

(* Proofs tying the outcomes of the queue's calls to the calls themselves. *)
From Coq Require Import List Arith Lia Bool Permutation.
From Verif Require Import GoBase QueueModel QueueSpec QueueProofs.
Import ListNotations.

Section Calls.
  Context {R : Type}.
  Notation state := (state R).

  Definition became0 (c : call) (th : thread R) : Prop := became c th \/ (c = CallGetRun /\ th = CPanic).

  Lemma forall2_upd {A B} (P : A -> B -> Prop) l l' i y y' :
    Forall2 P l l' -> nth_error l' i = Some y -> (forall x, P x y -> P x y') -> Forall2 P l (upd l' i y').
  Proof.
    intros F. revert i. induction F as [|a b l l' H F IH]; intros [|i] E X; cbn in *; try discriminate.
    - injection E as ->. constructor; auto.
    - constructor; eauto.
  Qed.

  Lemma chans_length s e : length (chans (fst (step s e : state * _))) = length (chans s).
  Proof.
    destruct e as [p r|p r| |t|t]; cbn [step fst spawn chans]; auto.
    - destruct (nth_error (threads s) t) as [[]|]; cbn [step_thread fst]; auto;
        repeat match goal with |- context [match ?x with _ => _ end] => destruct x end; cbn; rewrite ?upd_length; auto.
    - destruct (nth_error (threads s) t) as [[]|]; auto.
  Qed.

  Lemma calls_step s e cs : length (chans s) = QueueCount -> Forall2 became0 cs (threads s) ->
    Forall2 became0 (cs ++ call_of e) (threads (fst (step s e : state * _))).
  Proof.
    intros L F. unfold became0 in *.
    destruct e as [p r|p r| |t|t]; cbn [step fst spawn threads call_of]; rewrite ?app_nil_r.
    - apply Forall2_app; [exact F|]. repeat constructor.
    - apply Forall2_app; [exact F|]. repeat constructor.
    - apply Forall2_app; [exact F|]. repeat constructor.
    - assert (UP : forall th th', nth_error (threads s) t = Some th -> (forall c, became0 c th -> became0 c th') ->
        Forall2 became0 cs (upd (threads s) t th')) by (intros; eapply forall2_upd; eauto). unfold became0 in UP.
      assert (B : forall p (q : list R), nth_error (chans s) p = Some q -> p < QueueCount).
      { intros p q E. rewrite <- L. apply nth_error_Some. congruence. }
      destruct (nth_error (threads s) t) as [th|] eqn:Ht; [|exact F].
      destruct th as [p r|p r|p r|p r|p r|p r| |i|p r| |]; cbn [step_thread fst]; auto.
      + destruct (nth_error (chans s) p) as [q|] eqn:Hq.
        * destruct (length q <? cap s); cbn [fst threads]; auto.
          apply (UP _ _ eq_refl). intros c [X|[_ X]]; [left|discriminate]. destruct c; cbn in *.
          -- assert (p0 = p /\ r0 = r) as [-> ->] by (destruct X as [X|[X|[X|[X _]]]]; inversion X; auto). auto 6.
          -- destruct X as [X|[X|[X|[X|[X _]]]]]; inversion X.
          -- destruct X as [X|[[? X]|[(? & ? & X & _)|X]]]; discriminate.
        * cbn [fst threads set_thread]. apply (UP _ _ eq_refl). intros c [X|[_ X]]; [left|discriminate].
          apply nth_error_None in Hq. rewrite L in Hq. destruct c; cbn in *.
          -- assert (p0 = p /\ r0 = r) as [-> ->] by (destruct X as [X|[X|[X|[X _]]]]; inversion X; auto). auto 6.
          -- destruct X as [X|[X|[X|[X|[X _]]]]]; inversion X.
          -- destruct X as [X|[[? X]|[(? & ? & X & _)|X]]]; discriminate.
      + destruct (nth_error (chans s) p) as [q|] eqn:Hq.
        * destruct (length q <? cap s); cbn [fst threads set_thread]; apply (UP _ _ eq_refl);
            intros c [X|[_ X]]; try discriminate; left; destruct c; cbn in *.
          -- destruct X as [X|[X|[X|[X _]]]]; inversion X.
          -- assert (p0 = p /\ r0 = r) as [-> ->] by (destruct X as [X|[X|[X|[X|[X _]]]]]; inversion X; auto). auto 6.
          -- destruct X as [X|[[? X]|[(? & ? & X & _)|X]]]; discriminate.
          -- destruct X as [X|[X|[X|[X _]]]]; inversion X.
          -- assert (p0 = p /\ r0 = r) as [-> ->] by (destruct X as [X|[X|[X|[X|[X _]]]]]; inversion X; auto). auto 6.
          -- destruct X as [X|[[? X]|[(? & ? & X & _)|X]]]; discriminate.
        * cbn [fst threads set_thread]. apply (UP _ _ eq_refl). intros c [X|[_ X]]; [left|discriminate].
          apply nth_error_None in Hq. rewrite L in Hq. destruct c; cbn in *.
          -- destruct X as [X|[X|[X|[X _]]]]; inversion X.
          -- assert (p0 = p /\ r0 = r) as [-> ->] by (destruct X as [X|[X|[X|[X|[X _]]]]]; inversion X; auto). auto 7.
          -- destruct X as [X|[[? X]|[(? & ? & X & _)|X]]]; discriminate.
      + destruct (tokens s <? _); cbn [fst threads]; auto. apply (UP _ _ eq_refl).
        intros c [X|[_ X]]; try discriminate; left; destruct c; cbn in *.
        * assert (p0 = p /\ r0 = r) as [-> ->] by (destruct X as [X|[X|[X|[X _]]]]; inversion X; auto). auto 6.
        * assert (p0 = p /\ r0 = r) as [-> ->] by (destruct X as [X|[X|[X|[X|[X _]]]]]; inversion X; auto). auto 6.
        * destruct X as [X|[[? X]|[(? & ? & X & _)|X]]]; discriminate.
      + destruct (tokens s); cbn [fst threads]; auto. apply (UP _ _ eq_refl).
        intros c [X|[_ X]]; try discriminate; left; destruct c; cbn in *.
        * destruct X as [X|[X|[X|[X _]]]]; inversion X.
        * destruct X as [X|[X|[X|[X|[X _]]]]]; inversion X.
        * right. left. eauto.
      + destruct (nth_error (chans s) i) as [[|r q]|] eqn:Hq; cbn [fst threads set_thread]; apply (UP _ _ eq_refl);
          intros c [X|[_ X]]; try discriminate; destruct c; cbn in *;
          try (destruct X as [X|[X|[X|[X _]]]]; inversion X; fail); try (destruct X as [X|[X|[X|[X|[X _]]]]]; inversion X; fail).
        * left. right. left. eauto.
        * left. right. right. left. eauto 6.
        * right. auto.
    - destruct (nth_error (threads s) t) as [[]|] eqn:Ht; auto. cbn [fst threads set_thread].
      eapply forall2_upd; eauto. intros c [X|[_ X]]; try discriminate; left; destruct c; cbn in *;
        try (destruct X as [X|[X|[X|[X _]]]]; inversion X; fail); try (destruct X as [X|[X|[X|[X|[X _]]]]]; inversion X; fail). auto.
  Qed.

  Lemma calls_exec es : forall s cs, length (chans s) = QueueCount -> Forall2 became0 cs (threads s) ->
    Forall2 became0 (cs ++ calls es) (threads (fst (exec s es : state * _))).
  Proof.
    induction es as [|e es IH]; intros s cs L F; [cbn; rewrite app_nil_r; exact F|].
    rewrite exec_cons. cbn [fst]. unfold calls. cbn [flat_map]. rewrite app_assoc. apply IH.
    - rewrite chans_length. exact L.
    - apply calls_step; assumption.
  Qed.

  Lemma outcomes_l n es : Forall2 became (calls es) (threads (fst (exec (init R n) es))).
  Proof.
    pose proof (calls_exec es (init R n) [] eq_refl (Forall2_nil _)) as F. cbn [app] in F.
    assert (N : ~ In CPanic (threads (fst (exec (init R n) es)))) by (apply (getrun_never_panics_l n); eexists; reflexivity).
    revert F N. generalize (threads (fst (exec (init R n) es))). induction 1 as [|c th cs ths H F IH]; intros N; constructor.
    - destruct H as [H|[_ ->]]; [exact H|]. exfalso. apply N. left. reflexivity.
    - apply IH. intros X. apply N. right. exact X.
  Qed.

  (* Abandoned calls. *)
  Lemma gone_step s e t : nth_error (threads (fst (step s e : state * _))) t = Some CGone ->
    nth_error (threads s) t = Some CGone \/ e = EGone t.
  Proof.
    assert (UP : forall t' th, th <> CGone -> nth_error (upd (threads s) t' th) t = Some CGone -> nth_error (threads s) t = Some CGone).
    { intros t' th N E. destruct (Nat.eq_dec t' t) as [->|D]; [|rewrite nth_error_upd_neq in E by auto; exact E].
      destruct (nth_error (threads s) t) as [y|] eqn:Y.
      - erewrite nth_error_upd_eq in E by eauto. congruence.
      - apply nth_error_None in Y. assert (t < length (upd (threads s) t th)) by (apply nth_error_Some; congruence).
        rewrite upd_length in H. lia. }
    assert (SP : forall th, th <> CGone -> nth_error (threads s ++ [th]) t = Some CGone -> nth_error (threads s) t = Some CGone).
    { intros th N E. destruct (Nat.lt_ge_cases t (length (threads s))) as [L|L]; [rewrite nth_error_app1 in E by lia; exact E|].
      rewrite nth_error_app2 in E by lia. destruct (t - length (threads s)) as [|k]; cbn in E; [congruence|destruct k; discriminate]. }
    destruct e as [p r|p r| |t'|t']; cbn [step fst spawn threads].
    - intros E. left. eapply SP; [|exact E]; discriminate.
    - intros E. left. eapply SP; [|exact E]; discriminate.
    - intros E. left. eapply SP; [|exact E]; discriminate.
    - destruct (nth_error (threads s) t') as [[]|]; cbn [step_thread fst]; auto;
        repeat match goal with |- context [match ?x with _ => _ end] => destruct x end; cbn; intros E; left;
        first [exact E | eapply UP; [|exact E]; discriminate].
    - destruct (nth_error (threads s) t') as [[]|] eqn:H; auto. cbn. intros E. destruct (Nat.eq_dec t' t) as [->|D]; auto.
      left. rewrite nth_error_upd_neq in E by auto. exact E.
  Qed.

  Lemma gone_exec es : forall s t, nth_error (threads (fst (exec s es : state * _))) t = Some CGone ->
    nth_error (threads s) t = Some CGone \/ In (EGone t) es.
  Proof.
    induction es as [|e es IH]; intros s t; [cbn; auto|]. rewrite exec_cons. cbn [fst]. intros E.
    destruct (IH _ _ E) as [X|X]; [|right; right; exact X]. destruct (gone_step _ _ _ X) as [Y|Y]; [left; exact Y|right; left; exact Y].
  Qed.

  (* Insertions and removals are those of the calls. *)
  Definition putf (p : nat) (th : thread R) : list R :=
    match th with PSent q r | PDone q r => if Nat.eqb p q then [r] else [] | _ => [] end.
  Definition gotf (p : nat) (th : thread R) : list R :=
    match th with CGot q r => if Nat.eqb p q then [r] else [] | _ => [] end.

  Lemma perm_upd {B} (f : thread R -> list B) l i x y z : nth_error l i = Some x -> f x = [] -> f y = z ->
    Permutation (flat_map f (upd l i y)) (flat_map f l ++ z).
  Proof.
    intros H X Y. subst z. revert i H. induction l as [|h l IH]; intros [|i] H; cbn in *; try discriminate.
    - injection H as ->. rewrite X. cbn. apply Permutation_app_comm.
    - rewrite (IH _ H). rewrite app_assoc. reflexivity.
  Qed.

  Lemma obs_step (s : state) (e : event R) p :
    Permutation (put_into p (fst (step s e))) (put_into p s ++ inserted p (snd (step s e))) /\
    Permutation (got_from p (fst (step s e))) (got_from p s ++ removed p (snd (step s e))).
  Proof.
    unfold put_into, got_from, inserted, removed. fold (putf p) (gotf p).
    destruct e as [p0 r|p0 r| |t|t]; cbn [step fst snd spawn threads flat_map]; rewrite ?flat_map_app; cbn [flat_map putf gotf];
      rewrite ?app_nil_r; auto.
    - destruct (nth_error (threads s) t) as [th|] eqn:Ht; [|cbn; rewrite !app_nil_r; auto].
      destruct th as [p0 r|p0 r|p0 r|p0 r|p0 r|p0 r| |i|p0 r| |]; cbn [step_thread fst snd];
        repeat match goal with |- context [match ?x with _ => _ end] =>
          lazymatch x with _ =? _ => fail | _ => destruct x eqn:? end end;
        cbn [fst snd threads set_thread flat_map]; rewrite ?app_nil_r; auto;
        split; try (erewrite flat_map_upd_same by (eauto; reflexivity); rewrite ?app_nil_r; reflexivity);
        eapply perm_upd; eauto.
    - destruct (nth_error (threads s) t) as [[]|] eqn:Ht; cbn; rewrite ?app_nil_r; auto.
      split; erewrite flat_map_upd_same by (eauto; reflexivity); reflexivity.
  Qed.

  Lemma obs_exec (es : list (event R)) p : forall s : state,
    Permutation (put_into p (fst (exec s es))) (put_into p s ++ inserted p (snd (exec s es))) /\
    Permutation (got_from p (fst (exec s es))) (got_from p s ++ removed p (snd (exec s es))).
  Proof.
    induction es as [|e es IH]; intros s; [cbn; rewrite !app_nil_r; auto|].
    rewrite exec_cons. cbn [fst snd]. destruct (IH (fst (step s e))) as [A B]. destruct (obs_step s e p) as [C D].
    unfold inserted, removed in *. rewrite !flat_map_app, A, B, C, D, !app_assoc. auto.
  Qed.

  Lemma obs_l n (es : list (event R)) p :
    Permutation (inserted p (snd (exec (init R n) es))) (put_into p (fst (exec (init R n) es))) /\
    Permutation (removed p (snd (exec (init R n) es))) (got_from p (fst (exec (init R n) es))).
  Proof. destruct (obs_exec es p (init R n)) as [A B]. split; symmetry; assumption. Qed.

  Lemma gone_l n es t : nth_error (threads (fst (exec (init R n) es))) t = Some CGone -> In (EGone t) es.
  Proof. intros E. destruct (gone_exec _ _ _ E) as [X|X]; [destruct t; discriminate|exact X]. Qed.
End Calls.

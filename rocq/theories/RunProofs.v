From Coq Require Import List Arith ZArith NArith Bool Lia.
From Verif Require Import GoBase RunModel RunSpec.
Import ListNotations.

Lemma Forall_upd {A} (P : A -> Prop) l i x : Forall P l -> P x -> Forall P (upd l i x).
Proof. intros H Hx. revert i. induction H; intros [|i]; simpl; constructor; auto. Qed.

Lemma Forall_snoc {A} (P : A -> Prop) l x : Forall P l -> P x -> Forall P (l ++ [x]).
Proof. intros. apply Forall_app; auto. Qed.

Lemma nth_error_Forall {A} (P : A -> Prop) l i x : Forall P l -> nth_error l i = Some x -> P x.
Proof. intros H E. rewrite Forall_forall in H. apply H. eapply nth_error_In; eauto. Qed.

Lemma Forall_filter {A} (P : A -> Prop) f l : Forall P l -> Forall P (filter f l).
Proof. induction 1; simpl; auto. destruct (f x); auto. Qed.

Lemma Forall_remove_nth {A} (P : A -> Prop) n l : Forall P l -> Forall P (firstn n l ++ skipn (S n) l).
Proof.
  intros H. rewrite Forall_forall in *. intros x Hx. apply H. apply in_app_or in Hx.
  destruct Hx as [Hx|Hx].
  - rewrite <- (firstn_skipn n l). apply in_or_app. auto.
  - rewrite <- (firstn_skipn (S n) l). apply in_or_app. auto.
Qed.

Definition timer_of (p : pc) : option nat :=
  match p with
  | TConn i | TRdy i | TSend i | TDrain i | TFin i => Some i
  | RQ0 _ _ k | RQ0b _ _ k | RQ1 _ _ k | RQ2 _ _ k | RQ3 _ k | RQ4 _ k
  | CL0 _ k | CL1 _ k | CL1b _ k | CL1c _ k | CL2 _ _ k | CL3 _ _ k | CL4 _ k =>
    match k with KTimer i => Some i | KEnd => None end
  | _ => None
  end.

Definition okp (nr ni : nat) (p : pc) : Prop :=
  (forall r, worker p = Some r -> r < nr) /\ (forall i, timer_of p = Some i -> i < ni).

Record Valid (s : state) : Prop := {
  V_q : Forall (fun r => r < length (runs s)) (queue s);
  V_i : Forall (fun x => irun x < length (runs s)) (inflights s);
  V_t : Forall (okp (length (runs s)) (length (inflights s))) (threads s);
  V_m : Forall (fun e => snd e < length (inflights s)) (mapping s)
}.

Lemma okp_mono nr ni nr' ni' p : okp nr ni p -> nr <= nr' -> ni <= ni' -> okp nr' ni' p.
Proof. intros [A B] L1 L2. split; intros; [apply A in H|apply B in H]; lia. Qed.

Lemma okp_nil nr ni p : worker p = None -> timer_of p = None -> okp nr ni p.
Proof. intros A B. split; intros; congruence. Qed.

Lemma remove_shape s a :
  length (runs (remove s a)) = length (runs s) /\ length (inflights (remove s a)) = length (inflights s) /\
  threads (remove s a) = threads s /\ queue (remove s a) = queue s /\ counter (remove s a) = counter s.
Proof.
  unfold remove. destruct (mget (mapping s) a) as [i|]; auto.
  destruct (nth_error (inflights s) i) as [x|]; auto. cbn.
  destruct (nth_error (runs s) (irun x)); rewrite ?upd_length; auto.
Qed.

Lemma map_upd_same {A B} (f : A -> B) l i x y : nth_error l i = Some x -> f y = f x -> map f (upd l i y) = map f l.
Proof.
  revert i; induction l as [|h t IH]; intros [|i]; simpl; intros H E; try discriminate.
  - injection H as ->. congruence.
  - erewrite IH; eauto.
Qed.

(* Everything of a run except its monitor field. *)
Definition core (x : rstate) := (maxtries x, attempt x, tries x, (closedF x, runningF x), (nrunning x, nready x, npost x)).

Lemma remove_core s a : map core (runs (remove s a)) = map core (runs s).
Proof.
  unfold remove. destruct (mget (mapping s) a) as [i|]; auto.
  destruct (nth_error (inflights s) i) as [x|]; auto. cbn.
  destruct (nth_error (runs s) (irun x)) as [y|] eqn:E; auto.
  eapply map_upd_same; eauto.
Qed.

Lemma remove_irun s a : map irun (inflights (remove s a)) = map irun (inflights s).
Proof.
  unfold remove. destruct (mget (mapping s) a) as [i|]; auto.
  destruct (nth_error (inflights s) i) as [x|] eqn:E; auto. cbn.
  eapply map_upd_same; eauto.
Qed.

Lemma remove_iatt s a : map iatt (inflights (remove s a)) = map iatt (inflights s).
Proof.
  unfold remove. destruct (mget (mapping s) a) as [i|]; auto.
  destruct (nth_error (inflights s) i) as [x|] eqn:E; auto. cbn.
  eapply map_upd_same; eauto.
Qed.

Lemma Forall_map_eq {A B} (f : A -> B) (P : B -> Prop) l l' :
  map f l' = map f l -> Forall (fun x => P (f x)) l -> Forall (fun x => P (f x)) l'.
Proof.
  intros E H. apply Forall_map. rewrite E. apply Forall_map. exact H.
Qed.

Lemma remove_valid s a : Valid s -> Valid (remove s a).
Proof.
  intros [A B C D]. destruct (remove_shape s a) as (E1 & E2 & E3 & E4 & _).
  split; rewrite ?E1, ?E2, ?E3, ?E4; auto.
  - apply (Forall_map_eq irun (fun r => r < length (runs s)) (inflights s)); auto using remove_irun.
  - unfold remove. destruct (mget (mapping s) a) as [i|]; auto.
    destruct (nth_error (inflights s) i) as [x|]; auto. cbn. apply Forall_filter; auto.
Qed.

Lemma set_thread_valid s t p : Valid s -> okp (length (runs s)) (length (inflights s)) p -> Valid (set_thread s t p).
Proof. intros [A B C D] H. split; cbn; auto. apply Forall_upd; auto. Qed.

Lemma set_run_valid s r x : Valid s -> Valid (set_run s r x).
Proof. intros [A B C D]. split; cbn; rewrite ?upd_length; auto. Qed.

Lemma set_inf_valid s i x y : Valid s -> nth_error (inflights s) i = Some x -> irun y = irun x -> Valid (set_inf s i y).
Proof.
  intros [A B C D] E F. split; cbn; rewrite ?upd_length; auto.
  apply Forall_upd; auto. rewrite F. apply (nth_error_Forall _ _ _ _ B E).
Qed.

Ltac okp_tac H :=
  let A := fresh in let B := fresh in destruct H as [A B]; split; cbn in *;
  let v := fresh in let E := fresh in intros v E; try (injection E as E; subst); try congruence; eauto.

Lemma valid_step s e : Valid s -> Valid (step s e).
Proof.
  intros HV. destruct e as [m|n|a|t ch]; cbn [step].
  - destruct HV as [A B C D]. split; cbn; rewrite ?app_length; cbn; auto.
    + apply Forall_snoc; [|lia]. eapply Forall_impl; [|exact A]. cbn; intros; lia.
    + eapply Forall_impl; [|exact B]. cbn; intros; lia.
    + eapply Forall_impl; [|exact C]. intros p Hp. eapply okp_mono; eauto; lia.
  - destruct (nth_error (queue s) n) as [r|] eqn:E; auto.
    destruct HV as [A B C D]. split; cbn; auto.
    + apply Forall_remove_nth; auto.
    + apply Forall_snoc; auto. split; cbn; [|discriminate]. intros r' E'. injection E' as <-.
      apply (nth_error_Forall _ _ _ _ A E).
  - destruct (mget (mapping s) a) as [i|]; auto.
    destruct (nth_error (inflights s) i) as [x|] eqn:E; auto.
    pose proof (set_inf_valid s i x (mkI (irun x) (iatt x) true (iready x) (tmo x) (ntclose x)) HV E eq_refl) as [A B C D].
    split; cbn in *; auto. apply Forall_snoc; auto. split; cbn; [|discriminate]. intros r' E'. injection E' as <-.
    destruct HV as [_ B' _ _]. apply (nth_error_Forall _ _ _ _ B' E).
  - destruct (nth_error (threads s) t) as [p|] eqn:Ht; auto.
    pose proof (nth_error_Forall _ _ _ _ (V_t _ HV) Ht) as Hp.
    assert (RES : forall k, (forall i, (match k with KTimer i => Some i | KEnd => None end) = Some i -> i < length (inflights s)) ->
              okp (length (runs s)) (length (inflights s)) (resume k)).
    { intros [|i] H; split; cbn; intros v E; try discriminate. injection E as <-. apply H; reflexivity. }
    destruct p; cbn [step_thread]; auto.
    all: repeat match goal with
      | |- Valid (match nth_error (runs ?s) ?r with _ => _ end) => destruct (nth_error (runs s) r) as [x|] eqn:?; [|assumption]
      | |- Valid (match nth_error (inflights ?s) ?r with _ => _ end) => destruct (nth_error (inflights s) r) as [x|] eqn:?; [|assumption]
      | |- Valid (match ?ch with ChTrue => _ | _ => _ end) => destruct ch
      | |- Valid (if ?b then _ else _) => destruct b eqn:?
      | |- Valid _ => assumption
      end.
    all: try (apply set_thread_valid; [try apply set_run_valid; try (eapply set_inf_valid; [|eassumption|reflexivity]); auto|
         cbn; rewrite ?upd_length; try (okp_tac Hp; fail)]).
    + (* GR1 *)
      destruct HV as [A B C D]. split; cbn; rewrite ?upd_length, ?app_length; cbn; auto.
      * apply Forall_snoc; auto. cbn. apply Hp. reflexivity.
      * apply Forall_snoc; [apply Forall_upd|].
        -- eapply Forall_impl; [|exact C]. intros p Hp'. eapply okp_mono; eauto; lia.
        -- apply okp_nil; reflexivity.
        -- split; cbn; [discriminate|]. intros i E. injection E as <-. lia.
      * constructor; [cbn; lia|]. apply Forall_filter. eapply Forall_impl; [|exact D]. cbn; intros; lia.
    + (* TConn fire *)
      split; cbn; intros v E; injection E as <-; [|apply Hp; reflexivity].
      apply (nth_error_Forall _ _ _ _ (V_i _ HV) Heqo).
    + split; cbn; intros v E; injection E as <-; [|apply Hp; reflexivity].
      apply (nth_error_Forall _ _ _ _ (V_i _ HV) Heqo).
    + destruct (mon x); okp_tac Hp.
    + apply remove_valid; auto.
    + destruct (remove_shape s (attempt x)) as (-> & -> & _). okp_tac Hp.
    + destruct (_ <=? _)%Z; okp_tac Hp.
    + split; destruct last; cbn; auto; try apply HV; rewrite ?upd_length; apply HV.
    + destruct last; cbn; rewrite ?upd_length; okp_tac Hp.
    + split; cbn; rewrite ?upd_length; apply HV.
    + split; cbn; [apply Forall_snoc; [apply HV|apply Hp; reflexivity]|apply HV..].
    + apply RES. apply Hp.
    + split; cbn; [apply Forall_snoc; [apply HV|apply Hp; reflexivity]|apply HV..].
    + apply RES. apply Hp.
    + apply RES. apply Hp.
    + destruct (mon x); okp_tac Hp.
    + destruct (mon x); okp_tac Hp.
    + apply remove_valid; auto.
    + destruct (remove_shape s (attempt x)) as (-> & -> & _). okp_tac Hp.
    + apply RES. apply Hp.
    + destruct pp; [okp_tac Hp|apply RES, Hp].
    + apply RES. apply Hp.
Qed.

Lemma exec_snoc s es e : exec s (es ++ [e]) = step (exec s es) e.
Proof. unfold exec. rewrite fold_left_app. reflexivity. Qed.

Lemma valid_init c : Valid (init c).
Proof. split; constructor. Qed.

Lemma reachable_ind (P : state -> Prop) :
  (forall c, P (init c)) -> (forall s e, Valid s -> P s -> P (step s e)) -> forall s, reachable s -> P s.
Proof.
  intros H0 HS s (c & es & ->).
  assert (H : Valid (exec (init c) es) /\ P (exec (init c) es)).
  { induction es as [|e es IH] using rev_ind.
    - split; [apply valid_init|apply H0].
    - rewrite exec_snoc. destruct IH. split; [apply valid_step|apply HS]; auto. }
  apply H.
Qed.

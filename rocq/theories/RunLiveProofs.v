(* Every run comes to an end: a measure for all schedules, and progress without races. *)
From Coq Require Import List Arith ZArith NArith Bool Lia.
From Verif Require Import GoBase RunModel RunSpec RunProofs RunBoundsProofs RunLinProofs RunLinFacts RunTimerProofs RunLiveSpec.
Import ListNotations.

Definition size (p : pc) : nat :=
  match p with
  | Done | Panic | TDrain _ => 0 | TFin _ | TSend _ => 1
  | CL4 _ _ => 2 | CL3 _ _ _ => 3 | CL2 _ _ _ => 4 | CL1c _ _ => 5 | CL1b _ _ => 6 | CL1 _ _ => 7 | CL0 _ _ => 8
  | RQ4 _ _ => 9 | RQ3 _ _ => 10 | RQ2 _ _ _ => 11 | RQ1 _ _ _ => 12 | RQ0b _ _ _ => 13 | RQ0 _ _ _ => 14
  | HProc _ => 15 | TRdy _ => 15 | TConn _ => 16 | GR1 _ => 17 | GR0 _ => 18
  end.
Definition getting (p : pc) : nat := match p with GR0 _ | GR1 _ => 1 | _ => 0 end.
Definition budget (s : state) : nat := sumf (fun x => Nat.max 1 (maxtries x)) (runs s).
Definition handed (s : state) : nat := length (inflights s) + sumf getting (threads s).

(* ---- sums over runs ---- *)
Lemma sum_at n j : j < n -> sumf (fun r => at_ r j) (seq 0 n) = 1.
Proof.
  assert (G : forall n a, sumf (fun r => at_ r j) (seq a n) = if (a <=? j) && (j <? a + n) then 1 else 0).
  { clear. induction n as [|n IH]; intros a; cbn [seq sumf]. - destruct (Nat.leb_spec a j), (Nat.ltb_spec j (a + 0)); cbn; lia.
    - rewrite IH. unfold at_. destruct (Nat.eqb_spec j a), (Nat.leb_spec (S a) j), (Nat.ltb_spec j (S a + n)), (Nat.leb_spec a j), (Nat.ltb_spec j (a + S n)); cbn; lia. }
  intros H. rewrite G. destruct (Nat.leb_spec 0 j), (Nat.ltb_spec j (0 + n)); cbn; lia.
Qed.
Lemma sumf_add {A} (f g : A -> nat) l : sumf (fun x => f x + g x) l = sumf f l + sumf g l.
Proof. induction l; cbn; lia. Qed.
Lemma sumf_0 {A} (l : list A) : sumf (fun _ => 0) l = 0.
Proof. induction l; cbn; auto. Qed.
(* each element of l belongs to at most one run *)
Lemma sum_swap {A} (g : A -> option nat) l n : (forall x j, In x l -> g x = Some j -> j < n) ->
  sumf (fun r => sumf (fun x => match g x with Some j => at_ r j | None => 0 end) l) (seq 0 n) = sumf (fun x => match g x with Some _ => 1 | None => 0 end) l.
Proof.
  induction l as [|x l IH]; intros H; cbn [sumf]; [apply sumf_0|]. rewrite sumf_add, IH by (intros; eapply H; cbn; eauto). f_equal.
  destruct (g x) as [j|] eqn:E; [apply sum_at; eapply H; cbn; eauto|apply sumf_0].
Qed.
Lemma sum_nth {A} (f : A -> nat) l : sumf f l = sumf (fun r => match nth_error l r with Some x => f x | None => 0 end) (seq 0 (length l)).
Proof.
  assert (G : forall (h : nat -> nat) n, sumf h (seq 1 n) = sumf (fun r => h (S r)) (seq 0 n)).
  { intros h n. rewrite <- seq_shift. induction (seq 0 n); cbn; auto. }
  induction l as [|x l IH]; [reflexivity|]. cbn [length seq sumf nth_error]. rewrite G, IH. reflexivity.
Qed.
Lemma room s : reachable s -> handed s + length (queue s) <= budget s.
Proof.
  intros HR. pose proof (reachable_valid _ HR) as HV. unfold handed, budget. rewrite (sum_nth _ (runs s)).
  set (n := length (runs s)).
  assert (I : length (inflights s) = sumf (fun r => hand r (inflights s)) (seq 0 n)).
  { unfold hand. rewrite (sum_swap (fun x => Some (irun x)) (inflights s) n).
    - induction (inflights s); cbn; auto.
    - intros x j H [= <-]. pose proof (V_i _ HV) as F. rewrite Forall_forall in F. apply F. auto. }
  assert (Q : length (queue s) = sumf (fun r => queued s r) (seq 0 n)).
  { unfold queued. transitivity (sumf (fun r => sumf (fun x => match Some x with Some j => at_ r j | None => 0 end) (queue s)) (seq 0 n)).
    - rewrite (sum_swap (fun x => Some x)); [induction (queue s); cbn; auto|]. intros x j H [= <-]. pose proof (V_q _ HV) as F. rewrite Forall_forall in F. apply F. auto.
    - apply sumf_ext. intros r _. induction (queue s) as [|x l IH]; cbn; auto. rewrite IH. unfold at_. destruct (Nat.eq_dec x r), (Nat.eqb_spec x r); lia. }
  assert (P : sumf getting (threads s) <= sumf (fun r => sumf (pendq r) (threads s)) (seq 0 n)).
  { transitivity (sumf (fun r => sumf (fun p => match (match p with GR0 j | GR1 j => Some j | _ => None end) with Some j => at_ r j | None => 0 end) (threads s)) (seq 0 n)).
    - rewrite (sum_swap (fun p => match p with GR0 j | GR1 j => Some j | _ => None end)).
      + apply sumf_le. intros p _. destruct p; cbn; lia.
      + intros p j H E. pose proof (V_t _ HV) as F. rewrite Forall_forall in F. destruct (F p H) as [W _]. apply W. destruct p; cbn in *; congruence.
    - apply sumf_le. intros r _. apply sumf_le. intros p _. destruct p; cbn; lia. }
  rewrite I, Q. 
  transitivity (sumf (fun r => hand r (inflights s)) (seq 0 n) + sumf (fun r => sumf (pendq r) (threads s)) (seq 0 n) + sumf (fun r => queued s r) (seq 0 n)); [lia|].
  rewrite <- !sumf_add. apply sumf_le. intros r H. apply in_seq in H.
  destruct (nth_error (runs s) r) as [x|] eqn:E; [|apply nth_error_None in E; fold n in E; lia].
  destruct (J_reachable _ HR _ _ E) as (_ & _ & _ & _ & B). unfold B0, M in B. lia.
Qed.
Lemma remove_budget s a : budget (remove s a) = budget s.
Proof.
  unfold budget. pose proof (remove_core s a) as E. revert E. generalize (runs (remove s a)), (runs s). induction l as [|x l IH]; intros [|y l0] E; cbn [map sumf] in *; try discriminate; auto.
  assert (E2 : map core l = map core l0) by congruence. rewrite (IH _ E2). f_equal. unfold core in E. congruence.
Qed.
Definition mu (s : state) : nat := 19 * (budget s - handed s) + sumf size (threads s).
Lemma upd_budget s r x y : nth_error (runs s) r = Some x -> maxtries y = maxtries x -> sumf (fun x => Nat.max 1 (maxtries x)) (upd (runs s) r y) = budget s.
Proof. intros E M. unfold budget. pose proof (sumf_upd (fun x => Nat.max 1 (maxtries x)) _ _ _ y E) as H. cbv beta in H. rewrite M in H. lia. Qed.
Lemma size_resume k : size (resume k) <= 1.
Proof. destruct k; cbn; lia. Qed.
Lemma getting_resume k : getting (resume k) = 0.
Proof. destruct k; reflexivity. Qed.
Lemma mu_thread s s' t p p' : nth_error (threads s) t = Some p -> threads s' = upd (threads s) t p' -> budget s' = budget s -> length (inflights s') = length (inflights s) ->
  getting p' = getting p -> size p' < size p -> mu s' < mu s.
Proof.
  intros Ht E B I G Z. unfold mu, handed. rewrite E, B, I. pose proof (sumf_upd getting _ _ _ p' Ht). pose proof (sumf_upd size _ _ _ p' Ht). nia.
Qed.
Lemma decreases s e : reachable s -> step s e <> s -> mu (step s e) + 1 <= mu s + sets_off e.
Proof.
  intros HR NE. pose proof (room _ HR) as R0. pose proof (room _ (reachable_step _ e HR)) as R1.
  destruct e as [m|n|a|t ch]; cbn [sets_off].
  - unfold mu, budget, handed. cbn [step]. unfold new_run. cbn [runs inflights threads]. rewrite sumf_app. cbn [sumf maxtries]. unfold handed, budget in *. lia.
  - cbn [step] in *. destruct (nth_error (queue s) n) as [r|] eqn:E; [|congruence]. unfold mu, budget, handed. cbn [runs inflights threads]. rewrite !sumf_app. cbn [sumf getting size].
    assert (1 <= length (queue s)) by (destruct (queue s); [destruct n; discriminate|cbn; lia]). unfold handed, budget in *. lia.
  - cbn [step] in *. destruct (mget (mapping s) a) as [i|]; [|congruence]. destruct (nth_error (inflights s) i) as [x|] eqn:E; [|congruence].
    unfold mu, budget, handed. cbn [runs inflights threads spawn set_inf]. rewrite upd_length, !sumf_app. cbn [sumf getting size]. lia.
  - enough (mu (step s (EStep t ch)) < mu s) by lia. cbn [step] in *. destruct (nth_error (threads s) t) as [p|] eqn:Ht; [|congruence].
    assert (SR : forall k, size (resume k) < 2) by (intros k; pose proof (size_resume k); lia).
    destruct p; cbn [step_thread] in *;
    repeat match goal with
      | H : context [match nth_error ?l ?r with _ => _ end] |- _ => destruct (nth_error l r) eqn:?
      | H : context [match ch with ChTrue => _ | _ => _ end] |- _ => destruct ch
      | H : context [if ?b then _ else _] |- _ => destruct b eqn:?
      end; try congruence;
    try (eapply mu_thread; [exact Ht|unfold set_thread, set_run, set_inf; cbn [threads]; rewrite ?(proj1 (proj2 (proj2 (remove_shape _ _)))); reflexivity| | | |];
         [first [reflexivity | apply remove_budget | unfold budget at 1; cbn [runs set_thread set_run set_inf]; eapply upd_budget; [eassumption|reflexivity]]
         |unfold set_thread, set_run, set_inf; cbn [inflights]; rewrite ?upd_length, ?(proj1 (proj2 (remove_shape _ _))); reflexivity
         |cbn; rewrite ?getting_resume; reflexivity
         |cbn; try (match goal with |- context [size (resume ?k)] => specialize (SR k) end); cbn in *; try lia]; fail).
    (* GR1 *)
    unfold mu, handed. unfold budget at 1. cbn [runs inflights threads]. rewrite (upd_budget s _ _ (with_mon r0 true) Heqo eq_refl), app_length, !sumf_app. cbn [sumf size getting length].
    pose proof (sumf_upd getting _ _ _ Done Ht) as A. pose proof (sumf_upd size _ _ _ Done Ht) as B. cbn [getting size] in A, B. lia.
Qed.
Lemma bounded es : forall s, reachable s -> moves s es -> mu (exec s es) + length es <= mu s + sumf sets_off es.
Proof.
  induction es as [|e es IH]; intros s HR M; cbn [moves sumf length] in *; [cbn; lia|]. destruct M as [NE M].
  rewrite exec_cons. specialize (IH _ (reachable_step _ e HR) M). pose proof (decreases _ _ HR NE). lia.
Qed.

(* ---- timers of the attempts in flight ---- *)
Definition timing (i r : nat) (p : pc) : Prop :=
  p = TConn i \/ p = TRdy i \/ exists last, p = RQ0 r last (KTimer i) \/ p = RQ0b r last (KTimer i).
Definition G (s : state) : Prop := forall a i y, mget (mapping s) a = Some i -> nth_error (inflights s) i = Some y ->
  iready y = false /\ exists t p, nth_error (threads s) t = Some p /\ timing i (irun y) p.
Lemma G_frame s s' t p p' : G s -> nth_error (threads s) t = Some p -> threads s' = upd (threads s) t p' ->
  (forall a i, mget (mapping s') a = Some i -> mget (mapping s) a = Some i) ->
  (forall a i y', mget (mapping s') a = Some i -> nth_error (inflights s') i = Some y' ->
     exists y, nth_error (inflights s) i = Some y /\ irun y' = irun y /\ (iready y = false -> iready y' = false) /\ (iready y = false -> timing i (irun y) p -> timing i (irun y) p')) ->
  G s'.
Proof.
  intros HG Ht E M I a i y' Ha Hy'. destruct (I a i y' Ha Hy') as (y & Hy & R & RD & TM). destruct (HG a i y (M _ _ Ha) Hy) as (F & t' & q & Hq & Tq).
  split; [auto|]. rewrite R. destruct (Nat.eq_dec t' t) as [->|N].
  - exists t, p'. split; [rewrite E; eapply nth_error_upd_eq; eauto|]. apply TM; auto. congruence.
  - exists t', q. split; [rewrite E, nth_error_upd_neq; auto|auto].
Qed.
Lemma G_set s t p p' : G s -> nth_error (threads s) t = Some p -> (forall i r, timing i r p -> timing i r p') -> G (set_thread s t p').
Proof. intros HG Ht T. apply (G_frame s (set_thread s t p') t p p' HG Ht eq_refl); [auto|]. intros a i y' Ha Hy. exists y'. cbn in *. auto. Qed.
Lemma G_set_run s t p p' s' : G s -> nth_error (threads s) t = Some p -> threads s' = upd (threads s) t p' -> mapping s' = mapping s -> inflights s' = inflights s ->
  (forall i r, timing i r p -> timing i r p') -> G s'.
Proof. intros HG Ht E1 E2 E3 T. apply (G_frame s _ t p p' HG Ht E1). - rewrite E2. auto. - rewrite E2, E3. intros a i y' Ha Hy. exists y'. auto. Qed.
Lemma no_timing i r p : timer_of p <> Some i \/ (worker p <> Some r /\ worker p <> None) -> ~ timing i r p.
Proof. intros N [->|[->|(l & [->| ->])]]; cbn in N; destruct N as [N|[N N']]; congruence. Qed.
Ltac notim := intros ? ? [E|[E|(? & [E|E])]]; discriminate.
Lemma not_timing p : match p with TConn _ | TRdy _ | RQ0 _ _ _ | RQ0b _ _ _ => False | _ => True end -> forall i r, ~ timing i r p.
Proof. intros N i r [->|[->|(l & [->| ->])]]; auto. Qed.
(* removing the attempt of a run *)
Lemma G_remove s t p p' r x : L s -> G s -> nth_error (threads s) t = Some p -> nth_error (runs s) r = Some x -> mon x = true ->
  (forall i r', timing i r' p -> r' = r) -> G (set_thread (remove s (attempt x)) t p').
Proof.
  intros HL HG Ht Hx HM HP. destruct (L_mon _ HL r x Hx HM) as (i0 & y0 & A1 & A2 & A3 & A4).
  assert (ME : mapping (remove s (attempt x)) = mdel (mapping s) (attempt x)) by (unfold remove; rewrite A1, A2; reflexivity).
  assert (IE : inflights (remove s (attempt x)) = upd (inflights s) i0 (mkI (irun y0) (iatt y0) true true (tmo y0) (ntclose y0))) by (unfold remove; rewrite A1, A2; reflexivity).
  assert (NI : forall a i, mget (mdel (mapping s) (attempt x)) a = Some i -> mget (mapping s) a = Some i /\ i <> i0).
  { intros a i E. rewrite mget_mdel in E. destruct (N.eqb_spec (attempt x) a); [discriminate|]. split; [auto|]. intros ->.
    destruct (L_map _ HL a i0 E) as (y & x' & B1 & B2 & _). congruence. }
  eapply G_frame; [exact HG|exact Ht| | |].
  - cbn [threads set_thread]. rewrite (proj1 (proj2 (proj2 (remove_shape s (attempt x))))). reflexivity.
  - cbn [mapping set_thread]. rewrite ME. intros a i E. apply NI. auto.
  - cbn [mapping inflights set_thread]. rewrite ME, IE. intros a i y' E Hy. destruct (NI a i E) as [E' N]. rewrite nth_error_upd_neq in Hy by auto.
    exists y'. split; [auto|]. split; [auto|]. split; [auto|]. intros _ T. exfalso. apply HP in T.
    destruct (L_map _ HL a i E') as (y & x' & B1 & B2 & B3 & B4 & B5). assert (y = y') by congruence. subst y. rewrite T in B3. assert (x' = x) by congruence. subst x'.
    rewrite B4 in A1. rewrite E' in A1. congruence.
Qed.
Lemma G_inf s t p p' i y z : G s -> nth_error (threads s) t = Some p -> nth_error (inflights s) i = Some y -> irun z = irun y -> (iready y = false -> iready z = false) ->
  (forall j r, (j = i -> iready y = false) -> timing j r p -> timing j r p') -> G (set_thread (set_inf s i z) t p').
Proof.
  intros HG Ht Hy R I T. eapply G_frame; [exact HG|exact Ht|reflexivity|auto|]. cbn [mapping inflights set_thread set_inf]. intros a j y' E Hj.
  destruct (Nat.eq_dec j i) as [->|N].
  - rewrite (nth_error_upd_eq _ _ _ _ Hy) in Hj. injection Hj as <-. exists y. split; [auto|]. split; [auto|]. split; [auto|]. intros F. apply T. auto.
  - rewrite nth_error_upd_neq in Hj by auto. exists y'. split; [auto|]. split; [auto|]. split; [auto|]. intros F. apply T. intros. congruence.
Qed.
Lemma G_step s e : Valid s -> L s -> race_free s e -> G s -> G (step s e).
Proof.
  intros HV HL RF HG. destruct e as [m|n|a|t ch]; cbn [step].
  - exact HG.
  - destruct (nth_error (queue s) n) as [r|]; [|auto]. intros a i y Ha Hy. cbn [mapping inflights threads] in *. destruct (HG a i y Ha Hy) as (F & t & p & Hp & T).
    split; [auto|]. exists t, p. split; [apply nth_error_app_old; auto|auto].
  - destruct (mget (mapping s) a) as [i|] eqn:Ea; [|auto]. destruct (nth_error (inflights s) i) as [x|] eqn:Ex; [|auto].
    intros b j y Hb Hy. cbn [mapping inflights threads spawn set_inf] in *.
    assert (Y : exists y0, nth_error (inflights s) j = Some y0 /\ irun y = irun y0 /\ iready y = iready y0).
    { destruct (Nat.eq_dec j i) as [->|N]; [rewrite (nth_error_upd_eq _ _ _ _ Ex) in Hy; injection Hy as <-; exists x; auto|rewrite nth_error_upd_neq in Hy by auto; exists y; auto]. }
    destruct Y as (y0 & Hy0 & R & I). destruct (HG b j y0 Hb Hy0) as (F & t & p & Hp & T). rewrite R, I. split; [auto|]. exists t, p. split; [apply nth_error_app_old; auto|auto].
  - destruct (nth_error (threads s) t) as [p|] eqn:Ht; [|auto].
    destruct p; cbn [step_thread];
    repeat match goal with
      | |- context [match nth_error ?l ?r with _ => _ end] => destruct (nth_error l r) eqn:?
      | |- context [match ch with ChTrue => _ | _ => _ end] => destruct ch
      | |- context [if ?b then _ else _] => destruct b eqn:?
      end; auto;
    try (eapply G_set_run; [exact HG|exact Ht|reflexivity|reflexivity|reflexivity|intros ix rx TT; exfalso; revert TT; apply not_timing; exact Logic.I]; fail).
    + (* GR1 *)
      intros a i y Ha Hy. cbn [mapping inflights threads] in *. rewrite mget_mset in Ha. destruct (N.eqb_spec (attempt r0) a) as [<-|N].
      * injection Ha as <-. rewrite nth_error_app2, Nat.sub_diag in Hy by auto. injection Hy as <-. split; [auto|].
        exists (length (threads s)), (TConn (length (inflights s))). split; [|left; auto].
        rewrite nth_error_app2 by (rewrite upd_length; auto). rewrite upd_length, Nat.sub_diag. reflexivity.
      * destruct (L_map _ HL a i Ha) as (y0 & x0 & B1 & B2 & _). assert (Y : y = y0) by (rewrite (nth_error_app_old _ _ _ _ B1) in Hy; congruence). subst y0.
        destruct (HG a i y Ha B1) as (F & t' & p & Hp & T). split; [auto|]. exists t', p. split; [|auto]. apply nth_error_app_old.
        destruct (Nat.eq_dec t t') as [->|]; [|rewrite nth_error_upd_neq; auto]. assert (p = GR1 r) by congruence. subst p. elim (not_timing (GR1 r) Logic.I _ _ T).
    + apply (G_frame s (set_thread s t (RQ0 (irun i0) false (KTimer i))) t _ _ HG Ht eq_refl); [auto|]. cbn [mapping inflights set_thread]. intros a j y Ha Hy. exists y. repeat split; auto.
      intros _ T. destruct T as [E|[E|(l & [E|E])]]; try discriminate. injection E as <-. assert (y = i0) by congruence. subst y. right. right. exists false. auto.
    + eapply G_inf; [exact HG|exact Ht|eassumption|reflexivity|auto|]. intros j r F T. destruct T as [E|[E|(l & [E|E])]]; try discriminate. injection E as <-. right. left. auto.
    + eapply G_inf; [exact HG|exact Ht|eassumption|reflexivity|auto|]. intros j r F T. destruct T as [E|[E|(l & [E|E])]]; try discriminate. injection E as <-. right. left. auto.
    + apply (G_frame s (set_thread s t (RQ0 (irun i0) false (KTimer i))) t _ _ HG Ht eq_refl); [auto|]. cbn [mapping inflights set_thread]. intros a j y Ha Hy. exists y. repeat split; auto.
      intros _ T. destruct T as [E|[E|(l & [E|E])]]; try discriminate. injection E as <-. assert (y = i0) by congruence. subst y. right. right. exists false. auto.
    + eapply G_inf; [exact HG|exact Ht|eassumption|reflexivity|auto|]. intros j r F T. destruct T as [E|[E|(l & [E|E])]]; try discriminate. injection E as <-. specialize (F eq_refl). congruence.
    + eapply G_inf; [exact HG|exact Ht|eassumption|reflexivity|auto|]. intros j r F T. destruct T as [E|[E|(l & [E|E])]]; try discriminate. injection E as <-. specialize (F eq_refl). congruence.
    + eapply G_inf; [exact HG|exact Ht|eassumption|reflexivity|auto|]. intros j r F T. elim (not_timing (TSend i) Logic.I _ _ T).
    + eapply G_inf; [exact HG|exact Ht|eassumption|reflexivity|auto|]. intros j r F T. elim (not_timing (TFin i) Logic.I _ _ T).
    + eapply G_set; [exact HG|exact Ht|]. intros j r1 T. destruct T as [E|[E|(l & [E|E])]]; try discriminate. injection E as -> -> ->. right. right. exists l. auto.
    + destruct (L_pc _ HL t _ r r0 Ht eq_refl Heqo) as [M _]. congruence.
    + eapply (G_remove s t _ _ r r0 HL HG Ht Heqo); [auto|]. intros j r1 T. destruct T as [E|[E|(l & [E|E])]]; try discriminate. congruence.
    + destruct (L_pc _ HL t _ r r0 Ht eq_refl Heqo) as [M _]. congruence.
    + eapply (G_remove s t _ _ r r0 HL HG Ht Heqo); [auto|]. intros j r1 T. elim (not_timing (CL1c r k) Logic.I _ _ T).
Qed.
Lemma G_exec es : forall s, (counter s + N.of_nat (length es) < 2 ^ 64)%N -> Valid s -> L s -> G s -> race_free_exec s es -> G (exec s es).
Proof.
  induction es as [|e es IH]; intros s HN HV HL HG HR; [auto|]. cbn [race_free_exec length] in *. destruct HR as [HR HR']. rewrite exec_cons.
  assert (HN1 : (counter s + 1 < 2 ^ 64)%N) by lia. pose proof (counter_step s e HN1).
  apply IH; [lia|apply valid_step; auto|apply L_step; auto|apply G_step; auto|auto].
Qed.
(* ---- progress ---- *)
Lemma changed s s' t p : nth_error (threads s) t = Some p -> nth_error (threads s') t <> Some p -> s' <> s.
Proof. intros H N E. subst. auto. Qed.
Lemma resume_worker k : worker (resume k) = None.
Proof. destruct k; reflexivity. Qed.
Lemma worker_moves s t p r : Valid s -> nth_error (threads s) t = Some p -> worker p = Some r -> step s (EStep t ChFalse) <> s.
Proof.
  intros HV Ht W. eapply changed; [exact Ht|]. cbn [step]. rewrite Ht.
  assert (K : r < length (runs s)) by (pose proof (nth_error_Forall _ _ _ _ (V_t _ HV) Ht) as [A _]; auto).
  assert (U : forall (l : list pc) p', length l = length (threads s) -> nth_error (upd l t p') t = Some p').
  { intros l p' E. assert (t < length l) by (rewrite E; apply nth_error_Some; congruence). destruct (nth_error l t) eqn:F; [eapply nth_error_upd_eq; eauto|apply nth_error_None in F; lia]. }
  destruct (nth_error (runs s) r) as [x|] eqn:Hx; [|apply nth_error_None in Hx; lia].
  destruct p; cbn in W; try discriminate; injection W as ->; cbn [step_thread]; rewrite ?Hx;
  repeat match goal with |- context [if ?b then _ else _] => destruct b end; cbn [threads set_thread set_run];
  rewrite ?(proj1 (proj2 (proj2 (remove_shape _ _)))), ?U by auto; try discriminate;
  try (intros E; apply (f_equal (fun o => match o with Some p => worker p | None => None end)) in E; rewrite resume_worker in E; discriminate).
  rewrite nth_error_app1 by (rewrite upd_length; apply nth_error_Some; congruence). rewrite U by auto. discriminate.
Qed.
Lemma sumf_pos {A} (f : A -> nat) l : 0 < sumf f l -> exists i x, nth_error l i = Some x /\ 0 < f x.
Proof.
  induction l as [|x l IH]; cbn; [lia|]. intros H. destruct (Nat.eq_dec (f x) 0) as [E|E]; [|exists 0, x; split; [auto|lia]].
  destruct IH as (i & y & E1 & E2); [lia|]. exists (S i), y. auto.
Qed.
Lemma progress s r x : Valid s -> L s -> G s -> nth_error (runs s) r = Some x -> closedF x = false \/ workers s r <> 0 ->
  exists e, internal e /\ race_free s e /\ step s e <> s.
Proof.
  intros HV HL HG Hx C.
  destruct (Nat.eq_dec (workers s r) 0) as [W|W].
  2: { destruct (sumf_pos (works_on r) (threads s)) as (t & p & Ht & P); [unfold workers in W; lia|].
       assert (Wp : worker p = Some r) by (unfold works_on in P; destruct (worker p) as [r'|]; [destruct (Nat.eqb_spec r' r); [congruence|lia]|lia]).
       exists (EStep t ChFalse). split; [exact Logic.I|]. split; [exact Logic.I|]. eapply worker_moves; eauto. }
  destruct C as [C|C]; [|lia].
  destruct (Nat.eq_dec (queued s r) 0) as [Q|Q].
  - destruct (L_rest _ HL r x Hx) as [[M _]|[_ M]]; [lia| |congruence].
    destruct (L_mon _ HL r x Hx M) as (i & y & A1 & A2 & A3 & A4). destruct (HG _ _ _ A1 A2) as (F & t & p & Hp & T).
    exists (EStep t ChTrue). split; [exact Logic.I|].
    assert (NW : forall q, nth_error (threads s) t = Some q -> worker q <> Some r).
    { intros q Hq E. pose proof (sumf_ge (works_on r) _ _ _ Hq) as S. rewrite works_on_eq in S by auto. unfold workers in W. lia. }
    assert (P : p = TConn i \/ p = TRdy i).
    { destruct T as [T|[T|(l & T)]]; auto. exfalso. apply (NW _ Hp). rewrite A3 in T. destruct T as [-> | ->]; reflexivity. }
    split.
    + cbn. intros j z [E|E] Hz; assert (j = i) by (destruct P; congruence); subst j; assert (z = y) by congruence; subst z; rewrite A3, A4; auto.
    + eapply changed; [exact Hp|]. cbn [step]. rewrite Hp. destruct P as [-> | ->]; cbn [step_thread]; rewrite A2; cbn [threads set_thread]; rewrite (nth_error_upd_eq _ _ _ _ Hp); discriminate.
  - assert (I : In r (queue s)) by (apply (count_occ_In Nat.eq_dec); unfold queued in Q; lia). apply In_nth_error in I as (n & I).
    exists (EGetRun n). split; [exact Logic.I|]. split; [exact Logic.I|]. cbn [step]. rewrite I. intros E. apply (f_equal (fun s => length (threads s))) in E. cbn in E. rewrite app_length in E. cbn in E. lia.
Qed.
(* ---- coming to an end ---- *)
Lemma states c0 es : (c0 + N.of_nat (length es) < 2 ^ 64)%N -> race_free_exec (init c0) es ->
  let s := exec (init c0) es in reachable s /\ Valid s /\ L s /\ G s.
Proof.
  intros HN HR. cbn zeta. split; [exists c0, es; auto|]. destruct (L_exec es (init c0) HN (valid_init _) (init_L _) HR) as [HV HL]. split; [auto|]. split; [auto|].
  apply G_exec; auto using valid_init, init_L. intros a i y E. discriminate.
Qed.
Lemma all_or_not s : (forall r x, nth_error (runs s) r = Some x -> closedF x = true /\ workers s r = 0) \/ exists r x, nth_error (runs s) r = Some x /\ (closedF x = false \/ workers s r <> 0).
Proof.
  assert (K : forall k, (forall r x, r < k -> nth_error (runs s) r = Some x -> closedF x = true /\ workers s r = 0) \/ exists r x, nth_error (runs s) r = Some x /\ (closedF x = false \/ workers s r <> 0)).
  { induction k as [|k [A|B]]; [left; intros; lia| |auto]. destruct (nth_error (runs s) k) as [x|] eqn:E.
    - destruct (closedF x) eqn:C; [|right; exists k, x; auto]. destruct (Nat.eq_dec (workers s k) 0) as [W|W]; [|right; exists k, x; auto].
      left. intros r y Hr Hy. destruct (Nat.eq_dec r k) as [->|]; [assert (y = x) by congruence; subst; auto|]. apply A; auto. lia.
    - left. intros r y Hr Hy. destruct (Nat.eq_dec r k) as [->|]; [congruence|]. apply A; auto. lia. }
  destruct (K (length (runs s))) as [A|B]; [left|auto]. intros r x E. apply A; auto. apply nth_error_Some. congruence.
Qed.
Lemma can_end n : forall s, mu s <= n -> reachable s -> Valid s -> L s -> G s -> (counter s + N.of_nat n < 2 ^ 64)%N ->
  exists es, Forall internal es /\ race_free_exec s es /\ moves s es /\
    forall r x, nth_error (runs (exec s es)) r = Some x -> closedF x = true /\ workers (exec s es) r = 0.
Proof.
  induction n as [|n IH]; intros s LE HR HV HL HG HN.
  all: destruct (all_or_not s) as [D|(r & x & Hx & C)]; [exists []; split; [constructor|]; split; [exact Logic.I|]; split; [exact Logic.I|exact D]|].
  all: destruct (progress s r x HV HL HG Hx C) as (e & I & RF & NE); pose proof (decreases s e HR NE) as DE; assert (sets_off e = 0) by (destruct e; cbn in *; tauto || auto).
  - lia.
  - assert (HN1 : (counter s + 1 < 2 ^ 64)%N) by lia. pose proof (counter_step s e HN1) as CS.
    destruct (IH (step s e)) as (es & A1 & A2 & A3 & A4); [lia|apply reachable_step; auto|apply valid_step; auto|apply L_step; auto|apply G_step; auto|lia|].
    exists (e :: es). split; [constructor; auto|]. split; [split; auto|]. split; [split; auto|]. rewrite exec_cons. exact A4.
Qed.

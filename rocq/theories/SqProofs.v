From Coq Require Import String List Arith ZArith NArith Bool Permutation Lia.
From Verif Require Import GoBase RunModel RunSpec RunProofs RunLinProofs RunLinFacts TrcModel SqModel SqSpec.
Import ListNotations.
Local Open Scope nat_scope.

Lemma base_step x e : base (sq_step x e) = RunModel.step (base x) (base_event e).
Proof.
  destruct e as [m q p id guid|n runner|a|t ch]; cbn [sq_step base_event]; try reflexivity.
  - destruct (nth_error (queue (base x)) n); reflexivity.
  - destruct (nth_error (threads (base x)) t) as [[]|]; reflexivity.
Qed.
Lemma base_exec es : forall x, base (sq_exec x es) = RunModel.exec (base x) (bases es).
Proof.
  induction es as [|e es IH]; intros x; [reflexivity|].
  cbn [sq_exec]. rewrite IH, base_step. reflexivity.
Qed.
Lemma sq_exec_app a : forall x b, sq_exec x (a ++ b) = sq_exec (sq_exec x a) b.
Proof. induction a as [|e a IH]; intros; cbn [sq_exec app]; auto. Qed.
Lemma bases_app a b : bases (a ++ b) = bases a ++ bases b.
Proof. apply map_app. Qed.

(* ---- what one step of a goroutine leaves alone ---- *)
Lemma remove_mget s a b i : mget (mapping (remove s a)) b = Some i -> mget (mapping s) b = Some i.
Proof.
  unfold remove. destruct (mget (mapping s) a) as [j|]; auto.
  destruct (nth_error (inflights s) j); auto. cbn [mapping]. rewrite mget_mdel.
  destruct (N.eqb a b); congruence.
Qed.
Lemma keys_mdel m a : NoDup (map fst m) -> NoDup (map fst (mdel m a)).
Proof.
  unfold mdel. induction m as [|[k v] m IH]; intros H; [exact H|]. cbn [map fst] in H. inversion_clear H.
  cbn [filter fst]. destruct (negb (N.eqb k a)); [|auto]. cbn [map fst]. constructor; [|auto].
  intros X. apply H0. apply in_map_iff in X. destruct X as (e & E & X). apply filter_In in X.
  apply in_map_iff. exists e. tauto.
Qed.
Lemma keys_mset m a i : NoDup (map fst m) -> NoDup (map fst (mset m a i)).
Proof.
  intros H. unfold mset. cbn [map fst]. constructor; [|apply keys_mdel; exact H].
  intros X. apply in_map_iff in X. destruct X as (e & E & X). unfold mdel in X. apply filter_In in X.
  destruct X as [_ X]. rewrite E, N.eqb_refl in X. discriminate.
Qed.
Lemma keys_remove s a : NoDup (map fst (mapping s)) -> NoDup (map fst (mapping (remove s a))).
Proof.
  intros H. unfold remove. destruct (mget (mapping s) a); auto. destruct (nth_error (inflights s) n); auto.
  cbn [mapping]. apply keys_mdel; exact H.
Qed.
Lemma mget_in m a i : NoDup (map fst m) -> (In (a, i) m <-> mget m a = Some i).
Proof.
  unfold mget. induction m as [|[k v] m IH]; intros H; cbn [find fst]; [split; [intros []|discriminate]|].
  cbn [map fst] in H. inversion_clear H. destruct (N.eqb_spec k a) as [E|E].
  - subst k. split.
    + intros [X|X]; [injection X as <-; reflexivity|]. destruct H0. apply in_map_iff. exists (a, i). auto.
    + intros X. injection X as <-. left. reflexivity.
  - rewrite <- IH by auto. cbn [In]. split; [intros [X|X]; [congruence|exact X]|auto].
Qed.

Definition is_gr (p : pc) (r : nat) : Prop := p = GR0 r \/ p = GR1 r.
Lemma resume_gr k r : ~ is_gr (resume k) r.
Proof. destruct k; intros [X|X]; discriminate. Qed.

Definition quiet (s s' : RunModel.state) : Prop :=
  List.length (runs s') = List.length (runs s) /\ map irun (inflights s') = map irun (inflights s) /\
  (forall a i, mget (mapping s') a = Some i -> mget (mapping s) a = Some i) /\
  (NoDup (map fst (mapping s)) -> NoDup (map fst (mapping s'))).

Lemma quiet_remove s a : quiet s (remove s a).
Proof.
  destruct (remove_shape s a) as (A & _). split; [exact A|]. split; [apply remove_irun|].
  split; [intros; eapply remove_mget; eassumption|apply keys_remove].
Qed.

Lemma set_inf_irun s i x y : nth_error (inflights s) i = Some x -> irun y = irun x ->
  map irun (upd (inflights s) i y) = map irun (inflights s).
Proof. intros H E. apply map_upd_same with (x := x); auto. Qed.

Lemma gr_upd l t p p0 r : nth_error (upd l t p0) t = Some p -> is_gr p r -> (is_gr p0 r -> False) -> False.
Proof.
  intros H G N. destruct (nth_error l t) as [q|] eqn:E.
  - rewrite (nth_error_upd_eq _ _ _ _ E) in H. injection H as <-. auto.
  - apply nth_error_None in E. assert (X : nth_error (upd l t p0) t = None) by (apply nth_error_None; rewrite upd_length; exact E). congruence.
Qed.

Definition gr_threads (l l' : list pc) (t : nat) (p : pc) : Prop :=
  forall t0 p0 r, nth_error l' t0 = Some p0 -> is_gr p0 r -> exists p1, nth_error l t0 = Some p1 /\ is_gr p1 r.

Lemma gr_threads_upd l t p p' : nth_error l t = Some p -> (forall r, is_gr p' r -> is_gr p r) -> gr_threads l (upd l t p') t p.
Proof.
  intros H N t0 p0 r Ht G. destruct (Nat.eq_dec t t0) as [<-|D].
  - rewrite (nth_error_upd_eq _ _ _ _ H) in Ht. injection Ht as <-. exists p. auto.
  - rewrite nth_error_upd_neq in Ht by exact D. exists p0. auto.
Qed.
Lemma gr_threads_id l t p : gr_threads l l t p.
Proof. intros t0 p0 r H G. exists p0. auto. Qed.

Ltac grt := first [apply gr_threads_id
  | eapply gr_threads_upd; [eassumption|intros ? G; solve [exfalso; revert G; apply resume_gr | destruct G as [G|G]; discriminate G
      | destruct G as [G|G]; inversion G; subst; (left; reflexivity) ]]].

Lemma quiet_refl s : quiet s s.
Proof. repeat split; auto. Qed.
Lemma quiet_shape s c l q th m inf :
  List.length l = List.length (runs s) -> map irun inf = map irun (inflights s) -> m = mapping s ->
  quiet s (mkS c l q m inf th).
Proof. intros A B ->. split; [exact A|split; [exact B|split; auto]]. Qed.
Lemma quiet_thread s z t p : quiet s z -> quiet s (set_thread z t p).
Proof. intros H; exact H. Qed.
Ltac qt := solve [apply quiet_refl
  | apply quiet_thread; assumption
  | unfold set_thread, set_run, set_inf; cbn [runs queue threads mapping inflights counter]; apply quiet_shape;
    [rewrite ?upd_length; reflexivity|solve [reflexivity | eapply set_inf_irun; [eassumption|reflexivity]]|reflexivity]].

(* A step of a goroutine that is not registering a run. *)
Lemma step_other s t p ch : nth_error (threads s) t = Some p -> (forall r, p <> GR1 r) ->
  let s' := step_thread s t p ch in
  quiet s s' /\ gr_threads (threads s) (threads s') t p /\
  queue s' = match p with
             | RQ4 r _ => match ch with ChTrue => queue s | _ => queue s ++ [r] end
             | _ => queue s end.
Proof.
  intros H N. destruct p; cbn [step_thread]; try (exfalso; eapply N; reflexivity).
  all: repeat match goal with
       | |- context [nth_error ?l ?i] => let E := fresh "E" in destruct (nth_error l i) eqn:E
       | |- context [match ?c with ChTrue => _ | ChFalse => _ | ChLast => _ end] => destruct c
       | |- context [if ?b then _ else _] => let B := fresh "B" in destruct b eqn:B
       end.
  all: cbv zeta; cbn [set_thread set_run set_inf queue threads runs inflights mapping];
       repeat match goal with |- context [remove ?s0 ?a] =>
         let R := fresh "R" in let Q := fresh "Q" in let z := fresh "z" in
         pose proof (remove_shape s0 a) as R; destruct R as (_ & _ & ?R1 & ?R2 & _);
         pose proof (quiet_remove s0 a) as Q; remember (remove s0 a) as z;
         match goal with R1 : threads z = _, R2 : queue z = _ |- _ => rewrite ?R1, ?R2 end end.
  all: split; [|split; [try solve [grt]|try reflexivity]].
  all: qt.
Qed.

(* ---- the bookkeeping of the model matches the runs ---- *)
Record Inv (x : sq) : Prop := {
  i_valid : Valid (base x);
  i_chans : map fst (chans x) = queue (base x);
  i_homes : List.length (homes x) = List.length (runs (base x));
  i_ids : List.length (ids x) = List.length (runs (base x));
  i_guids : List.length (guids x) = List.length (runs (base x));
  i_names : List.length (names x) = List.length (inflights (base x));
  i_keys : NoDup (map fst (mapping (base x)))
}.

Lemma inv_init c0 : Inv (sq_init c0).
Proof. constructor; try reflexivity; [apply valid_init|constructor]. Qed.

Lemma map_drop_nth {A B} (f : A -> B) n l : map f (drop_nth n l) = drop_nth n (map f l).
Proof. unfold drop_nth. rewrite map_app, firstn_map, skipn_map. reflexivity. Qed.

Lemma same_len {A B C} (f : A -> C) (g : B -> C) l m : map f l = map g m -> List.length l = List.length m.
Proof. intros H. rewrite <- (map_length f l), H. apply map_length. Qed.

Lemma result_shape s a :
  let s' := RunModel.step s (EResult a) in
  runs s' = runs s /\ queue s' = queue s /\ mapping s' = mapping s /\ map irun (inflights s') = map irun (inflights s) /\
  (threads s' = threads s \/ exists r, threads s' = threads s ++ [HProc r]).
Proof.
  cbn [RunModel.step]. destruct (mget (mapping s) a) as [i|]; [|repeat split; auto].
  destruct (nth_error (inflights s) i) as [y|] eqn:E; [|repeat split; auto].
  unfold spawn, set_inf. cbn [runs queue mapping inflights threads]. repeat split; auto; [|eauto].
  eapply set_inf_irun; [eassumption|reflexivity].
Qed.

Lemma inv_step x e : Inv x -> Inv (sq_step x e).
Proof.
  intros [V C H I G N K].
  assert (V' : Valid (base (sq_step x e))) by (rewrite base_step; apply valid_step; exact V).
  destruct e as [m q p id guid|n runner|a|t ch]; cbn [sq_step base_event] in *.
  - constructor; cbn [base chans homes ids guids names RunModel.step new_run runs queue inflights mapping] in *;
      rewrite ?map_app, ?app_length; cbn [map fst List.length] in *; try congruence; try lia; auto.
  - cbn [RunModel.step] in *. destruct (nth_error (queue (base x)) n) as [r|] eqn:E;
      constructor; cbn [base chans homes ids guids names runs queue inflights mapping] in *; auto.
    rewrite map_drop_nth, C. reflexivity.
  - pose proof (result_shape (base x) a) as S. cbv zeta in S. destruct S as (S1 & S2 & S3 & S4 & _).
    set (s' := RunModel.step (base x) (EResult a)) in *.
    constructor; cbn [base chans homes ids guids names] in *; rewrite ?S1, ?S2, ?S3; auto.
    rewrite N. symmetry. eapply same_len. exact S4.
  - destruct (nth_error (threads (base x)) t) as [p|] eqn:E.
    2:{ cbn [RunModel.step] in *. rewrite E in *. constructor; auto. }
    assert (R1 : RunModel.step (base x) (EStep t ch) = step_thread (base x) t p ch) by (cbn [RunModel.step]; rewrite E; reflexivity).
    rewrite R1 in *. clear R1.
    destruct (match p with GR1 r => true | _ => false end) eqn:P.
    + destruct p; try discriminate. cbn [step_thread base] in *.
      assert (B : r < List.length (runs (base x))).
      { pose proof (nth_error_Forall _ _ _ _ (V_t _ V) E) as O. apply O. reflexivity. }
      destruct (nth_error (runs (base x)) r) as [rx|] eqn:Er; [|apply nth_error_None in Er; lia].
      constructor; cbn [base chans homes ids guids names runs queue inflights mapping] in *; rewrite ?upd_length; auto.
      * rewrite !app_length. cbn [List.length]. lia.
      * apply keys_mset. exact K.
    + pose proof (step_other (base x) t p ch E) as S. cbv zeta in S.
      assert (NP : forall r, p <> GR1 r) by (intros r ->; discriminate).
      destruct (S NP) as ((S1 & S2 & S3 & S4) & S5 & S6). apply same_len in S2. clear S.
      set (s' := step_thread (base x) t p ch) in *.
      destruct p; try (exfalso; eapply NP; reflexivity);
        (constructor; cbn [base chans homes ids guids names] in *; [exact V'| |congruence|congruence|congruence|congruence|exact (S4 K)]);
        try (rewrite S6; exact C).
      rewrite S6. destruct ch; rewrite ?map_app, C; reflexivity.
Qed.

Lemma inv_exec es : forall x, Inv x -> Inv (sq_exec x es).
Proof. induction es as [|e es IH]; intros x H; [exact H|]. cbn [sq_exec]. apply IH, inv_step, H. Qed.

(* ---- who the runs in flight were handed to ---- *)
Definition gr_ok (x : sq) (P : nat -> string -> Prop) : Prop :=
  (forall t p r, nth_error (threads (base x)) t = Some p -> is_gr p r -> P r (asked_for (asked x) t)).

Lemma asked_cons l t n t' : asked_for ((t, n) :: l) t' = if Nat.eqb t t' then n else asked_for l t'.
Proof. reflexivity. Qed.

Lemma irun_map s s' i y : map irun (inflights s') = map irun (inflights s) -> nth_error (inflights s') i = Some y ->
  exists y', nth_error (inflights s) i = Some y' /\ irun y' = irun y.
Proof.
  intros E H. assert (X : nth_error (map irun (inflights s')) i = Some (irun y)) by (apply map_nth_error; exact H).
  rewrite E in X. destruct (nth_error (inflights s) i) as [y'|] eqn:F.
  - exists y'. split; [reflexivity|]. rewrite (map_nth_error irun _ _ F) in X. congruence.
  - apply nth_error_None in F. rewrite <- (map_length irun) in F. apply nth_error_None in F. congruence.
Qed.

(* In every schedule: a listed runner was handed the run at some time. *)
Record Handed (x : sq) (h : list (nat * string)) : Prop := {
  h_gr : forall t p r, nth_error (threads (base x)) t = Some p -> is_gr p r ->
    t < List.length (threads (base x)) -> In (r, asked_for (asked x) t) h;
  h_inf : forall i y nm, nth_error (inflights (base x)) i = Some y -> nth_error (names x) i = Some nm -> In (irun y, nm) h
}.

Definition hands_step (x : sq) (e : sq_event) : list (nat * string) :=
  match e with
  | XGetRun n runner => match nth_error (queue (base x)) n with Some r => [(r, runner)] | None => [] end
  | _ => []
  end.
Lemma hands_cons x e es : hands x (e :: es) = hands_step x e ++ hands (sq_step x e) es.
Proof. reflexivity. Qed.

Lemma handed_step x e h : Inv x -> Handed x h -> Handed (sq_step x e) (h ++ hands_step x e).
Proof.
  intros V [HG HI].
  destruct e as [m q p id guid|n runner|a|t ch]; cbn [sq_step base_event hands_step].
  - rewrite app_nil_r. constructor; cbn [base asked names RunModel.step new_run threads inflights]; auto.
  - destruct (nth_error (queue (base x)) n) as [r|] eqn:E; [|rewrite app_nil_r; cbn [RunModel.step]; rewrite E; constructor; auto].
    cbn [RunModel.step]. rewrite E. constructor; cbn [base asked names threads inflights].
    + intros t p r0 Ht G _. apply in_or_app.
      destruct (Nat.ltb_spec t (List.length (threads (base x)))) as [D|D].
      * rewrite nth_error_app1 in Ht by exact D. left. rewrite asked_cons.
        destruct (Nat.eqb_spec (List.length (threads (base x))) t); [lia|]. eapply HG; eassumption.
      * rewrite nth_error_app2 in Ht by exact D. destruct (t - List.length (threads (base x))) as [|k] eqn:K.
        -- cbn in Ht. injection Ht as <-. destruct G as [G|G]; inversion G. subst r0. right. left. rewrite asked_cons.
           assert (X : List.length (threads (base x)) = t) by lia. rewrite X, Nat.eqb_refl. reflexivity.
        -- cbn in Ht. destruct k; discriminate.
    + intros i y nm A B. apply in_or_app. left. eapply HI; eassumption.
  - rewrite app_nil_r. pose proof (result_shape (base x) a) as S. cbv zeta in S. destruct S as (_ & _ & _ & S4 & S5).
    set (s' := RunModel.step (base x) (EResult a)) in *. constructor; cbn [base asked names].
    + intros t p r Ht G L. destruct S5 as [S5|(r1 & S5)]; rewrite S5 in Ht.
      * rewrite S5 in L. eapply HG; eassumption.
      * destruct (Nat.ltb_spec t (List.length (threads (base x)))) as [D|D].
        -- rewrite nth_error_app1 in Ht by exact D. eapply HG; eassumption.
        -- rewrite nth_error_app2 in Ht by exact D. destruct (t - List.length (threads (base x))) as [|k].
           ++ cbn in Ht. injection Ht as <-. destruct G; discriminate.
           ++ cbn in Ht. destruct k; discriminate.
    + intros i y nm A B. destruct (irun_map _ _ _ _ S4 A) as (y' & A' & Ey). rewrite <- Ey. eapply HI; eassumption.
  - rewrite app_nil_r. destruct (nth_error (threads (base x)) t) as [p|] eqn:E.
    2:{ cbn [RunModel.step]. rewrite E. constructor; auto. }
    assert (R1 : RunModel.step (base x) (EStep t ch) = step_thread (base x) t p ch) by (cbn [RunModel.step]; rewrite E; reflexivity).
    rewrite R1. clear R1.
    destruct (match p with GR1 r => true | _ => false end) eqn:P.
    + destruct p; try discriminate. cbn [step_thread].
      assert (B : r < List.length (runs (base x))).
      { pose proof (nth_error_Forall _ _ _ _ (V_t _ (i_valid _ V)) E) as O. apply O. reflexivity. }
      destruct (nth_error (runs (base x)) r) as [rx|] eqn:Er; [|apply nth_error_None in Er; lia].
      constructor; cbn [base asked names threads inflights].
      * intros t0 p0 r0 Ht G _.
        destruct (Nat.ltb_spec t0 (List.length (threads (base x)))) as [D|D].
        -- rewrite nth_error_app1 in Ht by (rewrite upd_length; exact D). destruct (Nat.eq_dec t t0) as [<-|D0].
           ++ rewrite (nth_error_upd_eq _ _ _ _ E) in Ht. injection Ht as <-. destruct G; discriminate.
           ++ rewrite nth_error_upd_neq in Ht by exact D0. eapply HG; eassumption.
        -- rewrite nth_error_app2 in Ht by (rewrite upd_length; exact D). rewrite upd_length in Ht.
           destruct (t0 - List.length (threads (base x))) as [|k]; cbn in Ht; [injection Ht as <-; destruct G; discriminate|destruct k; discriminate].
      * intros i y nm A Bn. destruct (Nat.ltb_spec i (List.length (inflights (base x)))) as [D|D].
        -- rewrite nth_error_app1 in A by exact D. rewrite nth_error_app1 in Bn by (rewrite (i_names _ V); exact D). eapply HI; eassumption.
        -- rewrite nth_error_app2 in A by exact D. rewrite nth_error_app2 in Bn by (rewrite (i_names _ V); exact D).
           rewrite (i_names _ V) in Bn. destruct (i - List.length (inflights (base x))) as [|k]; [|destruct k; discriminate].
           cbn in A, Bn. injection A as <-. injection Bn as <-. cbn [irun]. eapply HG; [eassumption|right; reflexivity|].
           apply nth_error_Some. congruence.
    + pose proof (step_other (base x) t p ch E) as S. cbv zeta in S.
      assert (NP : forall r, p <> GR1 r) by (intros r ->; discriminate).
      destruct (S NP) as ((S1 & S2 & S3 & S4) & S5 & S6). clear S.
      assert (GOAL : Handed (mkSq (step_thread (base x) t p ch)
         (match p with RQ4 r _ => match ch with ChTrue => chans x | _ => chans x ++ [(r, 0)] end | _ => chans x end)
         (homes x) (ids x) (guids x) (asked x) (names x)) h).
      { constructor; cbn [base asked names].
        - intros t0 p0 r0 Ht G L. destruct (S5 t0 p0 r0 Ht G) as (p1 & X & Y). eapply HG; [eassumption|exact Y|apply nth_error_Some; congruence].
        - intros i y nm A B. destruct (irun_map _ _ _ _ S2 A) as (y' & A' & Ey). rewrite <- Ey. eapply HI; eassumption. }
      destruct p; try (exfalso; eapply NP; reflexivity); exact GOAL.
Qed.

Lemma handed_exec es : forall x h, Inv x -> Handed x h -> Handed (sq_exec x es) (h ++ hands x es).
Proof.
  induction es as [|e es IH]; intros x h V H; cbn [sq_exec].
  - cbn [hands]. rewrite app_nil_r. exact H.
  - rewrite hands_cons, app_assoc. apply IH; [apply inv_step; exact V|apply handed_step; assumption].
Qed.
Lemma handed_init c0 : Handed (sq_init c0) [].
Proof. constructor; cbn; intros; [destruct t; discriminate|destruct i; discriminate]. Qed.

(* ---- the undisturbed executions ---- *)
Lemma last_runner_snoc h r r' nm : last_runner (h ++ [(r', nm)]) r = if Nat.eqb r' r then Some nm else last_runner h r.
Proof.
  unfold last_runner. rewrite filter_app, rev_app_distr. cbn [filter fst]. destruct (Nat.eqb r' r); reflexivity.
Qed.

Record Last (x : sq) (h : list (nat * string)) : Prop := {
  l_gr : forall t p r, nth_error (threads (base x)) t = Some p -> is_gr p r -> last_runner h r = Some (asked_for (asked x) t);
  l_inf : forall a i y, mget (mapping (base x)) a = Some i -> nth_error (inflights (base x)) i = Some y ->
    last_runner h (irun y) = nth_error (names x) i
}.

Lemma gr_worker p r : is_gr p r -> worker p = Some r.
Proof. intros [->| ->]; reflexivity. Qed.
Lemma queued_in s r n : nth_error (queue s) n = Some r -> 1 <= queued s r.
Proof. intros H. apply nth_error_In in H. unfold queued. apply (count_occ_In Nat.eq_dec) in H. lia. Qed.
Lemma worker_sum s t p r : nth_error (threads s) t = Some p -> worker p = Some r -> 1 <= workers s r.
Proof.
  intros H W. pose proof (sumf_ge (works_on r) (threads s) t p H) as G. rewrite (works_on_eq _ _ W) in G. exact G.
Qed.

Lemma last_step x e h : Inv x -> L (base x) -> Last x h -> Last (sq_step x e) (h ++ hands_step x e).
Proof.
  intros V HL [HG HI].
  destruct e as [m q p id guid|n runner|a|t ch]; cbn [sq_step base_event hands_step].
  - rewrite app_nil_r. constructor; cbn [base asked names RunModel.step new_run threads inflights mapping]; auto.
  - destruct (nth_error (queue (base x)) n) as [r|] eqn:E; [|rewrite app_nil_r; cbn [RunModel.step]; rewrite E; constructor; auto].
    pose proof (queued_in _ _ _ E) as Q. pose proof (L_one _ HL r) as O.
    cbn [RunModel.step]. rewrite E. constructor; cbn [base asked names threads inflights mapping].
    + intros t p r0 Ht G. rewrite last_runner_snoc.
      destruct (Nat.ltb_spec t (List.length (threads (base x)))) as [D|D].
      * rewrite nth_error_app1 in Ht by exact D. rewrite asked_cons.
        destruct (Nat.eqb_spec (List.length (threads (base x))) t); [lia|].
        destruct (Nat.eqb_spec r r0) as [->|_]; [|eapply HG; eassumption].
        pose proof (worker_sum _ _ _ _ Ht (gr_worker _ _ G)). lia.
      * rewrite nth_error_app2 in Ht by exact D. destruct (t - List.length (threads (base x))) as [|k] eqn:K.
        -- cbn in Ht. injection Ht as <-. destruct G as [G|G]; inversion G. subst r0. rewrite Nat.eqb_refl, asked_cons.
           assert (X : List.length (threads (base x)) = t) by lia. rewrite X, Nat.eqb_refl. reflexivity.
        -- cbn in Ht. destruct k; discriminate.
    + intros a i y A B. rewrite last_runner_snoc. destruct (Nat.eqb_spec r (irun y)) as [->|_]; [|eapply HI; eassumption].
      destruct (L_map _ HL _ _ A) as (y' & rx & B' & _ & Er & _ & M). rewrite B in B'. injection B' as <-.
      destruct (L_q _ HL _ _ Er) as [M' _]; [lia|congruence].
  - rewrite app_nil_r. pose proof (result_shape (base x) a) as S. cbv zeta in S. destruct S as (_ & _ & S3 & S4 & S5).
    set (s' := RunModel.step (base x) (EResult a)) in *. constructor; cbn [base asked names].
    + intros t p r Ht G. destruct S5 as [S5|(r1 & S5)]; rewrite S5 in Ht; [eapply HG; eassumption|].
      destruct (Nat.ltb_spec t (List.length (threads (base x)))) as [D|D].
      * rewrite nth_error_app1 in Ht by exact D. eapply HG; eassumption.
      * rewrite nth_error_app2 in Ht by exact D. destruct (t - List.length (threads (base x))) as [|k].
        -- cbn in Ht. injection Ht as <-. destruct G; discriminate.
        -- cbn in Ht. destruct k; discriminate.
    + intros a0 i y A B. rewrite S3 in A. destruct (irun_map _ _ _ _ S4 B) as (y' & B' & Ey). rewrite <- Ey. eapply HI; eassumption.
  - rewrite app_nil_r. destruct (nth_error (threads (base x)) t) as [p|] eqn:E.
    2:{ cbn [RunModel.step]. rewrite E. constructor; auto. }
    assert (R1 : RunModel.step (base x) (EStep t ch) = step_thread (base x) t p ch) by (cbn [RunModel.step]; rewrite E; reflexivity).
    rewrite R1. clear R1.
    destruct (match p with GR1 r => true | _ => false end) eqn:P.
    + destruct p; try discriminate. cbn [step_thread].
      assert (B : r < List.length (runs (base x))).
      { pose proof (nth_error_Forall _ _ _ _ (V_t _ (i_valid _ V)) E) as O. apply O. reflexivity. }
      destruct (nth_error (runs (base x)) r) as [rx|] eqn:Er; [|apply nth_error_None in Er; lia].
      constructor; cbn [base asked names threads inflights mapping].
      * intros t0 p0 r0 Ht G.
        destruct (Nat.ltb_spec t0 (List.length (threads (base x)))) as [D|D].
        -- rewrite nth_error_app1 in Ht by (rewrite upd_length; exact D). destruct (Nat.eq_dec t t0) as [<-|D0].
           ++ rewrite (nth_error_upd_eq _ _ _ _ E) in Ht. injection Ht as <-. destruct G; discriminate.
           ++ rewrite nth_error_upd_neq in Ht by exact D0. eapply HG; eassumption.
        -- rewrite nth_error_app2 in Ht by (rewrite upd_length; exact D). rewrite upd_length in Ht.
           destruct (t0 - List.length (threads (base x))) as [|k]; cbn in Ht; [injection Ht as <-; destruct G; discriminate|destruct k; discriminate].
      * intros a i y A Bi. rewrite mget_mset in A. destruct (N.eqb_spec (attempt rx) a) as [Ea|Ea].
        -- injection A as <-. rewrite nth_error_app2 in Bi by lia. rewrite Nat.sub_diag in Bi. cbn in Bi. injection Bi as <-. cbn [irun].
           rewrite nth_error_app2 by (rewrite (i_names _ V); lia). rewrite (i_names _ V), Nat.sub_diag. cbn.
           eapply HG; [eassumption|right; reflexivity].
        -- assert (D : i < List.length (inflights (base x))).
           { destruct (L_map _ HL _ _ A) as (y' & _ & B' & _). apply nth_error_Some. congruence. }
           rewrite nth_error_app1 in Bi by exact D. rewrite nth_error_app1 by (rewrite (i_names _ V); exact D). eapply HI; eassumption.
    + pose proof (step_other (base x) t p ch E) as S. cbv zeta in S.
      assert (NP : forall r, p <> GR1 r) by (intros r ->; discriminate).
      destruct (S NP) as ((S1 & S2 & S3 & S4) & S5 & S6). clear S.
      assert (GOAL : Last (mkSq (step_thread (base x) t p ch)
         (match p with RQ4 r _ => match ch with ChTrue => chans x | _ => chans x ++ [(r, 0)] end | _ => chans x end)
         (homes x) (ids x) (guids x) (asked x) (names x)) h).
      { constructor; cbn [base asked names].
        - intros t0 p0 r0 Ht G. destruct (S5 t0 p0 r0 Ht G) as (p1 & X & Y). eapply HG; [eassumption|exact Y].
        - intros a i y A B. destruct (irun_map _ _ _ _ S2 B) as (y' & A' & Ey). rewrite <- Ey. eapply HI; [apply S3; exact A|exact A']. }
      destruct p; try (exfalso; eapply NP; reflexivity); exact GOAL.
Qed.

Definition Good (x : sq) : Prop := Inv x /\ L (base x).

Lemma undisturbed_app c0 es es' : undisturbed c0 (es ++ es') -> undisturbed c0 es.
Proof.
  intros (A & B). rewrite bases_app, app_length in *. split; [lia|]. apply race_free_app in B. tauto.
Qed.
Lemma undisturbed_good c0 es : undisturbed c0 es -> Good (sq_exec (sq_init c0) es).
Proof.
  intros (A & B). split; [apply inv_exec, inv_init|]. rewrite base_exec. apply L_from_init; [|exact B].
  unfold bases. rewrite map_length. exact A.
Qed.

Lemma hands_app a : forall x b, hands x (a ++ b) = hands x a ++ hands (sq_exec x a) b.
Proof.
  induction a as [|e a IH]; intros x b; [reflexivity|]. cbn [app sq_exec]. rewrite !hands_cons, IH, app_assoc. reflexivity.
Qed.
Lemma last_exec c0 es : undisturbed c0 es -> Last (sq_exec (sq_init c0) es) (hands (sq_init c0) es).
Proof.
  induction es as [|e es IH] using rev_ind; intros U.
  - constructor; cbn; intros; [destruct t; discriminate|discriminate].
  - rewrite sq_exec_app, hands_app. cbn [sq_exec]. rewrite hands_cons. cbn [hands]. rewrite app_nil_r.
    pose proof (undisturbed_app _ _ _ U) as U'. destruct (undisturbed_good _ _ U') as [A B]. apply last_step; auto.
Qed.

(* ---- the runs listed ---- *)
Lemma nth_ok {A} (l : list A) i n : List.length l = n -> i < n -> exists v, nth_error l i = Some v.
Proof. intros E H. destruct (nth_error l i) as [v|] eqn:F; [eauto|]. apply nth_error_None in F. lia. Qed.

Lemma run_data_ok x a i : Inv x -> In (a, i) (mapping (base x)) ->
  exists y rx id guid q nm, nth_error (inflights (base x)) i = Some y /\ nth_error (names x) i = Some nm /\
    nth_error (runs (base x)) (irun y) = Some rx /\ run_is x (irun y) id guid q /\
    run_data x (a, i) = Some (mkRD a id guid q (tries rx) nm).
Proof.
  intros V H.
  pose proof (V_m _ (i_valid _ V)) as M. rewrite Forall_forall in M. apply M in H. cbn in H.
  destruct (nth_ok (inflights (base x)) i _ eq_refl H) as (y & Ey).
  destruct (nth_ok (names x) i _ (i_names _ V) H) as (nm & En).
  pose proof (nth_error_Forall _ _ _ _ (V_i _ (i_valid _ V)) Ey) as B. cbn in B.
  destruct (nth_ok (runs (base x)) (irun y) _ eq_refl B) as (rx & Er).
  destruct (nth_ok (ids x) (irun y) _ (i_ids _ V) B) as (id & Ei).
  destruct (nth_ok (guids x) (irun y) _ (i_guids _ V) B) as (guid & Eg).
  destruct (nth_ok (homes x) (irun y) _ (i_homes _ V) B) as (q & Eq).
  exists y, rx, id, guid, q, nm. unfold run_is, run_data. rewrite Ey, En, Er, Ei, Eg, Eq. repeat split; reflexivity.
Qed.

Lemma run_data_all x o : Inv x -> (forall e, In e o -> In e (mapping (base x))) ->
  exists data, GetRunData x o = Some data /\ map AttemptID data = map fst o /\
    (forall d, In d data <-> exists e, In e o /\ run_data x e = Some d).
Proof.
  intros V. induction o as [|[a i] o IH]; intros H.
  - exists []. split; [reflexivity|]. split; [reflexivity|]. intros d. split; [intros []|intros (e & [] & _)].
  - destruct IH as (data & E & F & G); [intros e He; apply H; right; exact He|].
    destruct (run_data_ok x a i V (H _ (or_introl eq_refl))) as (y & rx & id & guid & q & nm & _ & _ & _ & _ & R).
    cbn [GetRunData]. rewrite R, E. eexists. split; [reflexivity|]. split; [cbn [map fst AttemptID]; rewrite F; reflexivity|].
    intros d. cbn [In]. rewrite G. split.
    + intros [<-|(e & A & B)]; [exists (a, i); auto|exists e; auto].
    + intros (e & [<-|A] & B); [left; congruence|right; exists e; auto].
Qed.

Lemma in_listed s m a i : NoDup (map fst m) -> m = mapping s -> In (a, i) m -> mget (mapping s) a = Some i.
Proof. intros K -> H. apply mget_in; assumption. Qed.

Theorem running_l c0 es o :
  undisturbed c0 es ->
  let x := sq_exec (sq_init c0) es in
  Permutation o (mapping (base x)) ->
  exists data, GetRunData x o = Some data /\ NoDup (map AttemptID data) /\
    forall d, In d data <->
      exists r rx id guid q nm, nth_error (runs (base x)) r = Some rx /\ in_flight (base x) r rx /\ run_is x r id guid q /\
        last_runner (hands (sq_init c0) es) r = Some nm /\ d = mkRD (attempt rx) id guid q (tries rx) nm.
Proof.
  intros U x P. destruct (undisturbed_good _ _ U) as [V HL]. fold x in V, HL.
  pose proof (last_exec _ _ U) as HLast. fold x in HLast.
  destruct (run_data_all x o V) as (data & E & F & G); [intros e He; eapply Permutation_in; eassumption|].
  exists data. split; [exact E|]. split.
  - rewrite F. eapply Permutation_NoDup; [apply Permutation_map, Permutation_sym, P|apply (i_keys _ V)].
  - intros d. rewrite G. split.
    + intros ([a i] & A & B). apply (Permutation_in _ P) in A.
      destruct (run_data_ok x a i V A) as (y & rx & id & guid & q & nm & Ey & En & Er & R & D).
      rewrite D in B. injection B as <-. apply mget_in in A; [|apply (i_keys _ V)].
      destruct (L_map _ HL _ _ A) as (y' & rx' & Ey' & Ia & Er' & Aa & Mo).
      rewrite Ey in Ey'. injection Ey' as <-. rewrite Er in Er'. injection Er' as <-.
      exists (irun y), rx, id, guid, q, nm. split; [exact Er|]. split; [|split; [exact R|split]].
      * exists i, y. rewrite Aa. auto.
      * rewrite (l_inf _ _ HLast _ _ _ A Ey). exact En.
      * rewrite Aa. reflexivity.
    + intros (r & rx & id & guid & q & nm & Er & (i & y & A & Ey & Iy) & R & Nm & ->).
      exists (attempt rx, i). pose proof (proj2 (mget_in _ _ _ (i_keys _ V)) A) as A'. split; [eapply Permutation_in; [apply Permutation_sym; exact P|exact A']|].
      destruct (run_data_ok x _ i V A') as (y' & rx' & id' & guid' & q' & nm' & Ey' & En' & Er' & (R1 & R2 & R3) & D).
      rewrite Ey in Ey'. injection Ey' as <-. subst r. rewrite Er in Er'. injection Er' as <-.
      destruct R as (Q1 & Q2 & Q3). rewrite (l_inf _ _ HLast _ _ _ A Ey) in Nm. rewrite D. congruence.
Qed.

Theorem listed_l c0 es o :
  let x := sq_exec (sq_init c0) es in
  Permutation o (mapping (base x)) ->
  exists data, GetRunData x o = Some data /\ NoDup (map AttemptID data) /\
    forall d, In d data -> exists r, run_is x r (ID d) (GUID d) (Queue d) /\ In (r, Runner d) (hands (sq_init c0) es).
Proof.
  intros x P. assert (V : Inv x) by (apply inv_exec, inv_init).
  pose proof (handed_exec es _ _ (inv_init c0) (handed_init c0)) as H. fold x in H. cbn [app] in H.
  destruct (run_data_all x o V) as (data & E & F & G); [intros e He; eapply Permutation_in; eassumption|].
  exists data. split; [exact E|]. split.
  - rewrite F. eapply Permutation_NoDup; [apply Permutation_map, Permutation_sym, P|apply (i_keys _ V)].
  - intros d Hd. apply G in Hd. destruct Hd as ([a i] & A & B). apply (Permutation_in _ P) in A.
    destruct (run_data_ok x a i V A) as (y & rx & id & guid & q & nm & Ey & En & Er & R & D).
    rewrite D in B. injection B as <-. exists (irun y). split; [exact R|]. cbn [Runner]. eapply h_inf; eassumption.
Qed.

(* ---- the number of runs waiting ---- *)
Lemma drop_nth_incl {A} n (l : list A) e : In e (drop_nth n l) -> In e l.
Proof.
  unfold drop_nth. intros H. apply in_app_or in H. destruct H as [H|H].
  - rewrite <- (firstn_skipn n l). apply in_or_app. auto.
  - rewrite <- (firstn_skipn (S n) l). apply in_or_app. auto.
Qed.

(* Where the waiting runs of the next state come from. *)
Lemma chans_step x e r c : Inv x -> In (r, c) (chans (sq_step x e)) ->
  In (r, c) (chans x) \/ (c = 0 /\ r < List.length (runs (base x)) /\ workers (base x) r >= 1) \/
  (exists m q id guid, e = XNew m q c id guid /\ r = List.length (runs (base x))).
Proof.
  intros V. destruct e as [m q p id guid|n runner|a|t ch]; cbn [sq_step chans].
  - intros H. apply in_app_or in H. destruct H as [H|[H|[]]]; [auto|]. injection H as <- <-. right. right. eauto 10.
  - destruct (nth_error (queue (base x)) n); cbn [chans]; [|auto]. intros H. left. eapply drop_nth_incl. exact H.
  - auto.
  - destruct (nth_error (threads (base x)) t) as [p|] eqn:E; [|auto]. destruct p; cbn [chans]; auto.
    destruct ch; auto; intros H; apply in_app_or in H; (destruct H as [H|[H|[]]]; [auto|]); injection H as Hr Hc; right; left; subst;
      (split; [reflexivity|split; [pose proof (nth_error_Forall _ _ _ _ (V_t _ (i_valid _ V)) E) as O; apply O; reflexivity|
         eapply worker_sum; [exact E|reflexivity]]]).
Qed.

Lemma homes_step x e r : r < List.length (homes x) -> nth_error (homes (sq_step x e)) r = nth_error (homes x) r.
Proof.
  intros H. destruct e as [m q p id guid|n runner|a|t ch]; cbn [sq_step homes]; auto.
  - apply nth_error_app1. exact H.
  - destruct (nth_error (queue (base x)) n); reflexivity.
  - destruct (nth_error (threads (base x)) t) as [[]|]; reflexivity.
Qed.
Lemma runs_step_le x e : Inv x -> List.length (runs (base x)) <= List.length (runs (base (sq_step x e))).
Proof.
  intros V. pose proof (inv_step x e V) as V'. rewrite <- (i_homes _ V), <- (i_homes _ V').
  destruct e as [m q p id guid|n runner|a|t ch]; cbn [sq_step homes]; try lia.
  - rewrite app_length. lia.
  - destruct (nth_error (queue (base x)) n); cbn [homes]; lia.
  - destruct (nth_error (threads (base x)) t) as [[]|]; cbn [homes]; lia.
Qed.
Lemma runs_exec_le es : forall x, Inv x -> List.length (runs (base x)) <= List.length (runs (base (sq_exec x es))).
Proof.
  induction es as [|e es IH]; intros x V; cbn [sq_exec]; [lia|].
  pose proof (runs_step_le x e V). specialize (IH _ (inv_step x e V)). lia.
Qed.

Lemma chans_in_runs x r c : Inv x -> In (r, c) (chans x) -> r < List.length (runs (base x)).
Proof.
  intros V H. assert (Q : In r (queue (base x))) by (rewrite <- (i_chans _ V); apply in_map_iff; exists (r, c); auto).
  pose proof (V_q _ (i_valid _ V)) as F. rewrite Forall_forall in F. auto.
Qed.

(* The queue of every run is a registered one. *)
Definition at_home (queues : list string) (x : sq) : Prop :=
  (forall r c, In (r, c) (chans x) -> c < 4) /\ (forall q, In q (homes x) -> In q queues).
Lemma at_home_step queues x e : Inv x -> well_formed queues e -> at_home queues x -> at_home queues (sq_step x e).
Proof.
  intros V W [O1 O2]. split.
  - intros r c H. destruct (chans_step x e r c V H) as [D|[(-> & B & _)|(m & q & id & guid & -> & ->)]]; [eauto|lia|apply W].
  - destruct e as [m q p id guid|n runner|a|t ch]; cbn [sq_step homes]; auto.
    + intros q0 H. apply in_app_or in H. destruct H as [H|[<-|[]]]; [auto|apply W].
    + destruct (nth_error (queue (base x)) n); auto.
    + destruct (nth_error (threads (base x)) t) as [[]|]; auto.
Qed.
Lemma at_home_exec queues es : forall x, Inv x -> Forall (well_formed queues) es -> at_home queues x -> at_home queues (sq_exec x es).
Proof.
  induction es as [|e es IH]; intros x V W H; cbn [sq_exec]; [exact H|]. inversion_clear W.
  apply IH; [apply inv_step; exact V|assumption|apply at_home_step; assumption].
Qed.
Lemma at_home_init queues c0 : at_home queues (sq_init c0).
Proof. split; cbn; intros; contradiction. Qed.

(* The runs counted by the reads. *)
Definition here (x : sq) (q : string) (c : nat) : list nat :=
  map fst (List.filter (fun w => Nat.eqb (snd w) c &&
     match nth_error (homes x) (fst w) with Some q' => String.eqb q' q | None => false end) (chans x)).
Lemma here_len x q c : chan_len x q c = List.length (here x q c).
Proof. unfold chan_len, here. rewrite map_length. reflexivity. Qed.
Lemma here_in x q c r : In r (here x q c) <-> In (r, c) (chans x) /\ nth_error (homes x) r = Some q.
Proof.
  unfold here. rewrite in_map_iff. split.
  - intros ((r' & c') & E & H). cbn in E. subst r'. apply filter_In in H. destruct H as [H B]. cbn [fst snd] in B.
    apply andb_prop in B. destruct B as [B1 B2]. apply Nat.eqb_eq in B1. subst c'.
    destruct (nth_error (homes x) r) as [q'|]; [|discriminate]. apply String.eqb_eq in B2. subst q'. auto.
  - intros (A & B). exists (r, c). split; [reflexivity|]. apply filter_In. split; [exact A|]. cbn [fst snd].
    rewrite B, Nat.eqb_refl, String.eqb_refl. reflexivity.
Qed.

Lemma nodup_queue x : Good x -> NoDup (queue (base x)).
Proof.
  intros [_ HL]. apply (NoDup_count_occ Nat.eq_dec). intros r. pose proof (L_one _ HL r). unfold queued in *. lia.
Qed.
Lemma nodup_map_filter {A B} (f : A -> B) P l : NoDup (map f l) -> NoDup (map f (List.filter P l)).
Proof.
  induction l as [|a l IH]; intros H; [exact H|]. cbn [map] in H. inversion_clear H. cbn [filter].
  destruct (P a); [|auto]. cbn [map]. constructor; [|auto]. intros X. apply H0. apply in_map_iff in X.
  destruct X as (b & E & X). apply filter_In in X. apply in_map_iff. exists b. tauto.
Qed.
Lemma here_nodup x q c : Good x -> NoDup (here x q c).
Proof. intros G. unfold here. apply nodup_map_filter. rewrite (i_chans _ (proj1 G)). apply nodup_queue, G. Qed.

Fixpoint counted (x : sq) (reads : list (string * nat)) (others : list (list sq_event)) : list nat :=
  match reads with
  | [] => []
  | (q, c) :: reads => let x := sq_exec x (hd [] others) in here x q c ++ counted x reads (tl others)
  end.
Lemma read_counted reads : forall x others, read_lengths x reads others = List.length (counted x reads others).
Proof.
  induction reads as [|(q, c) reads IH]; intros x others; [reflexivity|].
  cbn [read_lengths counted]. cbv zeta. rewrite app_length, here_len, IH. reflexivity.
Qed.

(* A run that has been counted is not on any channel still to be read, nor will be. *)
Definition spent (x : sq) (reads : list (string * nat)) (r : nat) : Prop :=
  exists q, nth_error (homes x) r = Some q /\ ~ In (q, 0) reads /\ forall c, In (r, c) (chans x) -> ~ In (q, c) reads.
Lemma spent_step x e reads r : Inv x -> spent x reads r -> spent (sq_step x e) reads r.
Proof.
  intros V (q & Q & Z & S). assert (B : r < List.length (homes x)) by (apply nth_error_Some; congruence).
  exists q. split; [rewrite homes_step by exact B; exact Q|]. split; [exact Z|].
  intros c H. destruct (chans_step x e r c V H) as [D|[(-> & _)|(m & q' & id & guid & -> & ->)]]; [auto|exact Z|].
  rewrite (i_homes _ V) in B. lia.
Qed.
Lemma spent_exec es : forall x reads r, Inv x -> spent x reads r -> spent (sq_exec x es) reads r.
Proof.
  induction es as [|e es IH]; intros x reads r V H; cbn [sq_exec]; [exact H|]. apply IH; [apply inv_step; exact V|apply spent_step; assumption].
Qed.

(* The reads of one queue begin with its channel 0. *)
Fixpoint zero_first (reads : list (string * nat)) : Prop :=
  match reads with [] => True | (q, c) :: reads => ~ In (q, 0) reads /\ ~ In (q, c) reads /\ zero_first reads end.
Lemma reads_of_in queues q c : In (q, c) (reads_of queues) <-> In q queues /\ c < 4.
Proof.
  unfold reads_of. rewrite in_flat_map. split.
  - intros (q' & A & B). cbn [In] in B. repeat (destruct B as [B|B]; [injection B as <- <-; split; [exact A|lia]|]). destruct B.
  - intros (A & B). exists q. split; [exact A|]. cbn [In].
    destruct c as [|[|[|[|c]]]]; auto 10. lia.
Qed.
Lemma zero_first_reads queues : NoDup queues -> zero_first (reads_of queues).
Proof.
  induction queues as [|q queues IH]; intros H; [exact Logic.I|]. inversion_clear H.
  assert (N : forall c, ~ In (q, c) (reads_of queues)) by (intros c X; apply reads_of_in in X; tauto).
  change (reads_of (q :: queues)) with ((q, 0) :: (q, 1) :: (q, 2) :: (q, 3) :: reads_of queues).
  cbn [zero_first In].
  assert (D : forall a b : nat, a <> b -> (q, a) = (q, b) -> False) by (intros a b E X; injection X; auto).
  repeat split; try (intros X; repeat (destruct X as [X|X]; [eapply D; [|exact X]; lia|]); eapply N; exact X).
  apply IH. assumption.
Qed.

(* Every state of an undisturbed execution is a good one. *)
Fixpoint all_good (x : sq) (es : list sq_event) : Prop :=
  Good x /\ match es with [] => True | e :: es => all_good (sq_step x e) es end.
Lemma all_good_app a : forall x b, all_good x (a ++ b) -> all_good x a /\ all_good (sq_exec x a) b.
Proof.
  induction a as [|e a IH]; intros x b H.
  - split; [|exact H]. split; [|exact I]. destruct b; apply H.
  - destruct H as [H1 H2]. apply IH in H2. cbn [sq_exec]. split; [split|]; tauto.
Qed.
Lemma all_good_end es : forall x, all_good x es -> Good (sq_exec x es).
Proof. induction es as [|e es IH]; intros x H; [apply H|]. cbn [sq_exec]. apply IH, H. Qed.
Lemma all_good_start x es : all_good x es -> Good x.
Proof. destruct es; intros H; apply H. Qed.
Lemma undisturbed_all c0 es rest : undisturbed c0 (es ++ rest) -> all_good (sq_exec (sq_init c0) es) rest.
Proof.
  revert es. induction rest as [|e rest IH]; intros es U.
  - split; [|exact I]. apply undisturbed_good. eapply undisturbed_app. exact U.
  - split; [apply undisturbed_good; eapply undisturbed_app; exact U|].
    replace (sq_step (sq_exec (sq_init c0) es) e) with (sq_exec (sq_init c0) (es ++ [e])) by (rewrite sq_exec_app; reflexivity).
    apply IH. rewrite <- app_assoc. exact U.
Qed.

Lemma hd_tl_concat {A} (l : list (list A)) : List.concat l = hd [] l ++ List.concat (tl l).
Proof. destruct l; reflexivity. Qed.

Lemma counted_nodup reads : forall x others, zero_first reads -> all_good x (List.concat others) ->
  NoDup (counted x reads others) /\ (forall r, spent x reads r -> ~ In r (counted x reads others)).
Proof.
  induction reads as [|(q, c) reads IH]; intros x others Z G; cbn [counted]; [split; [constructor|auto]|].
  rewrite hd_tl_concat in G. apply all_good_app in G. destruct G as [G1 G2].
  destruct Z as (Z0 & Zc & Z). set (x' := sq_exec x (hd [] others)) in *. cbv zeta.
  destruct (IH x' (tl others) Z G2) as [N S].
  pose proof (all_good_start _ _ G2) as G'. destruct G' as [V' HL'].
  assert (SP : forall r, In r (here x' q c) -> spent x' reads r).
  { intros r H. apply here_in in H. destruct H as [H Q]. exists q. split; [exact Q|]. split; [exact Z0|].
    intros c' H'. assert (E : c' = c); [|subst; exact Zc].
    pose proof (nodup_queue x' (conj V' HL')) as ND. rewrite <- (i_chans _ V') in ND.
    clear - H H' ND. induction (chans x') as [|[r1 c1] l IHl]; [destruct H|]. cbn [map fst] in ND. inversion_clear ND.
    destruct H as [H|H], H' as [H'|H'].
    - congruence.
    - injection H as -> ->. destruct H0. apply in_map_iff. exists (r, c'). auto.
    - injection H' as -> ->. destruct H0. apply in_map_iff. exists (r, c). auto.
    - auto. }
  split.
  - pose proof (here_nodup x' q c (conj V' HL')) as ND. revert ND SP. generalize (here x' q c) as l. intros l.
    induction l as [|r l IHl]; intros ND SP; [exact N|]. inversion_clear ND. cbn [app]. constructor.
    + intros X. apply in_app_or in X. destruct X as [X|X]; [tauto|]. eapply S; [apply SP; left; reflexivity|exact X].
    + apply IHl; [assumption|intros r0 H1; apply SP; right; exact H1].
  - intros r Sp X. apply in_app_or in X.
    pose proof (spent_exec (hd [] others) _ _ _ (proj1 (all_good_start _ _ G1)) Sp) as Sp'. fold x' in Sp'.
    destruct X as [X|X].
    + apply here_in in X. destruct X as [X Q]. destruct Sp' as (q' & Q' & _ & F). rewrite Q in Q'. injection Q' as <-.
      apply (F _ X). left. reflexivity.
    + revert X. apply S. destruct Sp' as (q' & Q' & F0 & F). exists q'. split; [exact Q'|]. cbn [In] in *. split; [tauto|].
      intros c' H' X. apply (F _ H'). right. exact X.
Qed.

Lemma visited_app a : forall x b y, In y (visited x (a ++ b)) <-> In y (visited x a) \/ In y (visited (sq_exec x a) b).
Proof.
  induction a as [|e a IH]; intros x b y.
  - cbn [app sq_exec visited]. destruct b; cbn [visited In]; tauto.
  - cbn [app sq_exec visited In]. rewrite IH. tauto.
Qed.
Lemma visited_last es : forall x, In (sq_exec x es) (visited x es).
Proof. induction es as [|e es IH]; intros x; cbn [visited sq_exec In]; [left; reflexivity|right; apply IH]. Qed.

Lemma waiting_in x r : waiting x r = true <-> In r (queue (base x)).
Proof.
  unfold waiting. rewrite existsb_exists. split.
  - intros (r' & A & B). apply Nat.eqb_eq in B. subst. exact A.
  - intros H. exists r. rewrite Nat.eqb_refl. auto.
Qed.

Lemma counted_waits reads : forall x others r, all_good x (List.concat others) -> In r (counted x reads others) ->
  (exists y, In y (visited x (List.concat others)) /\ waiting y r = true) /\
  r < List.length (runs (base (sq_exec x (List.concat others)))).
Proof.
  induction reads as [|(q, c) reads IH]; intros x others r G; cbn [counted]; [intros []|]. intros H.
  rewrite hd_tl_concat in G |- *. apply all_good_app in G. destruct G as [G1 G2].
  rewrite sq_exec_app. set (x' := sq_exec x (hd [] others)) in *. cbv zeta in H.
  apply in_app_or in H. destruct H as [H|H].
  - apply here_in in H. destruct H as [H _]. pose proof (all_good_start _ _ G2) as [V' _]. split.
    + exists x'. split; [rewrite visited_app; left; apply visited_last|]. apply waiting_in.
      rewrite <- (i_chans _ V'). apply in_map_iff. exists (r, c). auto.
    + pose proof (chans_in_runs _ _ _ V' H). pose proof (runs_exec_le (List.concat (tl others)) x' V'). lia.
  - destruct (IH x' (tl others) r G2 H) as ((y & A & B) & C). split; [|exact C]. exists y. split; [|exact B].
    rewrite visited_app. right. exact A.
Qed.

Lemma stays x e r c : Good x -> In (r, c) (chans x) -> waiting (sq_step x e) r = true -> In (r, c) (chans (sq_step x e)).
Proof.
  intros G H W. destruct G as [V HL]. pose proof (inv_step x e V) as V'.
  apply waiting_in in W. rewrite <- (i_chans _ V') in W. apply in_map_iff in W. destruct W as ((r' & c') & E & W). cbn in E. subst r'.
  assert (Q : In r (queue (base x))) by (rewrite <- (i_chans _ V); apply in_map_iff; exists (r, c); auto).
  destruct (chans_step x e r c' V W) as [D|[(-> & B & Wk)|(m & q & id & guid & -> & ->)]].
  - assert (X : c' = c); [|subst; exact W].
    pose proof (nodup_queue x (conj V HL)) as ND. rewrite <- (i_chans _ V) in ND.
    clear - H D ND. induction (chans x) as [|[r1 c1] l IHl]; [destruct H|]. cbn [map fst] in ND. inversion_clear ND.
    destruct H as [H|H], D as [H'|H'].
    + congruence.
    + injection H as -> ->. destruct H0. apply in_map_iff. exists (r, c'). auto.
    + injection H' as -> ->. destruct H0. apply in_map_iff. exists (r, c). auto.
    + auto.
  - pose proof (L_one _ HL r). apply (count_occ_In Nat.eq_dec) in Q. unfold queued in *. lia.
  - apply (chans_in_runs _ _ _ V) in H. lia.
Qed.

Lemma stays_exec es : forall x r c, all_good x es -> In (r, c) (chans x) -> (forall y, In y (visited x es) -> waiting y r = true) ->
  In (r, c) (chans (sq_exec x es)).
Proof.
  induction es as [|e es IH]; intros x r c G H W; cbn [sq_exec]; [exact H|]. destruct G as [G1 G2].
  apply IH; [exact G2| |].
  - apply stays; [exact G1|exact H|]. apply W. cbn [visited]. right. destruct es; left; reflexivity.
  - intros y Hy. apply W. cbn [visited]. right. exact Hy.
Qed.

Lemma homes_exec es : forall x r q, Inv x -> nth_error (homes x) r = Some q -> nth_error (homes (sq_exec x es)) r = Some q.
Proof.
  induction es as [|e es IH]; intros x r q V H; cbn [sq_exec]; [exact H|]. apply IH; [apply inv_step; exact V|].
  rewrite homes_step; [exact H|]. apply nth_error_Some. congruence.
Qed.

Lemma waits_counted reads : forall x others r q c, all_good x (List.concat others) -> In (r, c) (chans x) ->
  nth_error (homes x) r = Some q -> In (q, c) reads -> (forall y, In y (visited x (List.concat others)) -> waiting y r = true) ->
  In r (counted x reads others).
Proof.
  induction reads as [|(q1, c1) reads IH]; intros x others r q c G H Q R W; cbn [counted]; [destruct R|].
  rewrite hd_tl_concat in G, W. apply all_good_app in G. destruct G as [G1 G2]. cbv zeta.
  assert (H' : In (r, c) (chans (sq_exec x (hd [] others)))).
  { apply stays_exec; [exact G1|exact H|]. intros y Hy. apply W. rewrite visited_app. left. exact Hy. }
  assert (Q' : nth_error (homes (sq_exec x (hd [] others))) r = Some q) by (apply homes_exec; [apply (all_good_start _ _ G1)|exact Q]).
  apply in_or_app. destruct R as [R|R].
  - injection R as -> ->. left. apply here_in. auto.
  - right. eapply IH; [exact G2|exact H'|exact Q'|exact R|]. intros y Hy. apply W. rewrite visited_app. right. exact Hy.
Qed.

Theorem length_l c0 queues es others :
  undisturbed c0 (es ++ List.concat others) -> NoDup queues -> Forall (well_formed queues) (es ++ List.concat others) ->
  let x := sq_exec (sq_init c0) es in
  let seen := visited x (List.concat others) in
  let n := List.length (runs (base (sq_exec x (List.concat others)))) in
  waiting_throughout seen n <= read_lengths x (reads_of queues) others <= waiting_sometime seen n.
Proof.
  intros U ND W x seen n. pose proof (undisturbed_all _ _ _ U) as G. fold x in G.
  rewrite read_counted. pose proof (all_good_start _ _ G) as [V _].
  assert (AH : at_home queues x).
  { apply at_home_exec; [apply inv_init| |apply at_home_init]. apply Forall_app in W. tauto. }
  destruct (counted_nodup (reads_of queues) x others (zero_first_reads _ ND) G) as [N _]. split.
  - unfold waiting_throughout. apply NoDup_incl_length; [apply NoDup_filter, seq_NoDup|].
    intros r H. apply filter_In in H. destruct H as [_ H]. rewrite forallb_forall in H.
    assert (H0 : waiting x r = true) by (apply H; unfold seen; destruct (List.concat others); left; reflexivity).
    apply waiting_in in H0. rewrite <- (i_chans _ V) in H0. apply in_map_iff in H0. destruct H0 as ((r' & c) & E & H0). cbn in E. subst r'.
    assert (B : r < List.length (runs (base x))) by (eapply chans_in_runs; eassumption).
    destruct (nth_ok (homes x) r _ (i_homes _ V) B) as (q & Q).
    eapply waits_counted; [exact G|exact H0|exact Q| |exact H].
    apply reads_of_in. split; [apply AH; eapply nth_error_In; exact Q|eapply AH; exact H0].
  - unfold waiting_sometime. apply NoDup_incl_length; [exact N|]. intros r H. destruct (counted_waits _ _ _ _ G H) as ((y & A & B) & C).
    apply filter_In. split; [apply in_seq; fold n in C; lia|]. apply existsb_exists. exists y. auto.
Qed.

(* Alone, whatever happened before. *)
Lemma counted_quiet reads : forall x, counted x reads [] = flat_map (fun e => here x (fst e) (snd e)) reads.
Proof. induction reads as [|(q, c) reads IH]; intros x; cbn [counted flat_map hd tl sq_exec fst snd]; [reflexivity|rewrite IH; reflexivity]. Qed.

Lemma sumf_plus {A} (f g : A -> nat) l : sumf (fun a => f a + g a) l = sumf f l + sumf g l.
Proof. induction l as [|a l IH]; cbn [sumf]; lia. Qed.
Lemma sumf_zero {A} (l : list A) : sumf (fun _ => 0) l = 0.
Proof. induction l as [|a l IH]; cbn [sumf]; lia. Qed.
Lemma sumf_count {A} (f : A -> bool) l : sumf (fun a => if f a then 1 else 0) l = List.length (List.filter f l).
Proof. induction l as [|a l IH]; [reflexivity|]. cbn [sumf filter]. destruct (f a); cbn [List.length]; lia. Qed.

Lemma label_sum : forall (P : (nat * nat) -> string * nat -> bool) reads (l : list (nat * nat)),
  (forall w, In w l -> List.length (List.filter (P w) reads) = 1) ->
  sumf (fun e => List.length (List.filter (fun w => P w e) l)) reads = List.length l.
Proof.
  intros P reads l. induction l as [|w l IH]; intros H.
  - cbn [filter List.length]. apply sumf_zero.
  - cbn [List.length]. rewrite <- IH by (intros w' H'; apply H; right; exact H').
    specialize (H w (or_introl eq_refl)). rewrite <- sumf_count in H.
    rewrite (sumf_ext _ (fun e => (if P w e then 1 else 0) + List.length (List.filter (fun w => P w e) l))).
    + rewrite sumf_plus, H. reflexivity.
    + intros e _. cbn [filter]. destruct (P w e); reflexivity.
Qed.

Lemma list_len_flat {A B} (f : A -> list B) l : List.length (flat_map f l) = sumf (fun a => List.length (f a)) l.
Proof. induction l as [|a l IH]; [reflexivity|]. cbn [flat_map sumf]. rewrite app_length, IH. reflexivity. Qed.

Definition label_is (x : sq) (w : nat * nat) (e : string * nat) : bool :=
  Nat.eqb (snd w) (snd e) && match nth_error (homes x) (fst w) with Some q' => String.eqb q' (fst e) | None => false end.

Lemma one_label x queues w q : NoDup queues -> nth_error (homes x) (fst w) = Some q -> In q queues -> snd w < 4 ->
  List.length (List.filter (label_is x w) (reads_of queues)) = 1.
Proof.
  intros ND Q I C.
  assert (E : forall q' c', label_is x w (q', c') = (Nat.eqb (snd w) c' && String.eqb q q')%bool) by (intros; unfold label_is; rewrite Q; reflexivity).
  assert (None_ : forall qs, ~ In q qs -> List.filter (label_is x w) (reads_of qs) = []).
  { induction qs as [|q' qs IH]; intros H; [reflexivity|].
    change (reads_of (q' :: qs)) with ((q', 0) :: (q', 1) :: (q', 2) :: (q', 3) :: reads_of qs). cbn [filter]. rewrite !E.
    destruct (String.eqb_spec q q') as [->|D]; [destruct H; left; reflexivity|]. rewrite !andb_false_r. apply IH. intros X. apply H. right. exact X. }
  induction queues as [|q' queues IH]; [destruct I|]. inversion_clear ND.
  change (reads_of (q' :: queues)) with ((q', 0) :: (q', 1) :: (q', 2) :: (q', 3) :: reads_of queues). cbn [filter]. rewrite !E.
  destruct (String.eqb_spec q q') as [->|D].
  - rewrite (None_ queues H). rewrite !andb_true_r. destruct (snd w) as [|[|[|[|k]]]]; try reflexivity. lia.
  - rewrite !andb_false_r. apply IH; [assumption|]. destruct I as [I|I]; [congruence|exact I].
Qed.

Theorem quiet_l c0 queues es :
  NoDup queues -> Forall (well_formed queues) es ->
  let x := sq_exec (sq_init c0) es in
  read_lengths x (reads_of queues) [] = List.length (queue (base x)).
Proof.
  intros ND W x. assert (V : Inv x) by (apply inv_exec, inv_init).
  assert (AH : at_home queues x) by (apply at_home_exec; [apply inv_init|exact W|apply at_home_init]).
  rewrite read_counted, counted_quiet, list_len_flat, <- (i_chans _ V), map_length.
  rewrite <- (label_sum (label_is x) (reads_of queues) (chans x)).
  - apply sumf_ext. intros (q, c) _. cbn [fst snd]. rewrite <- here_len. reflexivity.
  - intros (r, c) H. pose proof (chans_in_runs _ _ _ V H) as B. destruct (nth_ok (homes x) r _ (i_homes _ V) B) as (q & Q).
    eapply one_label; [exact ND|exact Q|apply AH; eapply nth_error_In; exact Q|cbn; eapply AH; exact H].
Qed.

Lemma status_some x o queues others data : GetRunData x o = Some data ->
  grader_status x o queues others = Some (mkResp "ok" 0 false (map (fun d => mkGR (Runner d) (ID d)) data)
            (read_lengths x (reads_of queues) others) 0 []).
Proof. intros H. unfold grader_status. rewrite H. reflexivity. Qed.

Lemma forall_pick {A B} (P : A -> B -> Prop) l : (forall a, In a l -> exists b, P a b) -> exists m, Forall2 P l m.
Proof.
  induction l as [|a l IH]; intros H; [exists []; constructor|].
  destruct (H a (or_introl eq_refl)) as (b & Hb). destruct IH as (m & Hm); [intros a' Ha; apply H; right; exact Ha|].
  exists (b :: m). constructor; assumption.
Qed.
Lemma forall2_in_r {A B} (P : A -> B -> Prop) l m b : Forall2 P l m -> In b m -> exists a, In a l /\ P a b.
Proof. induction 1; cbn [In]; intros X; [destruct X|]. destruct X as [<-|X]; [eauto|]. destruct (IHForall2 X) as (a & ? & ?). eauto. Qed.
Lemma forall2_in_l {A B} (P : A -> B -> Prop) l m a : Forall2 P l m -> In a l -> exists b, In b m /\ P a b.
Proof. induction 1; cbn [In]; intros X; [destruct X|]. destruct X as [<-|X]; [eauto|]. destruct (IHForall2 X) as (b & ? & ?). eauto. Qed.

Lemma running_runs c0 es o :
  undisturbed c0 es ->
  let x := sq_exec (sq_init c0) es in
  Permutation o (mapping (base x)) ->
  exists data rs, GetRunData x o = Some data /\ NoDup rs /\
    (forall r, In r rs <-> exists rx, nth_error (runs (base x)) r = Some rx /\ in_flight (base x) r rx) /\
    Forall2 (fun d r => exists id guid q nm, run_is x r id guid q /\ last_runner (hands (sq_init c0) es) r = Some nm /\
      Runner d = nm /\ ID d = id) data rs.
Proof.
  intros U x P. destruct (undisturbed_good _ _ U) as [V HL]. fold x in V, HL.
  destruct (running_l c0 es o U P) as (data & E & N & D). fold x in D.
  destruct (forall_pick (fun d r => exists rx id guid q nm, nth_error (runs (base x)) r = Some rx /\ in_flight (base x) r rx /\ run_is x r id guid q /\
        last_runner (hands (sq_init c0) es) r = Some nm /\ d = mkRD (attempt rx) id guid q (tries rx) nm) data) as (rs & F).
  { intros d Hd. apply D in Hd. destruct Hd as (r & H). exists r. exact H. }
  exists data, rs. split; [exact E|]. split; [|split].
  - clear - F N. induction F as [|d r data rs H F IH]; [constructor|]. cbn [map] in N. inversion_clear N. constructor; [|auto].
    intros X. destruct (forall2_in_r _ _ _ _ F X) as (d' & Hd & H').
    destruct H as (rx & id & guid & q & nm & A1 & _ & _ & _ & ->). destruct H' as (rx' & id' & guid' & q' & nm' & A2 & _ & _ & _ & ->).
    assert (rx' = rx) by congruence. subst rx'. apply H0. apply in_map_iff. eexists. split; [|exact Hd]. reflexivity.
  - intros r. split.
    + intros H. destruct (forall2_in_r _ _ _ _ F H) as (d & _ & rx & id & guid & q & nm & A & B & _). eauto.
    + intros (rx & A & B). assert (B0 := B). destruct B0 as (i & y & M & Ey & Iy).
      assert (K : In (attempt rx, i) (mapping (base x))) by (apply (mget_in _ _ _ (i_keys _ V)); exact M).
      destruct (run_data_ok x _ i V K) as (y' & rx' & id & guid & q & nm & Ey' & En & Er & R & Dd).
      rewrite Ey in Ey'. injection Ey' as <-. subst r. rewrite A in Er. injection Er as <-.
      assert (X : In (mkRD (attempt rx) id guid q (tries rx) nm) data).
      { apply D. exists (irun y), rx, id, guid, q, nm. split; [exact A|]. split; [exact B|]. split; [exact R|]. split; [|reflexivity].
        rewrite (l_inf _ _ (last_exec _ _ U) _ _ _ M Ey). exact En. }
      destruct (forall2_in_l _ _ _ _ F X) as (r' & Hr & rx' & id' & guid' & q' & nm' & A' & _ & _ & _ & Eq).
      assert (Ea : attempt rx' = attempt rx) by congruence.
      assert (X' : r' = irun y) by (eapply (L_dist _ HL); eassumption). rewrite <- X'. exact Hr.
  - clear - F. induction F as [|d r data rs H F IH]; constructor; [|exact IH].
    destruct H as (rx & id & guid & q & nm & A & B & C & G & ->). exists id, guid, q, nm. auto.
Qed.

Lemma forall2_len {A B} (P : A -> B -> Prop) l m : Forall2 P l m -> List.length l = List.length m.
Proof. induction 1; cbn [List.length]; auto. Qed.

Lemma apart_l c0 es o data : undisturbed c0 es ->
  let x := sq_exec (sq_init c0) es in
  Permutation o (mapping (base x)) -> GetRunData x o = Some data ->
  List.length data + List.length (queue (base x)) <= unfinished (base x).
Proof.
  intros U x P E. destruct (undisturbed_good _ _ U) as [V HL]. fold x in V, HL.
  destruct (running_runs c0 es o U P) as (data' & rs & E' & N & R & F). fold x in E', R. rewrite E in E'. injection E' as <-.
  rewrite (forall2_len _ _ _ F), <- app_length. apply NoDup_incl_length.
  - pose proof (nodup_queue x (conj V HL)) as NQ.
    assert (D : forall r, In r rs -> In r (queue (base x)) -> False).
    { intros r A B. apply R in A. destruct A as (rx & A & i & y & M & Ey & Iy).
      destruct (L_map _ HL _ _ M) as (y' & rx' & Ey' & _ & A' & _ & Mo). rewrite Ey in Ey'. injection Ey' as <-. subst r.
      rewrite A in A'. injection A' as <-.
      apply (count_occ_In Nat.eq_dec) in B. pose proof (L_one _ HL (irun y)) as O.
      destruct (L_q _ HL _ _ A) as [Mf _]; [unfold queued in *; lia|congruence]. }
    clear - N NQ D. induction N as [|r rs H N IH]; [exact NQ|]. cbn [app]. constructor.
    + intros X. apply in_app_or in X. destruct X as [X|X]; [tauto|]. eapply D; [left; reflexivity|exact X].
    + apply IH. intros r0 A. apply D. right. exact A.
  - assert (OP : forall r rx, nth_error (runs (base x)) r = Some rx -> In r rs \/ In r (queue (base x)) ->
      closedF rx = false \/ workers (base x) r = 1).
    { intros r rx A H. unfold x in A. rewrite base_exec in A.
      assert (U1 : (c0 + N.of_nat (List.length (bases es)) < 2 ^ 64)%N) by (unfold bases; rewrite map_length; apply U).
      pose proof (one_place_l c0 (bases es) r rx U1 (proj2 U) A) as O. cbv zeta in O.
      change (RunModel.exec (RunModel.init c0) (bases es)) with (RunModel.exec (base (sq_init c0)) (bases es)) in O, A.
      rewrite <- base_exec in O, A. fold x in O, A. destruct O as [O|[O|[O|O]]]; try tauto.
      exfalso. destruct H as [H|H].
      - apply R in H. destruct H as (rx' & A' & B). assert (rx' = rx) by congruence. subst rx'. tauto.
      - apply (count_occ_In Nat.eq_dec) in H. unfold queued in O. lia. }
    intros r H. apply in_app_or in H.
    assert (B : r < List.length (runs (base x))).
    { destruct H as [H|H]; [apply R in H; destruct H as (rx & A & _); apply nth_error_Some; congruence|].
      pose proof (V_q _ (i_valid _ V)) as Q. rewrite Forall_forall in Q. auto. }
    destruct (nth_ok (runs (base x)) r _ eq_refl B) as (rx & A). apply filter_In. split; [apply in_seq; lia|].
    unfold unfinished_run. rewrite A. destruct (OP r rx A H) as [C|C]; [rewrite C; reflexivity|].
    rewrite C. apply orb_true_r.
Qed.

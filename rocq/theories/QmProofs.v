(* Proofs about the queue metrics. *)
From Coq Require Import String List Arith ZArith NArith Bool Lia Permutation.
From Verif Require Import GoBase RunModel RunSpec RunProofs RunBoundsProofs RunLinProofs RunLinFacts QmModel QmSpec.
Import ListNotations.

Definition b2n (b : bool) : nat := if b then 1 else 0.
Lemma len_filter {A} (f : A -> bool) l : length (filter f l) = sumf (fun x => b2n (f x)) l.
Proof. induction l as [|a l IH]; cbn; auto. destruct (f a); cbn; rewrite IH; reflexivity. Qed.

Lemma posted_snoc es : forall s e, posted s (es ++ [e]) = posted s es ++ emits (exec s es) e.
Proof.
  induction es as [|a es IH]; intros s e; cbn [posted app]; [rewrite app_nil_r; reflexivity|].
  rewrite IH, app_assoc. reflexivity.
Qed.

(* Generic ledgers: a weight of events, of goroutines, and of states otherwise. *)
Definition ew (k : qtype) (f : nat -> bool) (e : qevent) : nat := b2n (qtype_eqb (fst e) k && f (snd e)).
Definition clw (f : nat -> bool) (p : pc) : nat := match closes p with Some r => b2n (f r) | None => 0 end.
Definition tow (p : pc) : nat := match p with TSend _ | TDrain _ => 1 | _ => 0 end.

Lemma ew_remove k f s a : k <> QueueRemoved -> sumf (ew k f) (remove_events s a) = 0.
Proof.
  intros N. unfold remove_events. destruct (mget _ _) as [i|]; auto. destruct (nth_error _ _); auto.
  cbn. destruct k; cbn; auto; congruence.
Qed.

Lemma remove_threads s a : threads (remove s a) = threads s.
Proof. apply remove_shape. Qed.
Lemma remove_closed s a r : option_map closedF (nth_error (runs (remove s a)) r) = option_map closedF (nth_error (runs s) r).
Proof.
  assert (E : map closedF (runs (remove s a)) = map closedF (runs s)).
  { pose proof (remove_core s a) as E.
    apply (f_equal (map (fun c => fst (snd (fst c))))) in E. rewrite !map_map in E. exact E. }
  rewrite <- !nth_error_map, E. reflexivity.
Qed.
Lemma remove_closed_sum s a : sumf (fun x => b2n (closedF x)) (runs (remove s a)) = sumf (fun x => b2n (closedF x)) (runs s).
Proof.
  unfold remove. destruct (mget _ _) as [i|]; auto. destruct (nth_error _ _) as [x|]; auto. cbn.
  destruct (nth_error (runs s) (irun x)) as [y|] eqn:E; auto.
  pose proof (sumf_upd (fun x => b2n (closedF x)) _ _ _ (with_mon y false) E). cbn in *. lia.
Qed.

Definition closed_in (l : list rstate) (r : nat) : nat :=
  match nth_error l r with Some x => b2n (closedF x) | None => 0 end.
Lemma closed_in_remove s a r : closed_in (runs (remove s a)) r = closed_in (runs s) r.
Proof.
  unfold closed_in. pose proof (remove_closed s a r) as H.
  destruct (nth_error (runs (remove s a)) r), (nth_error (runs s) r); cbn in H; try congruence.
Qed.
Lemma closed_in_upd l r x x' r' : nth_error l r = Some x ->
  closed_in (upd l r x') r' = if Nat.eqb r r' then b2n (closedF x') else closed_in l r'.
Proof.
  intros H. unfold closed_in. destruct (Nat.eqb_spec r r') as [<-|N].
  - rewrite (nth_error_upd_eq _ _ _ _ H). reflexivity.
  - rewrite nth_error_upd_neq by auto. reflexivity.
Qed.
Lemma closed_in_keep l r x x' r' : nth_error l r = Some x -> closedF x' = closedF x ->
  closed_in (upd l r x') r' = closed_in l r'.
Proof.
  intros H E. rewrite (closed_in_upd _ _ _ _ _ H), E. destruct (Nat.eqb_spec r r') as [<-|]; auto.
  unfold closed_in. rewrite H. reflexivity.
Qed.
Lemma closed_in_snoc l y r : closedF y = false -> closed_in (l ++ [y]) r = closed_in l r.
Proof.
  intros F. unfold closed_in. destruct (nth_error l r) as [x|] eqn:E.
  - rewrite (nth_error_app_old _ _ _ _ E). reflexivity.
  - destruct (nth_error (l ++ _) r) as [z|] eqn:E2; auto.
    destruct (nth_error_app_inv _ _ _ _ E2) as [H|[_ ->]]; [congruence|rewrite F; reflexivity].
Qed.

Ltac split_cases :=
  repeat match goal with
  | |- context [match nth_error ?l ?r with _ => _ end] => destruct (nth_error l r) eqn:?
  | |- context [match ?ch with ChTrue => _ | _ => _ end] => destruct ch eqn:?
  | |- context [if ?b then _ else _] => destruct b eqn:?
  end.

(* Which flag a step of a goroutine sets. *)
Lemma closed_thread s t p ch r : closed_in (runs (step_thread s t p ch)) r =
  match p with
  | CL0 r0 _ => if Nat.eqb r0 r then match nth_error (runs s) r0 with Some _ => 1 | None => 0 end else closed_in (runs s) r
  | _ => closed_in (runs s) r
  end.
Proof.
  destruct p; cbn [step_thread]; 
  repeat match goal with
  | |- context [match nth_error ?l ?r with _ => _ end] => destruct (nth_error l r) eqn:?
  | |- context [match ?ch with ChTrue => _ | _ => _ end] => destruct ch eqn:?
  | |- context [if (?a =? ?b)%nat then _ else _] => fail 1
  | |- context [if ?b then _ else _] => destruct b eqn:?
  end;
  cbn [set_thread set_run set_inf spawn threads runs RunModel.counter] in *;
  rewrite ?closed_in_remove; auto;
  try (eapply closed_in_keep; [eassumption|reflexivity]).
  - destruct (closedF r1) eqn:E; cbn [set_thread set_run runs].
    + unfold closed_in. destruct (Nat.eqb_spec r0 r) as [<-|]; auto. rewrite Heqo, E. reflexivity.
    + rewrite (closed_in_upd _ _ _ _ _ Heqo). reflexivity.
  - destruct (Nat.eqb_spec r0 r) as [<-|]; auto. unfold closed_in. rewrite Heqo. reflexivity.
Qed.

Lemma thread_sum g s t p p' : nth_error (threads s) t = Some p -> sumf g (upd (threads s) t p') + g p = sumf g (threads s) + g p'.
Proof. intros H. exact (sumf_upd g _ _ _ p' H). Qed.

Ltac open_step p ch :=
  destruct p; cbn [step_thread emits_thread]; split_cases;
  cbn [set_thread set_run set_inf spawn threads app sumf];
  rewrite ?remove_threads, ?sumf_app.

(* Closing: a run whose flag was won is being closed or has posted its removal. *)
Lemma close_step s e r :
  sumf (ew ManagerRemoved (Nat.eqb r)) (emits s e) + sumf (clw (Nat.eqb r)) (threads (step s e)) + closed_in (runs s) r
  = sumf (clw (Nat.eqb r)) (threads s) + closed_in (runs (step s e)) r.
Proof.
  destruct e as [m|n|a|t ch]; cbn [step emits].
  - cbn [sumf new_run threads runs]. rewrite closed_in_snoc by reflexivity. cbn. lia.
  - destruct (nth_error (queue s) n); cbn [threads sumf runs]; [rewrite sumf_app; cbn|]; lia.
  - destruct (mget _ _) as [i|]; cbn [sumf]; [|lia]. destruct (nth_error _ _); cbn [sumf]; [|lia].
    cbn [spawn set_inf threads runs]. rewrite sumf_app. cbn. lia.
  - destruct (nth_error (threads s) t) as [p|] eqn:Ht; [|cbn; lia].
    rewrite closed_thread.
    pose proof (fun p' => thread_sum (clw (Nat.eqb r)) s t p p' Ht) as TS.
    open_step p ch; unfold timeout_events, deferred; try (destruct k); cbn [app sumf resume];
    rewrite ?ew_remove by discriminate;
    try match goal with |- context [upd (threads s) t ?q] => pose proof (TS q) end;
    unfold clw, ew in *; cbn [closes fst snd qtype_eqb andb b2n] in *; 
    rewrite ?(Nat.eqb_sym _ r);
    try lia;
       repeat match goal with
       | H : (_ =? _)%nat = true |- _ => apply Nat.eqb_eq in H; subst
       | H : (?a =? ?b)%nat = false |- _ => rewrite (Nat.eqb_sym a b), ?H in *; clear H
       end; unfold closed_in in *;
       try match goal with H : nth_error (runs s) _ = _ |- _ => rewrite H in * end;
       rewrite ?Nat.eqb_refl in *; cbn [b2n] in *;
       try match goal with H : closedF _ = _ |- _ => rewrite H in * end; cbn [b2n] in *; try lia.
Qed.

Definition all (_ : nat) : bool := true.
Notation closed_sum l := (sumf (fun x => b2n (closedF x)) l).

Lemma closed_sum_thread s t p ch : closed_sum (runs (step_thread s t p ch)) =
  closed_sum (runs s) +
  match p with
  | CL0 r _ => match nth_error (runs s) r with Some x => b2n (negb (closedF x)) | None => 0 end
  | _ => 0
  end.
Proof.
  assert (U : forall r x x', nth_error (runs s) r = Some x ->
    closed_sum (upd (runs s) r x') + b2n (closedF x) = closed_sum (runs s) + b2n (closedF x')).
  { intros r x x' H. exact (sumf_upd (fun x => b2n (closedF x)) _ _ _ x' H). }
  destruct p; cbn [step_thread]; split_cases;
  cbn [set_thread set_run set_inf spawn threads runs RunModel.counter] in *;
  rewrite ?remove_closed_sum; try lia;
  try match goal with H : nth_error (runs s) ?r = Some _ |- context [upd (runs s) ?r ?y] => pose proof (U _ _ y H) end;
  cbn [with_running with_mon with_tries with_attempt with_closed with_ready with_post closedF b2n] in *;
  try match goal with H : closedF _ = _ |- _ => rewrite H in * end; cbn [b2n negb] in *; try lia.
Qed.

Lemma close_step_all s e :
  sumf (ew ManagerRemoved all) (emits s e) + sumf (clw all) (threads (step s e)) + closed_sum (runs s)
  = sumf (clw all) (threads s) + closed_sum (runs (step s e)).
Proof.
  destruct e as [m|n|a|t ch]; cbn [step emits].
  - cbn [sumf new_run threads runs]. rewrite sumf_app. cbn. lia.
  - destruct (nth_error (queue s) n); cbn [threads sumf runs]; [rewrite sumf_app; cbn|]; lia.
  - destruct (mget _ _) as [i|]; cbn [sumf]; [|lia]. destruct (nth_error _ _); cbn [sumf]; [|lia].
    cbn [spawn set_inf threads runs]. rewrite sumf_app. cbn. lia.
  - destruct (nth_error (threads s) t) as [p|] eqn:Ht; [|cbn; lia].
    rewrite closed_sum_thread.
    pose proof (fun p' => thread_sum (clw all) s t p p' Ht) as TS.
    open_step p ch; unfold timeout_events, deferred; try (destruct k); cbn [app sumf resume];
    rewrite ?ew_remove by discriminate;
    try match goal with |- context [upd (threads s) t ?q] => pose proof (TS q) end;
    unfold clw, ew in *; cbn [closes fst snd qtype_eqb andb b2n all negb] in *; 
    try match goal with H : closedF _ = _ |- _ => rewrite H in * end; cbn [b2n negb] in *;
    try lia.
Qed.

(* Timeouts: each handled timeout has posted one event. *)
Lemma timeout_step s e :
  sumf (ew Retried all) (emits s e) + sumf (ew Abandoned all) (emits s e) + sumf tow (threads s) = sumf tow (threads (step s e)).
Proof.
  destruct e as [m|n|a|t ch]; cbn [step emits].
  - cbn. lia.
  - destruct (nth_error (queue s) n); cbn [threads sumf runs]; [rewrite sumf_app; cbn|]; lia.
  - destruct (mget _ _) as [i|]; cbn [sumf]; [|lia]. destruct (nth_error _ _); cbn [sumf]; [|lia].
    cbn [spawn set_inf threads runs]. rewrite sumf_app. cbn. lia.
  - destruct (nth_error (threads s) t) as [p|] eqn:Ht; [|cbn; lia].
    pose proof (fun p' => thread_sum tow s t p p' Ht) as TS.
    open_step p ch; unfold timeout_events, deferred; try (destruct k); cbn [app sumf resume];
    rewrite ?ew_remove by discriminate;
    try match goal with |- context [upd (threads s) t ?q] => pose proof (TS q) end;
    unfold tow, ew in *; cbn [closes fst snd qtype_eqb andb b2n all] in *; 
    try lia.
Qed.

Lemma added_step s e r :
  sumf (ew ManagerAdded (Nat.eqb r)) (emits s e) + b2n (Nat.ltb r (length (runs s))) = b2n (Nat.ltb r (length (runs (step s e)))).
Proof.
  assert (RL : forall a, length (runs (remove s a)) = length (runs s)) by (intros; apply remove_shape).
  destruct e as [m|n|a|t ch]; cbn [step emits].
  - cbn [new_run runs]. rewrite app_length. unfold ew. cbn [sumf fst snd qtype_eqb andb length].
    destruct (Nat.eqb_spec r (length (runs s))); destruct (Nat.ltb_spec r (length (runs s)));
    destruct (Nat.ltb_spec r (length (runs s) + 1)); cbn; lia.
  - destruct (nth_error (queue s) n); cbn [sumf runs]; reflexivity.
  - destruct (mget _ _) as [i|]; cbn [sumf]; [|lia]. destruct (nth_error _ _); cbn [sumf runs spawn set_inf]; lia.
  - destruct (nth_error (threads s) t) as [p|] eqn:Ht; [|cbn; lia].
    destruct p; cbn [step_thread emits_thread]; split_cases; unfold timeout_events, deferred; try (destruct k);
    cbn [set_thread set_run set_inf spawn runs app sumf];
    rewrite ?ew_remove by discriminate; rewrite ?RL, ?upd_length; cbn; try lia.
Qed.

Lemma added_all s e :
  sumf (ew ManagerAdded all) (emits s e) + length (runs s) = length (runs (step s e)).
Proof.
  assert (RL : forall a, length (runs (remove s a)) = length (runs s)) by (intros; apply remove_shape).
  destruct e as [m|n|a|t ch]; cbn [step emits].
  - cbn [new_run runs]. rewrite app_length. cbn. lia.
  - destruct (nth_error (queue s) n); cbn [sumf runs]; lia.
  - destruct (mget _ _) as [i|]; cbn [sumf]; [|lia]. destruct (nth_error _ _); cbn [sumf runs spawn set_inf]; lia.
  - destruct (nth_error (threads s) t) as [p|] eqn:Ht; [|cbn; lia].
    destruct p; cbn [step_thread emits_thread]; split_cases; unfold timeout_events, deferred; try (destruct k);
    cbn [set_thread set_run set_inf spawn runs app sumf];
    rewrite ?ew_remove by discriminate; rewrite ?RL, ?upd_length; cbn; try lia.
Qed.

(* Attempts in flight: a registration is listed by the monitor, has posted its
   removal, or was overwritten by a registration under the same attempt ID. *)
Notation irs s := (map irun (inflights s)).
Definition gw (f : nat -> bool) (l : list nat) (i : nat) : nat := match nth_error l i with Some r => b2n (f r) | None => 0 end.
Definition mw (f : nat -> bool) (l : list nat) (m : list (N * nat)) : nat := sumf (fun e => gw f l (snd e)) m.
Definition hw (f : nat -> bool) (l : list nat) : nat := sumf (fun r => b2n (f r)) l.
Definition ND (s : state) : Prop := NoDup (map fst (mapping s)).

Lemma mdel_none m a : mget m a = None -> mdel m a = m.
Proof.
  unfold mget, mdel. induction m as [|[k v] m IH]; cbn; auto.
  destruct (N.eqb_spec k a); cbn; [discriminate|]. intros H. rewrite IH; auto.
Qed.
Lemma mdel_notin m a : ~ In a (map fst m) -> mdel m a = m.
Proof.
  unfold mdel. induction m as [|[k v] m IH]; cbn; auto. intros N.
  destruct (N.eqb_spec k a); cbn; [exfalso; auto|]. rewrite IH; auto.
Qed.
Lemma mdel_some f l m a i : NoDup (map fst m) -> mget m a = Some i -> mw f l (mdel m a) + gw f l i = mw f l m.
Proof.
  unfold mw. induction m as [|[k v] m IH]; cbn [map fst]; intros ND H; [discriminate|].
  inversion ND as [|? ? N1 N2]; subst. unfold mget in H. cbn [find fst] in H. unfold mdel. cbn [filter fst].
  destruct (N.eqb_spec k a) as [->|N]; cbn [negb sumf snd].
  - injection H as <-. fold (mdel m a). rewrite mdel_notin by auto. cbn. lia.
  - fold (mdel m a). cbn [sumf snd]. rewrite <- (IH N2 H). cbn [snd]. lia.
Qed.
Lemma mdel_keys m a : NoDup (map fst m) -> NoDup (map fst (mdel m a)) /\ ~ In a (map fst (mdel m a)).
Proof.
  unfold mdel. induction m as [|[k v] m IH]; cbn; intros ND; [split; auto|].
  inversion ND as [|? ? N1 N2]; subst. destruct (IH N2) as [A B].
  destruct (N.eqb_spec k a) as [->|N]; cbn; auto. split; [|intros [->|]; auto].
  constructor; auto. intros H. apply N1. apply in_map_iff in H. destruct H as (e & <- & I). apply filter_In in I. apply in_map. apply I.
Qed.

Lemma ND_remove s a : ND s -> ND (remove s a).
Proof.
  intros H. unfold remove. destruct (mget _ _); auto. destruct (nth_error _ _); auto. cbn. apply mdel_keys; auto.
Qed.
Lemma ND_step s e : ND s -> ND (step s e).
Proof.
  intros H. destruct e as [m|n|a|t ch]; cbn [step]; auto.
  - destruct (nth_error _ _); auto.
  - destruct (mget _ _); auto. destruct (nth_error _ _); auto.
  - destruct (nth_error _ _) as [p|]; auto.
    destruct p; cbn [step_thread]; split_cases; auto; try (apply (ND_remove s _ H)).
    unfold ND. cbn [mapping]. unfold mset. cbn. destruct (mdel_keys (mapping s) (attempt r0) H). constructor; auto.
Qed.

Lemma remove_inflights s a : irs (remove s a) = irs s.
Proof. apply remove_irun. Qed.
Lemma qr_remove f s a : Valid s -> ND s ->
  sumf (ew QueueRemoved f) (remove_events s a) + mw f (irs (remove s a)) (mapping (remove s a)) = mw f (irs s) (mapping s).
Proof.
  intros V N. rewrite remove_inflights. unfold remove_events, remove.
  destruct (mget (mapping s) a) as [i|] eqn:E; [|cbn; lia].
  destruct (nth_error (inflights s) i) as [x|] eqn:E2; [|cbn; lia].
  cbn [mapping]. rewrite <- (mdel_some f (irs s) _ _ _ N E). unfold gw, ew. rewrite nth_error_map, E2. cbn. lia.
Qed.

Definition lost (f : nat -> bool) (s : state) (e : event) : nat :=
  match e with
  | EStep t _ =>
    match nth_error (threads s) t with
    | Some (GR1 r) =>
      match nth_error (runs s) r with
      | Some x => match mget (mapping s) (attempt x) with Some i => gw f (irs s) i | None => 0 end
      | None => 0
      end
    | _ => 0
    end
  | _ => 0
  end.

Lemma upd_irun inf i x y : nth_error inf i = Some x -> irun y = irun x -> map irun (upd inf i y) = map irun inf.
Proof. intros. eapply map_upd_same; eauto. Qed.
Lemma gw_app f l r i : i < length l -> gw f (l ++ [r]) i = gw f l i.
Proof. intros H. unfold gw. rewrite nth_error_app1 by auto. reflexivity. Qed.
Lemma mw_app f l r m : Forall (fun e => snd e < length l) m -> mw f (l ++ [r]) m = mw f l m.
Proof.
  intros H. unfold mw. apply sumf_ext. intros e I. rewrite Forall_forall in H. apply gw_app. apply (H e I).
Qed.

Lemma qr_step f s e : Valid s -> ND s ->
  sumf (ew QueueRemoved f) (emits s e) + mw f (irs (step s e)) (mapping (step s e)) + hw f (irs s) + lost f s e
  = mw f (irs s) (mapping s) + hw f (irs (step s e)).
Proof.
  intros V N. destruct e as [m|n|a|t ch]; cbn [step emits lost].
  - cbn [sumf new_run inflights mapping]. unfold ew. cbn [fst qtype_eqb andb b2n]. lia.
  - destruct (nth_error (queue s) n); cbn [sumf inflights mapping]; lia.
  - destruct (mget _ _) as [i|]; cbn [sumf]; [|lia]. destruct (nth_error (inflights s) i) eqn:E; cbn [sumf]; [|lia].
    cbn [spawn set_inf inflights mapping]. erewrite upd_irun by (eassumption || reflexivity). lia.
  - destruct (nth_error (threads s) t) as [p|] eqn:Ht; [|cbn; lia].
    pose proof (fun a => qr_remove f s a V N) as R.
    destruct p; cbn [step_thread emits_thread]; split_cases; unfold timeout_events, deferred; try (destruct k);
    cbn [set_thread set_run set_inf spawn inflights mapping app sumf ew fst qtype_eqb andb b2n resume];
    rewrite ?(remove_inflights s);
    try match goal with H : nth_error (inflights s) ?i = Some _ |- context [upd (inflights s) ?i _] => rewrite (upd_irun _ _ _ _ H) by reflexivity end;
    try match goal with |- context [remove_events s ?a] => specialize (R a); rewrite (remove_inflights s) in R; cbn [set_thread inflights mapping] in * end;
    unfold ew in *; cbn [fst qtype_eqb andb b2n] in *; try lia.
    + (* registration *)
      destruct (mget (mapping s) (attempt r0)) as [i|] eqn:E.
      * unfold mset, mw at 1. cbn [sumf snd]. rewrite map_app. cbn [map irun].
        fold (mw f (irs s ++ [r]) (mdel (mapping s) (attempt r0))).
        pose proof (mdel_some f (irs s) _ _ _ N E).
        rewrite mw_app. 2: { apply Forall_filter. pose proof (V_m _ V). rewrite map_length. assumption. }
        unfold hw. rewrite sumf_app. cbn [sumf].
        unfold gw at 1. rewrite <- (map_length irun (inflights s)), nth_error_app_last. lia.
      * unfold mset, mw at 1. cbn [sumf snd]. rewrite map_app. cbn [map irun].
        fold (mw f (irs s ++ [r]) (mdel (mapping s) (attempt r0))).
        rewrite mdel_none by auto.
        rewrite mw_app. 2: { pose proof (V_m _ V). rewrite map_length. assumption. }
        unfold hw. rewrite sumf_app. cbn [sumf].
        unfold gw. rewrite <- (map_length irun (inflights s)), nth_error_app_last. lia.
Qed.

Lemma lost_race_free f s e : L s -> lost f s e = 0.
Proof.
  intros HL. destruct e as [m|n|a|t ch]; cbn [lost]; auto.
  destruct (nth_error (threads s) t) as [p|] eqn:Ht; auto. destruct p; auto.
  destruct (nth_error (runs s) r) as [x|] eqn:Hr; auto.
  destruct (mget (mapping s) (attempt x)) as [i|] eqn:E; auto. exfalso.
  destruct (L_map _ HL _ _ E) as (y & _ & A & B & _).
  apply (L_fp _ HL _ _ _ _ _ _ Ht Logic.I eq_refl Hr A B).
Qed.

(* In race-free executions a timeout that gives up closes the run itself, and
   without publishing it. *)
Definition tpc (l : list rstate) (p : pc) : Prop :=
  match p with
  | CL0 r (KTimer _) | CL1 r (KTimer _) => forall x, nth_error l r = Some x -> mon x = false
  | CL1b _ (KTimer _) | CL1c _ (KTimer _) | CL2 _ true (KTimer _) | CL3 _ true (KTimer _) | CL4 _ (KTimer _) => False
  | _ => True
  end.
Definition T (s : state) : Prop := forall t p, nth_error (threads s) t = Some p -> tpc (runs s) p.

(* mon is only raised by the goroutine that registers the run. *)
Lemma mon_thread s t p ch r x' : nth_error (runs (step_thread s t p ch)) r = Some x' -> mon x' = true ->
  p = GR1 r \/ exists x, nth_error (runs s) r = Some x /\ mon x = true.
Proof.
  assert (U : forall r0 x0 y r x', nth_error (runs s) r0 = Some x0 -> mon y = mon x0 ->
     nth_error (upd (runs s) r0 y) r = Some x' -> mon x' = true -> exists x, nth_error (runs s) r = Some x /\ mon x = true).
  { intros r0 x0 y r1 x1 H M H2 M2. destruct (Nat.eq_dec r0 r1) as [<-|N].
    - rewrite (nth_error_upd_eq _ _ _ _ H) in H2. injection H2 as <-. exists x0. split; congruence.
    - rewrite nth_error_upd_neq in H2 by auto. eauto. }
  assert (RM : forall a r x', nth_error (runs (remove s a)) r = Some x' -> mon x' = true -> exists x, nth_error (runs s) r = Some x /\ mon x = true).
  { intros a r1 x1. unfold remove. destruct (mget _ _) as [i|]; [|eauto]. destruct (nth_error (inflights s) i) as [y|]; [|eauto].
    cbn. destruct (nth_error (runs s) (irun y)) as [z|] eqn:E; [|eauto].
    intros H M. destruct (Nat.eq_dec (irun y) r1) as [<-|N].
    - rewrite (nth_error_upd_eq _ _ _ _ E) in H. injection H as <-. discriminate.
    - rewrite nth_error_upd_neq in H by auto. eauto. }
  intros H M. revert H.
  destruct p as [r0|r0|i|i|i|i|i|r0|r0 last k|r0 last k|r0 last k|r0 last k|r0 k|r0 k|r0 k|r0 k|r0 k|r0 k|r0 pp k|r0 pp k|r0 k| |]; cbn [step_thread]; split_cases; cbn [set_thread set_run set_inf runs]; intros H; try (right; eauto; fail);
  try (right; eapply U; [eassumption| |eassumption|assumption]; reflexivity).
  destruct (Nat.eq_dec r0 r) as [<-|N]; [left; reflexivity|]. rewrite nth_error_upd_neq in H by auto. right. eauto.
Qed.

Lemma T_step s e : L s -> T s -> T (step s e).
Proof.
  intros HL HT. destruct e as [m|n|a|t ch]; cbn [step].
  - intros t p H. cbn [new_run threads runs] in *. specialize (HT _ _ H). 
    assert (X : forall r, worker p = Some r -> (forall x, nth_error (runs s) r = Some x -> mon x = false) ->
       forall x, nth_error (runs s ++ [mkR m (next_id (RunModel.counter s)) (Z.of_nat m) false false false 0 0 0]) r = Some x -> mon x = false).
    { intros r _ A x B. destruct (nth_error_app_inv _ _ _ _ B) as [C|[_ ->]]; auto. }
    destruct p; auto; destruct k; auto; cbn in *; eapply X; eauto.
  - destruct (nth_error (queue s) n); auto. intros t p H. cbn [threads runs] in *.
    destruct (nth_error_app_inv _ _ _ _ H) as [C|[_ ->]]; [eauto|exact Logic.I].
  - destruct (mget _ _) as [i|]; auto. destruct (nth_error _ _); auto. intros t p H. cbn [threads runs spawn set_inf] in *.
    destruct (nth_error_app_inv _ _ _ _ H) as [C|[_ ->]]; [eauto|exact Logic.I].
  - destruct (nth_error (threads s) t) as [p|] eqn:Ht; auto.
    assert (OLD : forall t' q, t' <> t -> nth_error (threads s) t' = Some q -> tpc (runs (step_thread s t p ch)) q).
    { intros t' q NT Hq. pose proof (HT _ _ Hq) as Q.
      assert (Y : forall r, worker q = Some r -> (forall x, nth_error (runs s) r = Some x -> mon x = false) ->
        forall x, nth_error (runs (step_thread s t p ch)) r = Some x -> mon x = false).
      { intros r W A x B. destruct (mon x) eqn:M; auto. exfalso.
        destruct (mon_thread _ _ _ _ _ _ B M) as [->|(x0 & C & D)].
        - apply NT. eapply (worker_unique s r); eauto.
        - rewrite (A _ C) in D. discriminate. }
      destruct q; auto; destruct k; auto; cbn in *; eapply Y; eauto. }
    assert (TH : exists p' extra, threads (step_thread s t p ch) = upd (threads s) t p' ++ extra /\
       tpc (runs (step_thread s t p ch)) p' /\ Forall (tpc (runs (step_thread s t p ch))) extra).
    { pose proof (HT _ _ Ht) as P.
      pose proof (fun r x W E => L_pc _ HL t p r x Ht W E) as PC.
      assert (SAME : exists p' extra, threads s = upd (threads s) t p' ++ extra /\ tpc (runs s) p' /\ Forall (tpc (runs s)) extra).
      { exists p, []. rewrite app_nil_r. split; [|auto]. clear - Ht. revert t Ht. induction (threads s) as [|h l IH]; intros [|t]; cbn; intros H; try discriminate; auto.
        - injection H as ->. reflexivity.
        - rewrite <- IH; auto. }
      destruct p as [r0|r0|i|i|i|i|i|r0|r0 last k|r0 last k|r0 last k|r0 last k|r0 k|r0 k|r0 k|r0 k|r0 k|r0 k|r0 pp k|r0 pp k|r0 k| |]; cbn [step_thread]; split_cases; cbn [set_thread set_run set_inf runs threads];
        rewrite ?remove_threads; try exact SAME;
        try (match goal with |- context [upd (threads s) t ?q] => exists q, [] end; rewrite app_nil_r; split; [reflexivity|split; [|constructor]];
             try destruct k; try exact Logic.I; cbn in *; auto; fail);
        try (match goal with |- context [upd (threads s) t ?q ++ ?e] => exists q, e; split; [reflexivity|split; [exact Logic.I|repeat constructor]] end);
        try (match goal with |- context [upd (threads s) t ?q] => exists q, [] end; rewrite app_nil_r; split; [reflexivity|split; [|constructor]]).
      - destruct k; cbn; auto. intros x E. rewrite (nth_error_upd_eq _ _ _ _ Heqo) in E. injection E as <-. cbn. apply (PC _ _ eq_refl Heqo).
      - destruct k; cbn; auto. intros x E. apply (PC _ _ eq_refl E).
      - destruct k; cbn; auto. intros x E. rewrite (nth_error_upd_eq _ _ _ _ Heqo) in E. injection E as <-. cbn. apply P, Heqo.
      - destruct k; cbn; auto. cbn in P. rewrite (P _ Heqo) in Heqb. discriminate. }
    destruct TH as (p' & extra & E1 & E2 & E3). intros t' q Hq. rewrite E1 in Hq.
    destruct (Nat.lt_ge_cases t' (length (upd (threads s) t p'))) as [Lt|Ge].
    + rewrite nth_error_app1 in Hq by auto. destruct (Nat.eq_dec t t') as [<-|N].
      * rewrite (nth_error_upd_eq _ _ _ _ Ht) in Hq. injection Hq as <-. exact E2.
      * rewrite nth_error_upd_neq in Hq by auto. apply (OLD t'); auto.
    + rewrite nth_error_app2 in Hq by auto. apply (nth_error_Forall _ _ _ _ E3 Hq).
Qed.

Definition posts_in (l : list rstate) (r : nat) : nat := match nth_error l r with Some x => npost x | None => 0 end.
Lemma posts_keep l r x x' r' : nth_error l r = Some x -> npost x' = npost x -> posts_in (upd l r x') r' = posts_in l r'.
Proof.
  intros H E. unfold posts_in. destruct (Nat.eq_dec r r') as [<-|N].
  - rewrite (nth_error_upd_eq _ _ _ _ H), H, E. reflexivity.
  - rewrite nth_error_upd_neq by auto. reflexivity.
Qed.
Lemma posts_remove s a r : posts_in (runs (remove s a)) r = posts_in (runs s) r.
Proof.
  unfold remove. destruct (mget _ _) as [i|]; auto. destruct (nth_error _ _) as [x|]; auto. cbn.
  destruct (nth_error (runs s) (irun x)) as [y|] eqn:E; auto. eapply posts_keep; eauto.
Qed.
Lemma posts_thread s t p ch r : posts_in (runs (step_thread s t p ch)) r =
  posts_in (runs s) r + match p with CL4 r0 _ => match nth_error (runs s) r0 with Some _ => b2n (Nat.eqb r r0) | None => 0 end | _ => 0 end.
Proof.
  destruct p as [r0|r0|i|i|i|i|i|r0|r0 last k|r0 last k|r0 last k|r0 last k|r0 k|r0 k|r0 k|r0 k|r0 k|r0 k|r0 pp k|r0 pp k|r0 k| |]; cbn [step_thread];
  split_cases; cbn [set_thread set_run set_inf runs threads]; rewrite ?posts_remove; try lia;
  try (erewrite posts_keep by (eassumption || reflexivity); lia).
  unfold posts_in. destruct (Nat.eqb_spec r r0) as [->|N].
  - rewrite (nth_error_upd_eq _ _ _ _ Heqo), Heqo. cbn. lia.
  - rewrite nth_error_upd_neq by auto. cbn. lia.
Qed.

Lemma abandon_step s e r : L s -> T s ->
  sumf (ew Abandoned (Nat.eqb r)) (emits s e) + posts_in (runs (step s e)) r
  <= sumf (ew ManagerRemoved (Nat.eqb r)) (emits s e) + posts_in (runs s) r.
Proof.
  intros HL HT. destruct e as [m|n|a|t ch]; cbn [step emits].
  - cbn [sumf new_run runs]. unfold ew. cbn [fst qtype_eqb andb b2n]. unfold posts_in.
    destruct (nth_error (runs s) r) as [x|] eqn:E.
    + rewrite (nth_error_app_old _ _ _ _ E). lia.
    + destruct (nth_error (runs s ++ _) r) as [z|] eqn:E2; [|lia].
      destruct (nth_error_app_inv _ _ _ _ E2) as [H|[_ ->]]; [congruence|cbn; lia].
  - destruct (nth_error (queue s) n); cbn [sumf runs]; lia.
  - destruct (mget _ _) as [i|]; cbn [sumf]; [|lia]. destruct (nth_error _ _); cbn [sumf runs spawn set_inf]; lia.
  - destruct (nth_error (threads s) t) as [p|] eqn:Ht; [|cbn; lia].
    rewrite posts_thread. pose proof (HT _ _ Ht) as P.
    pose proof (fun r x W E => L_pc _ HL t p r x Ht W E) as PC.
    destruct p as [r0|r0|i|i|i|i|i|r0|r0 last k|r0 last k|r0 last k|r0 last k|r0 k|r0 k|r0 k|r0 k|r0 k|r0 k|r0 pp k|r0 pp k|r0 k| |]; cbn [emits_thread];
    split_cases; unfold timeout_events, deferred; try (destruct k); cbn [app sumf];
    rewrite ?ew_remove by discriminate; unfold ew; cbn [fst snd qtype_eqb andb b2n]; try lia.
    + pose proof (PC _ _ eq_refl Heqo) as Q. cbn in Q. congruence.
    + destruct P.
Qed.

(* Whole executions. *)

Lemma closed_total c0 es : let s := exec (init c0) es in
  sumf (ew ManagerRemoved all) (posted (init c0) es) + sumf (clw all) (threads s) = closed_sum (runs s).
Proof.
  cbn. induction es as [|e es IH] using rev_ind; [reflexivity|].
  rewrite posted_snoc, exec_snoc, sumf_app. pose proof (close_step_all (exec (init c0) es) e). lia.
Qed.
Lemma closed_run c0 es r : let s := exec (init c0) es in
  sumf (ew ManagerRemoved (Nat.eqb r)) (posted (init c0) es) + sumf (clw (Nat.eqb r)) (threads s) = closed_in (runs s) r.
Proof.
  cbn. induction es as [|e es IH] using rev_ind; [cbn; unfold closed_in; destruct r; reflexivity|].
  rewrite posted_snoc, exec_snoc, sumf_app. pose proof (close_step (exec (init c0) es) e r). lia.
Qed.
Lemma added_total c0 es : sumf (ew ManagerAdded all) (posted (init c0) es) = length (runs (exec (init c0) es)).
Proof.
  induction es as [|e es IH] using rev_ind; [reflexivity|].
  rewrite posted_snoc, exec_snoc, sumf_app. pose proof (added_all (exec (init c0) es) e). lia.
Qed.
Lemma added_run c0 es r : sumf (ew ManagerAdded (Nat.eqb r)) (posted (init c0) es) = b2n (Nat.ltb r (length (runs (exec (init c0) es)))).
Proof.
  induction es as [|e es IH] using rev_ind; [reflexivity|].
  rewrite posted_snoc, exec_snoc, sumf_app. pose proof (added_step (exec (init c0) es) e r). lia.
Qed.
Lemma timeouts_total c0 es :
  sumf (ew Retried all) (posted (init c0) es) + sumf (ew Abandoned all) (posted (init c0) es) = sumf tow (threads (exec (init c0) es)).
Proof.
  induction es as [|e es IH] using rev_ind; [reflexivity|].
  rewrite posted_snoc, exec_snoc, !sumf_app. pose proof (timeout_step (exec (init c0) es) e). lia.
Qed.
Lemma valid_exec c0 es : Valid (exec (init c0) es) /\ ND (exec (init c0) es).
Proof.
  induction es as [|e es IH] using rev_ind; [split; [apply valid_init|constructor]|].
  rewrite exec_snoc. split; [apply RunProofs.valid_step, IH|apply ND_step, IH].
Qed.
Lemma waits_bounded c0 es f : let s := exec (init c0) es in
  sumf (ew QueueRemoved f) (posted (init c0) es) + mw f (irs s) (mapping s) <= hw f (irs s).
Proof.
  cbn. induction es as [|e es IH] using rev_ind; [cbn; lia|].
  rewrite posted_snoc, exec_snoc, !sumf_app. destruct (valid_exec c0 es) as [V N].
  pose proof (qr_step f _ e V N). lia.
Qed.
Lemma race_free_snoc s es e : race_free_exec s (es ++ [e]) -> race_free_exec s es.
Proof. intros H. apply race_free_app in H. apply H. Qed.
Lemma waits_exact c0 es f : let s := exec (init c0) es in
  (c0 + N.of_nat (length es) < 2 ^ 64)%N -> race_free_exec (init c0) es ->
  sumf (ew QueueRemoved f) (posted (init c0) es) + mw f (irs s) (mapping s) = hw f (irs s).
Proof.
  cbn. induction es as [|e es IH] using rev_ind; intros B R; [reflexivity|].
  rewrite app_length in B. cbn [length] in B.
  rewrite posted_snoc, exec_snoc, !sumf_app. destruct (valid_exec c0 es) as [V N].
  pose proof (qr_step f _ e V N).
  assert (R' := race_free_snoc _ _ _ R). assert (B' : (c0 + N.of_nat (length es) < 2 ^ 64)%N) by lia.
  rewrite lost_race_free in H by (apply L_from_init; auto). specialize (IH B' R'). lia.
Qed.
Lemma T_exec c0 es : (c0 + N.of_nat (length es) < 2 ^ 64)%N -> race_free_exec (init c0) es -> T (exec (init c0) es).
Proof.
  induction es as [|e es IH] using rev_ind; intros B R; [intros [|t] p H; discriminate|].
  rewrite app_length in B. cbn [length] in B. rewrite exec_snoc.
  assert (R' := race_free_snoc _ _ _ R). assert (B' : (c0 + N.of_nat (length es) < 2 ^ 64)%N) by lia.
  apply T_step; auto. apply L_from_init; auto.
Qed.
Lemma abandoned_exact c0 es r : (c0 + N.of_nat (length es) < 2 ^ 64)%N -> race_free_exec (init c0) es ->
  sumf (ew Abandoned (Nat.eqb r)) (posted (init c0) es) + posts_in (runs (exec (init c0) es)) r
  <= sumf (ew ManagerRemoved (Nat.eqb r)) (posted (init c0) es).
Proof.
  induction es as [|e es IH] using rev_ind; intros B R; [cbn; unfold posts_in; destruct r; cbn; lia|].
  rewrite app_length in B. cbn [length] in B. rewrite posted_snoc, exec_snoc, !sumf_app.
  assert (R' := race_free_snoc _ _ _ R). assert (B' : (c0 + N.of_nat (length es) < 2 ^ 64)%N) by lia.
  pose proof (abandon_step (exec (init c0) es) e r (L_from_init _ _ B' R') (T_exec _ _ B' R')). specialize (IH B' R'). lia.
Qed.

(* The processor. *)
Lemma gauge_fold prio n es : forall m, gauge (fold_left (process1 prio) es m) n =
  (gauge m n + fold_right (fun e a => gauge (process1 prio start e) n + a) 0 es)%Z.
Proof.
  induction es as [|e es IH]; intros m; cbn [fold_left fold_right]; [lia|]. rewrite IH.
  assert (E : gauge (process1 prio m e) n = (gauge m n + gauge (process1 prio start e) n)%Z).
  { destruct e as [[] r]; unfold process1; cbn [fst snd]; try (destruct (prio r));
    unfold summary_observe, gauge_add; cbn [known existsb gauges summaries delay_name String.eqb Ascii.eqb Bool.eqb orb gauge start];
    try (destruct (String.eqb n _)); cbn [gauge start]; lia. }
  lia.
Qed.
Lemma observed_fold prio n es : forall m, observed (fold_left (process1 prio) es m) n =
  observed m n + sumf (fun e => observed (process1 prio start e) n) es.
Proof.
  induction es as [|e es IH]; intros m; cbn [fold_left sumf]; [lia|]. rewrite IH.
  assert (E : observed (process1 prio m e) n = observed m n + observed (process1 prio start e) n).
  { destruct e as [[] r]; unfold process1; cbn [fst snd]; try (destruct (prio r));
    unfold summary_observe, gauge_add; cbn [known existsb gauges summaries delay_name String.eqb Ascii.eqb Bool.eqb orb observed start];
    try (destruct (String.eqb n _)); cbn [observed start]; lia. }
  lia.
Qed.
Lemma counter_fold prio n es : forall m, counter_ (fold_left (process1 prio) es m) n = counter_ m n.
Proof.
  induction es as [|e es IH]; intros m; cbn [fold_left]; auto. rewrite IH.
  destruct e as [[] r]; unfold process1; cbn [fst snd]; try (destruct (prio r));
    unfold summary_observe, gauge_add; cbn [known existsb gauges summaries delay_name String.eqb Ascii.eqb Bool.eqb orb]; reflexivity.
Qed.

Lemma gauge_total prio es : gauge (process prio es) "grader_queue_total_length" =
  (Z.of_nat (sumf (ew ManagerAdded all) es) - Z.of_nat (sumf (ew ManagerRemoved all) es))%Z.
Proof.
  unfold process. rewrite gauge_fold. cbn [gauge start]. induction es as [|e es IH]; [reflexivity|]. cbn [fold_right sumf].
  destruct e as [[] r]; unfold process1 at 1; cbn [fst snd] in *; try (destruct (prio r)); unfold ew in *; cbn [fst qtype_eqb andb b2n all] in *; cbn -[Z.add Z.sub] in *; lia.
Qed.
Lemma gauge_other prio es n : n <> "grader_queue_total_length"%string -> gauge (process prio es) n = 0%Z.
Proof.
  intros N. unfold process. rewrite gauge_fold. cbn [gauge start]. induction es as [|e es IH]; [reflexivity|]. cbn [fold_right sumf].
  assert (E : gauge (process1 prio start e) n = 0%Z).
  { destruct e as [[] r]; unfold process1; cbn [fst snd]; try (destruct (prio r)); unfold gauge_add, summary_observe;
    cbn [known existsb gauges summaries delay_name String.eqb Ascii.eqb Bool.eqb orb gauge start];
    try (destruct (String.eqb_spec n "grader_queue_total_length"%string); [congruence|]); reflexivity. }
  lia.
Qed.
Lemma observed_delay prio es : observed (process prio es) "grader_queue_delay_seconds" = sumf (ew ManagerRemoved all) es.
Proof.
  unfold process. rewrite observed_fold. cbn [observed start Nat.add]. apply sumf_ext. intros e _.
  destruct e as [[] r]; unfold process1; cbn [fst snd]; try (destruct (prio r)); reflexivity.
Qed.
Lemma observed_wait prio es p : observed (process prio es) (delay_name p) = sumf (ew QueueRemoved (fun r => pri_eqb (prio r) p)) es.
Proof.
  unfold process. rewrite observed_fold. cbn [observed start Nat.add]. apply sumf_ext. intros e _.
  destruct e as [[] r]; unfold process1; cbn [fst snd]; unfold ew; cbn [fst snd]; try (destruct (prio r)); destruct p; reflexivity.
Qed.

Lemma sumf_perm {A} (f : A -> nat) l l' : Permutation l l' -> sumf f l = sumf f l'.
Proof. induction 1; cbn; lia. Qed.
Lemma order_l prio es es' : Permutation es es' -> forall n,
  gauge (process prio es) n = gauge (process prio es') n /\ counter_ (process prio es) n = counter_ (process prio es') n /\
  observed (process prio es) n = observed (process prio es') n.
Proof.
  intros P n. unfold process. split; [|split].
  - rewrite !gauge_fold. f_equal. induction P; cbn [fold_right]; lia.
  - rewrite !counter_fold. reflexivity.
  - rewrite !observed_fold. f_equal. apply sumf_perm, P.
Qed.

(* Links to the specification vocabulary. *)
Lemma events_of_ew k es : events_of k es = sumf (ew k all) es.
Proof. unfold events_of. rewrite len_filter. apply sumf_ext. intros e _. unfold ew, all. rewrite andb_true_r. reflexivity. Qed.
Lemma events_about_ew k r es : events_about k r es = sumf (ew k (Nat.eqb r)) es.
Proof. unfold events_about. rewrite len_filter. apply sumf_ext. intros e _. unfold ew. rewrite Nat.eqb_sym. reflexivity. Qed.
Lemma closing_ew s : closing s = sumf (clw all) (threads s).
Proof. unfold closing. rewrite len_filter. apply sumf_ext. intros p _. unfold clw. destruct (closes p); reflexivity. Qed.
Lemma being_closed_ew s r : being_closed s r = sumf (clw (Nat.eqb r)) (threads s).
Proof. unfold being_closed. rewrite len_filter. apply sumf_ext. intros p _. unfold clw. destruct (closes p); auto. rewrite Nat.eqb_sym. reflexivity. Qed.
Lemma timed_out_tow s : timed_out s = sumf tow (threads s).
Proof. unfold timed_out. rewrite len_filter. apply sumf_ext. intros p _. destruct p; reflexivity. Qed.
Lemma closed_runs_sum s : closed_runs s = closed_sum (runs s).
Proof. unfold closed_runs. rewrite len_filter. reflexivity. Qed.
Lemma open_closed s : open_runs s + closed_sum (runs s) = length (runs s).
Proof. unfold open_runs. rewrite len_filter. induction (runs s) as [|x l IH]; cbn; auto. destruct (closedF x); cbn in *; lia. Qed.
Lemma attempts_hw prio p s : attempts_of prio p s = hw (fun r => pri_eqb (prio r) p) (irs s).
Proof. unfold attempts_of, hw. rewrite len_filter. induction (inflights s); cbn; auto. Qed.
Lemma inflight_mw prio p s : inflight_of prio p s = mw (fun r => pri_eqb (prio r) p) (irs s) (mapping s).
Proof.
  unfold inflight_of, mw. rewrite len_filter. apply sumf_ext. intros e _. unfold gw. rewrite nth_error_map.
  destruct (nth_error (inflights s) (snd e)); reflexivity.
Qed.

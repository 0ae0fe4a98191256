From Coq Require Import String Ascii List Arith NArith ZArith Bool Lia.
From Verif Require Import GoStr BcFilterModel BcFilterSpec BcFilterProps BcModel BcSpec BcProofs BcProps BhModel BhSpec.
Import ListNotations.
Local Open Scope string_scope.

Lemma split_app_any c a : forall b, split c (a ++ String c b) = (split c a ++ split c b)%list.
Proof.
  induction a as [|x a IH]; intros b; cbn [append split].
  - rewrite Ascii.eqb_refl. reflexivity.
  - rewrite IH. destruct (Ascii.eqb x c) eqn:E; [reflexivity|]. destruct (split_cons c a) as (h & t & Hs). rewrite Hs. reflexivity.
Qed.
Lemma split_join_flat c l : l <> [] -> split c (join c l) = flat_map (split c) l.
Proof.
  induction l as [|x l IH]; [congruence|]. intros _. destruct l as [|y l].
  - cbn [join flat_map]. rewrite app_nil_r. reflexivity.
  - change (join c (x :: y :: l)) with (x ++ String c (join c (y :: l))). rewrite split_app_any, IH by congruence. reflexivity.
Qed.

Lemma prefix_spec p : forall s, prefix p s = true <-> exists r, s = p ++ r.
Proof.
  induction p as [|c p IH]; intros s; cbn [prefix append].
  - split; [exists s; auto|destruct s; auto].
  - destruct s as [|d s]; [split; [discriminate|intros (r & X); discriminate X]|].
    cbn [prefix]. destruct (ascii_dec c d) as [->|N].
    + split; [intros H; apply IH in H as (r & X); exists r; congruence|intros (r & X); apply IH; exists r; injection X; auto].
    + split; [discriminate|intros (r & X); injection X; congruence].
Qed.
Lemma Contains_spec p : forall s, Contains s p = true <-> exists a b, s = a ++ p ++ b.
Proof.
  induction s as [|c s IH]; cbn [Contains].
  - rewrite orb_false_r, prefix_spec. split.
    + intros (r & X). exists "", r. auto.
    + intros (a & b & X). destruct a; [|discriminate X]. exists b. auto.
  - rewrite orb_true_iff, prefix_spec, IH. split.
    + intros [(r & X)|(a & b & X)]; [exists "", r; auto|exists (String c a), b; cbn; congruence].
    + intros (a & b & X). destruct a as [|d a]; [left; exists b; auto|right; exists a, b; injection X; auto].
Qed.

Lemma is_space_spec c : is_space c = true <-> In c spaces.
Proof.
  split.
  - destruct c as [[] [] [] [] [] [] [] []]; intro H; vm_compute in H; first [discriminate H | unfold spaces; cbn [In]; tauto].
  - intros H. repeat (destruct H as [<-|H]; [reflexivity|]). elim H.
Qed.
Lemma blank_cons c s : blank (String c s) <-> is_space c = true /\ blank s.
Proof.
  unfold blank. rewrite is_space_spec. split.
  - intros H. split; [apply H, contains_cons; auto|intros x Hx; apply H, contains_cons; auto].
  - intros [A B] x Hx. apply contains_cons in Hx as [->|Hx]; auto.
Qed.
Lemma trim_left_split s : exists l, s = l ++ trim_left s /\ blank l.
Proof.
  induction s as [|c s (l & A & B)]; [exists ""; split; [auto|intros x []]|]. cbn [trim_left]. destruct (is_space c) eqn:E.
  - exists (String c l). split; [cbn; congruence|apply blank_cons; auto].
  - exists "". split; [auto|intros x []].
Qed.
Lemma trim_right_split s : exists r, s = trim_right s ++ r /\ blank r.
Proof.
  induction s as [|c s (r & A & B)]; [exists ""; split; [auto|intros x []]|]. cbn [trim_right]. destruct (trim_right s) as [|d t] eqn:E.
  - destruct (is_space c) eqn:F.
    + exists (String c s). split; [auto|]. apply blank_cons. cbn in A. subst r. auto.
    + exists s. cbn in A. subst r. auto.
  - exists r. cbn in A |- *. split; [congruence|auto].
Qed.
Lemma length_append a b : String.length (a ++ b) = (String.length a + String.length b)%nat.
Proof. induction a; cbn; auto. Qed.
Lemma trim_left_blank l x : blank l -> trim_left (l ++ x) = trim_left x.
Proof. induction l as [|c l IH]; intros B; [auto|]. apply blank_cons in B as [A B]. cbn. rewrite A. auto. Qed.
Lemma trim_right_all r : blank r -> trim_right r = "".
Proof. induction r as [|c r IH]; intros B; [auto|]. apply blank_cons in B as [A B]. cbn. rewrite IH, A by auto. auto. Qed.
Lemma trim_right_blank x r : blank r -> trim_right (x ++ r) = trim_right x.
Proof.
  intros B. induction x as [|c x IH]; cbn [append trim_right]; [rewrite trim_right_all by auto; auto|]. rewrite IH. auto.
Qed.
Lemma accepts_spec accept mime : trim_left mime = mime -> trim_right mime = mime -> mime <> "" ->
  AcceptsMimeType accept mime = true <-> lists_type accept mime.
Proof.
  intros T1 T2 NE. unfold AcceptsMimeType. rewrite existsb_exists. split.
  - intros (a & Ha & H). apply existsb_exists in H as (x & Hx & E). apply String.eqb_eq in E.
    unfold TrimSpace in E. destruct (trim_left_split x) as (l & A & B). destruct (trim_right_split (trim_left x)) as (r & C & D).
    rewrite E in C. exists a, l, mime, r. rewrite <- C, <- A. auto.
  - intros (a & l & x & r & Ha & Hx & -> & B & D). exists a. split; [auto|]. apply existsb_exists. exists (l ++ mime ++ r). split; [auto|].
    apply String.eqb_eq. unfold TrimSpace. rewrite trim_left_blank by auto.
    assert (X : trim_left (mime ++ r) = mime ++ r).
    { destruct mime as [|c m]; [congruence|]. cbn [trim_left append] in T1 |- *. destruct (is_space c) eqn:E; [|auto].
      exfalso. destruct (trim_left_split m) as (k & K & _). rewrite T1 in K. apply (f_equal String.length) in K.
      rewrite length_append in K. cbn in K. lia. }
    rewrite X, trim_right_blank by auto. auto.
Qed.

Section Sys.
Variable req : nat -> request.
Variable channelLength : nat.
Notation info := (info req).
Notation websocket := (websocket req).
Notation go := (go req channelLength).
Notation sstep := (sstep req channelLength).
Notation srun := (srun req channelLength).
Notation call := (call req channelLength).
Notation bstep := (step info websocket channelLength).
Notation brun := (run info websocket channelLength).

Definition is_events (i : nat) : Prop := match req i with Events _ _ _ _ _ => True | _ => False end.

(* The transitions of one handler that leave the Broadcaster and the channels
   alone. *)
Inductive quiet (s : sys) (i : nat) : phase -> Prop :=
| q_connect : is_events i -> at_ s i = Idle -> quiet s i Connected
| q_upgrade : is_events i -> at_ s i = Idle -> websocket i = true -> quiet s i (Answered (Plain 400 "Bad Request" None))
| q_created x : created req i = Ok x -> is_events i -> at_ s i = Connected -> quiet s i Created
| q_refused : created req i = Err -> is_events i -> at_ s i = Connected -> quiet s i (refusal req i)
| q_abort : created req i = Panic -> is_events i -> at_ s i = Connected -> quiet s i Aborted
| q_busy x : created req i = Ok x -> is_events i -> at_ s i = Created -> (5 <= length (q_subscribe (bc s)))%nat -> quiet s i (refuse req i 503 "")
| q_post_bad method body : req i = PostBroadcast method body -> posted req i = None -> at_ s i = Idle -> quiet s i (Answered (Plain 400 "" None))
| q_post_full method body m : req i = PostBroadcast method body -> posted req i = Some m -> (channelLength <= length (q_messages (bc s)))%nat -> at_ s i = Idle ->
    quiet s i (Answered (Plain 503 "" None))
| q_deauth_bad path : req i = Deauth path -> (length (split "/" path) < 3)%nat -> at_ s i = Idle -> quiet s i (Answered (Plain 400 "" None)).

Definition update_needed (m : message) : bool := negb (m_contest m =? "") && Contains (m_text m) run_update.

Inductive eff (s : sys) (i : nat) : sys -> Prop :=
| e_same : eff s i s
| e_quiet p : quiet s i p -> eff s i (move s i p)
| e_subscribe : is_events i -> at_ s i = Created -> (length (q_subscribe (bc s)) < 5)%nat -> eff s i (move (call s (CallSubscribe i)) i Streaming)
| e_receive : is_events i -> at_ s i = Streaming -> eff s i (call s (Receive i))
| e_finish : is_events i -> at_ s i = Streaming -> finished (bc (call s (Receive i))) i = true -> eff s i (move (call s (Receive i)) i Leaving)
| e_unsubscribe : is_events i -> at_ s i = Leaving -> eff s i (move (call s (CallUnsubscribe i)) i (Answered Streamed))
| e_post m : posted req i = Some m -> at_ s i = Idle -> (length (q_messages (bc s)) < channelLength)%nat ->
    eff s i (move (call s (CallBroadcast m)) i (if update_needed m then Posted (m_contest m) else Answered ok_answer))
| e_push c method body : req i = PostBroadcast method body -> at_ s i = Posted c -> contestChan s = [] ->
    eff s i (Sys (bc s) (set (at_ s) i (Answered ok_answer)) [c] (taken s) (deauthed s) (calls s))
| e_deauth path a b user r : req i = Deauth path -> split "/" path = a :: b :: user :: r -> at_ s i = Idle -> (length (q_deauth (bc s)) < 5)%nat ->
    eff s i (move (call s (CallDeauthenticate user)) i (Answered (Plain 200 "" None))).

(* Every phase a handler can be in fits its request. *)
Definition phase_ok (i : nat) (p : phase) : Prop :=
  match p with
  | Idle | Aborted => True
  | Connected => is_events i
  | Created | Streaming | Leaving | Answered Streamed => is_events i /\ exists x, created req i = Ok x
  | Posted c => exists m, posted req i = Some m /\ c = m_contest m /\ update_needed m = true
  | Answered _ => True
  end.

Lemma go_eff s i : phase_ok i (at_ s i) -> eff s i (go s i).
Proof.
  intros OK. unfold BhModel.go. destruct (req i) as [accept up fs reply body|method body|path] eqn:ER.
  - assert (EV : is_events i) by (unfold is_events; rewrite ER; exact I).
    destruct (at_ s i) eqn:EP; try apply e_same.
    + destruct (websocket i) eqn:EW; cbn [andb]; [destruct up; cbn [negb]|]; apply e_quiet.
      * apply q_connect; auto.
      * apply q_upgrade; auto.
      * apply q_connect; auto.
    + destruct (created req i) eqn:EC; apply e_quiet; [eapply q_created|apply q_refused|apply q_abort]; eauto.
    + cbn in OK. destruct OK as (_ & x & OK). destruct (Nat.ltb_spec (length (q_subscribe (bc s))) 5) as [L|L]; [apply e_subscribe; auto|apply e_quiet; eapply q_busy; eauto].
    + cbv zeta. destruct (finished (bc (call s (Receive i))) i) eqn:EF; [apply e_finish; auto|apply e_receive; auto].
    + apply e_unsubscribe; auto.
  - destruct (at_ s i) eqn:EP; try apply e_same.
    + destruct (method =? "POST") eqn:EM; cbn [negb].
      2:{ apply e_quiet. apply (q_post_bad s i method body); auto. unfold posted. rewrite ER.
          rewrite EM. destruct body; auto. }
      apply String.eqb_eq in EM. subst method. destruct body as [m|].
      * unfold accepts_message. destruct (Nat.ltb_spec (length (q_messages (bc s))) channelLength) as [L|L].
        -- assert (PO : posted req i = Some m) by (unfold posted; rewrite ER; auto).
           pose proof (e_post s i m PO EP L) as H. unfold update_needed in H. cbv zeta.
           destruct (negb (m_contest m =? "") && Contains (m_text m) run_update); exact H.
        -- apply e_quiet. apply (q_post_full s i "POST" (Some m) m); auto. unfold posted. rewrite ER. auto.
      * apply e_quiet. eapply q_post_bad; eauto. unfold posted. rewrite ER. auto.
    + destruct (contestChan s) eqn:EC; [|apply e_same]. destruct s as [b a c t d e]. cbn in *. eapply (e_push (Sys b a c t d e) i contest); eauto.
  - destruct (at_ s i) eqn:EP; try apply e_same. destruct (split "/" path) as [|a [|b [|user r]]] eqn:ES.
    1-3: apply e_quiet; eapply q_deauth_bad; eauto; rewrite ES; cbn; lia.
    destruct (Nat.ltb_spec (length (q_deauth (bc s))) 5) as [L|L]; [eapply e_deauth; eauto|apply e_same].
Qed.

(* --- What a step of the Broadcaster does to the queues. *)
Lemma remove_frame st x : accepted (remove websocket st x) = accepted st /\ q_deauth (remove websocket st x) = q_deauth st /\
  q_unsubscribe (remove websocket st x) = q_unsubscribe st /\ got (remove websocket st x) = got st.
Proof. auto. Qed.
Lemma offer_frame m st x : accepted (offer info websocket channelLength m st x) = accepted st /\ q_deauth (offer info websocket channelLength m st x) = q_deauth st /\
  q_unsubscribe (offer info websocket channelLength m st x) = q_unsubscribe st /\ got (offer info websocket channelLength m st x) = got st.
Proof. unfold offer. destruct (negb _); [auto|]. destruct (closed st x); [auto|]. destruct (_ <? _)%nat; auto. Qed.
Lemma offers_frame m l : forall st, let st' := fold_left (offer info websocket channelLength m) l st in
  accepted st' = accepted st /\ q_deauth st' = q_deauth st /\ q_unsubscribe st' = q_unsubscribe st /\ got st' = got st.
Proof.
  induction l as [|x l IH]; intros st; cbn [fold_left]; [auto|].
  destruct (IH (offer info websocket channelLength m st x)) as (A & B & C & D). destruct (offer_frame m st x) as (A' & B' & C' & D'). cbv zeta. split; [|split; [|split]]; congruence.
Qed.
Lemma deauths_frame u l : forall st, let st' := fold_left (fun st s => if String.eqb (s_user (info s)) u then remove websocket st s else st) l st in
  accepted st' = accepted st /\ q_deauth st' = q_deauth st /\ q_unsubscribe st' = q_unsubscribe st /\ got st' = got st.
Proof.
  induction l as [|x l IH]; intros st; cbn [fold_left]; [auto|]. cbv zeta.
  match goal with |- context [fold_left _ l ?y] => destruct (IH y) as (A & B & C & D) end.
  rewrite A, B, C, D. destruct (String.eqb _ _); auto.
Qed.

Lemma step_accepted st ev : accepted (bstep st ev) = (accepted st ++ match ev with CallBroadcast m => if (length (q_messages st) <? channelLength)%nat then [m] else [] | _ => [] end)%list.
Proof.
  destruct st as [R C CL G F qs qu qd qm w e p lg ac]. destruct ev; cbn [step accepted q_messages]; rewrite ?app_nil_r.
  - destruct (_ <? _)%nat; auto.
  - destruct (_ <? _)%nat; auto.
  - destruct (_ <? _)%nat; auto.
  - destruct (_ <? _)%nat; cbn [accepted]; rewrite ?app_nil_r; auto.
  - destruct qs; auto.
  - destruct qu; [auto|]. destruct (mem _ _); auto.
  - destruct qd as [|u qd]; [auto|]. destruct (is_order _ _); [|auto]. apply deauths_frame.
  - destruct qm as [|m qm]; [auto|]. destruct (is_order _ _); [|auto].
    pose proof (offers_frame m order (St R C CL G F qs qu qd qm w e p lg ac)) as (A & _). destruct (fold_left _ _ _). exact A.
  - destruct (C s); [destruct (CL s)|]; auto.
Qed.
Lemma step_deauth st ev : q_deauth (bstep st ev) = match ev with
  | CallDeauthenticate u => if (length (q_deauth st) <? 5)%nat then (q_deauth st ++ [u])%list else q_deauth st
  | LoopDeauth order => if is_order order (registered st) then tl (q_deauth st) else q_deauth st
  | _ => q_deauth st end.
Proof.
  destruct st as [R C CL G F qs qu qd qm w e p lg ac]. destruct ev; cbn [step q_deauth registered].
  - destruct (_ <? _)%nat; auto.
  - destruct (_ <? _)%nat; auto.
  - destruct (_ <? _)%nat; auto.
  - destruct (_ <? _)%nat; auto.
  - destruct qs; auto.
  - destruct qu; [auto|]. destruct (mem _ _); auto.
  - destruct qd as [|u qd]; [destruct (is_order _ _); auto|]. destruct (is_order _ _); [|auto]. cbn [tl].
    pose proof (deauths_frame u order (St R C CL G F qs qu qd qm w e p lg ac)) as (_ & A & _). exact A.
  - destruct qm as [|m qm]; [auto|]. destruct (is_order _ _); [|auto].
    pose proof (offers_frame m order (St R C CL G F qs qu qd qm w e p lg ac)) as (_ & A & _). destruct (fold_left _ _ _). exact A.
  - destruct (C s); [destruct (CL s)|]; auto.
Qed.
Lemma step_got st ev i : ev <> Receive i -> got (bstep st ev) i = got st i.
Proof.
  intros N. destruct st as [R C CL G F qs qu qd qm w e p lg ac]. destruct ev; cbn [step got].
  - destruct (_ <? _)%nat; auto.
  - destruct (_ <? _)%nat; auto.
  - destruct (_ <? _)%nat; auto.
  - destruct (_ <? _)%nat; auto.
  - destruct qs; auto.
  - destruct qu; [auto|]. destruct (mem _ _); auto.
  - destruct qd as [|u qd]; [auto|]. destruct (is_order _ _); [|auto].
    pose proof (deauths_frame u order (St R C CL G F qs qu qd qm w e p lg ac)) as (_ & _ & _ & A). rewrite A. auto.
  - destruct qm as [|m qm]; [auto|]. destruct (is_order _ _); [|auto].
    pose proof (offers_frame m order (St R C CL G F qs qu qd qm w e p lg ac)) as (_ & _ & _ & A). destruct (fold_left _ _ _) as [R1 C1 CL1 G1 F1 qs1 qu1 qd1 qm1 w1 e1 p1 lg1 ac1]. exact (f_equal (fun f => f i) A).
  - destruct (C s); [destruct (CL s)|]; cbn [got]; auto. apply set_neq. congruence.
Qed.

(* --- The invariant. *)
Definition subscribed (p : phase) : bool := match p with Streaming | Leaving | Answered Streamed => true | _ => false end.
Definition acc_phase (p : phase) : Prop := match p with Posted _ => True | Answered r => r = ok_answer | _ => False end.
Definition PA (i : nat) (p : phase) : Prop := posted req i <> None /\ acc_phase p.
Definition PC (i : nat) (p : phase) : Prop := p = Answered ok_answer /\ exists m, posted req i = Some m /\ update_needed m = true.
Definition PD (i : nat) (p : phase) : Prop := (exists path, req i = Deauth path) /\ p = Answered (Plain 200 "" None).
Definition contest_of (k : nat) : string := match posted req k with Some m => m_contest m | None => "" end.
Definition user_of (d : nat) : string := match req d with Deauth path => nth 2 (split "/" path) "" | _ => "" end.
Definition unsubs (evs : list event) (i : nat) : nat := length (List.filter (fun e => match e with CallUnsubscribe t => Nat.eqb t i | _ => false end) evs).

Record SInv (s : sys) : Prop := {
  v_phase : forall i, phase_ok i (at_ s i);
  v_bc : bc s = brun (calls s);
  v_sub : forall i, calls_of (calls s) i = if subscribed (at_ s i) then 1%nat else 0%nat;
  v_unsub : forall i, unsubs (calls s) i = match at_ s i with Answered Streamed => 1%nat | _ => 0%nat end;
  v_posts : exists js, NoDup js /\ (forall j, In j js <-> PA j (at_ s j)) /\ map (posted req) js = map Some (accepted (bc s));
  v_taken : exists ks, NoDup ks /\ (forall k, In k ks <-> PC k (at_ s k)) /\ (taken s ++ contestChan s)%list = map contest_of ks;
  v_deauths : exists ds, NoDup ds /\ (forall d, In d ds <-> PD d (at_ s d)) /\ (deauthed s ++ q_deauth (bc s))%list = map user_of ds
}.

Lemma tracked_keep (P : nat -> phase -> Prop) a i p l : (P i p <-> P i (a i)) -> (forall j, In j l <-> P j (a j)) -> forall j, In j l <-> P j (set a i p j).
Proof. intros H1 H2 j. rewrite H2. unfold set. destruct (Nat.eqb_spec j i) as [->|N]; tauto. Qed.
Lemma tracked_add (P : nat -> phase -> Prop) a i p l : ~ P i (a i) -> P i p -> NoDup l -> (forall j, In j l <-> P j (a j)) ->
  NoDup (l ++ [i]) /\ forall j, In j (l ++ [i]) <-> P j (set a i p j).
Proof.
  intros N Y ND H. split.
  - apply NoDup_rev in ND. rewrite <- (rev_involutive (l ++ [i])), rev_app_distr. apply NoDup_rev. cbn. constructor; [|auto]. rewrite <- in_rev, H. auto.
  - intros j. rewrite in_app_iff, H. cbn [In]. unfold set. destruct (Nat.eqb_spec j i) as [->|N2]; [tauto|]. split; [intros [A|[A|[]]]; [auto|congruence]|auto].
Qed.

Lemma quiet_phase s i p : quiet s i p -> phase_ok i p.
Proof.
  intros Q. destruct Q; cbn [phase_ok]; auto; try (split; [auto|eauto]).
  - unfold refusal, refuse. unfold is_events in *. destruct (req i) as [? ? ? [[? [?|]]|] ?|?|?]; cbn; try (destruct (websocket i); exact I).
    destruct (parse_filters _); cbn; destruct (websocket i); exact I.
  - unfold refuse. destruct (websocket i); exact I.
Qed.
Lemma refusal_sub i : exists r, refusal req i = Answered r /\ (r = Switched \/ exists st b, r = Plain st b None) .
Proof.
  unfold refusal, refuse. destruct (req i) as [? ? ? [[? [?|]]|] ?|?|?]; try (destruct (parse_filters _)); destruct (websocket i); eauto 8.
Qed.
Lemma quiet_old s i p : quiet s i p -> at_ s i = Idle \/ at_ s i = Connected \/ at_ s i = Created.
Proof. intros Q. destruct Q; auto. Qed.
Lemma quiet_sub s i p : quiet s i p -> subscribed p = false /\ p <> Answered Streamed.
Proof.
  intros Q. destruct Q; cbn; try (split; [auto|congruence]).
  - destruct (refusal_sub i) as (r & -> & [->|(st & b & ->)]); cbn; split; auto; congruence.
  - unfold refuse. destruct (websocket i); cbn; split; auto; congruence.
Qed.
Lemma quiet_PA s i p : quiet s i p -> (PA i p <-> PA i (at_ s i)).
Proof.
  intros Q. assert (O : ~ PA i (at_ s i)). { intros [_ A]. destruct (quiet_old _ _ _ Q) as [E|[E|E]]; rewrite E in A; exact A. }
  split; [|tauto]. intros [A B]. exfalso. assert (EV : ~ is_events i) by (unfold is_events, posted in *; destruct (req i); auto).
  destruct Q; try (exact (EV ltac:(assumption))); try contradiction; discriminate B.
Qed.
Lemma quiet_PC s i p : quiet s i p -> (PC i p <-> PC i (at_ s i)).
Proof.
  intros Q. assert (O : ~ PC i (at_ s i)). { intros [A _]. destruct (quiet_old _ _ _ Q) as [E|[E|E]]; rewrite E in A; discriminate A. }
  split; [|tauto]. intros [A (m & B & _)]. exfalso. assert (EV : ~ is_events i) by (unfold is_events, posted in *; destruct (req i); auto; discriminate B).
  destruct Q; try (exact (EV ltac:(assumption))); try congruence; discriminate A.
Qed.
Lemma quiet_PD s i p : quiet s i p -> (PD i p <-> PD i (at_ s i)).
Proof.
  intros Q. assert (O : ~ PD i (at_ s i)). { intros [_ A]. destruct (quiet_old _ _ _ Q) as [E|[E|E]]; rewrite E in A; discriminate A. }
  split; [|tauto]. intros [(path & A) B]. exfalso. assert (EV : ~ is_events i) by (unfold is_events; rewrite A; auto).
  destruct Q; try (exact (EV ltac:(assumption))); try congruence; discriminate B.
Qed.

Lemma unsubs_snoc evs ev i : unsubs (evs ++ [ev]) i = (unsubs evs i + match ev with CallUnsubscribe t => if Nat.eqb t i then 1 else 0 | _ => 0 end)%nat.
Proof. unfold unsubs. rewrite filter_app, app_length. cbn. destruct ev; cbn; try lia. destruct (Nat.eqb s i); cbn; lia. Qed.
Lemma calls_snoc evs ev i : calls_of (evs ++ [ev]) i = (calls_of evs i + match ev with CallSubscribe t => if Nat.eqb t i then 1 else 0 | _ => 0 end)%nat.
Proof. unfold calls_of. rewrite filter_app, app_length. cbn. destruct ev; cbn; try lia. destruct (Nat.eqb s i); cbn; lia. Qed.

Lemma init_SInv : SInv init_sys.
Proof.
  constructor; cbn; auto.
  - exists []. split; [constructor|]. split; [intros j; split; [intros []|intros [_ []]]|auto].
  - exists []. split; [constructor|]. split; [intros j; split; [intros []|intros [X _]; discriminate X]|auto].
  - exists []. split; [constructor|]. split; [intros j; split; [intros []|intros [_ X]; discriminate X]|auto].
Qed.

(* A call that is not one of a handler's four. *)
Definition loop_call (ev : event) : bool := match ev with LoopSubscribe | LoopUnsubscribe | LoopMessage _ | Receive _ => true | _ => false end.
Lemma call_SInv s ev : loop_call ev = true -> SInv s -> SInv (call s ev).
Proof.
  intros L V. destruct s as [b a c t d e]. destruct V as [V1 V2 V3 V4 V5 V6 V7]. cbn [bc at_ contestChan taken deauthed calls] in *.
  constructor; cbn [BhModel.call bc at_ contestChan taken deauthed calls]; auto.
  - rewrite run_snoc, V2. auto.
  - intros i. rewrite calls_snoc, V3. destruct ev; try discriminate L; lia.
  - intros i. rewrite unsubs_snoc, V4. destruct ev; try discriminate L; lia.
  - destruct V5 as (js & A & B & C). exists js. split; [auto|]. split; [auto|]. rewrite step_accepted. destruct ev; try discriminate L; rewrite app_nil_r; auto.
  - destruct V7 as (ds & A & B & C). exists ds. split; [auto|]. split; [auto|]. rewrite step_deauth. destruct ev; try discriminate L; auto.
Qed.
Lemma move_SInv s i p : SInv s -> phase_ok i p -> subscribed p = subscribed (at_ s i) ->
  (p = Answered Streamed <-> at_ s i = Answered Streamed) -> (PA i p <-> PA i (at_ s i)) -> (PC i p <-> PC i (at_ s i)) -> (PD i p <-> PD i (at_ s i)) -> SInv (move s i p).
Proof.
  intros V H1 H2 H3 H4 H5 H6. destruct s as [b a c t d e]. destruct V as [V1 V2 V3 V4 V5 V6 V7]. cbn [bc at_ contestChan taken deauthed calls] in *.
  constructor; cbn [BhModel.move bc at_ contestChan taken deauthed calls]; auto.
  - intros j. unfold set. destruct (Nat.eqb_spec j i) as [->|N]; auto.
  - intros j. rewrite V3. unfold set. destruct (Nat.eqb_spec j i) as [->|N]; [rewrite H2; auto|auto].
  - intros j. rewrite V4. unfold set. destruct (Nat.eqb_spec j i) as [->|N]; [|auto].
    assert (E : p = Answered Streamed /\ a i = Answered Streamed \/ p <> Answered Streamed /\ a i <> Answered Streamed).
    { destruct (a i) as [| | | | | |[]|]; try (right; split; [intros X; apply H3 in X|]; congruence). left. split; [apply H3|]; auto. }
    destruct E as [[-> ->]|[N1 N2]]; [auto|]. destruct p as [| | | | | |[]|], (a i) as [| | | | | |[]|]; auto; congruence.
  - destruct V5 as (js & A & B & C). exists js. split; [auto|]. split; [apply tracked_keep; auto|auto].
  - destruct V6 as (js & A & B & C). exists js. split; [auto|]. split; [apply tracked_keep; auto|auto].
  - destruct V7 as (js & A & B & C). exists js. split; [auto|]. split; [apply tracked_keep; auto|auto].
Qed.
Lemma loop_at s ev : at_ (call s ev) = at_ s.
Proof. destruct s; auto. Qed.
Lemma events_not_posted i : is_events i -> posted req i = None.
Proof. unfold is_events, posted. destruct (req i); tauto. Qed.
Lemma events_PA i p : is_events i -> ~ PA i p.
Proof. intros E [A _]. apply A, events_not_posted, E. Qed.
Lemma events_PC i p : is_events i -> ~ PC i p.
Proof. intros E [_ (m & A & _)]. rewrite events_not_posted in A by auto. discriminate A. Qed.
Lemma events_PD i p : is_events i -> ~ PD i p.
Proof. intros E [(path & A) _]. unfold is_events in E. rewrite A in E. exact E. Qed.
Lemma post_PD i m p : posted req i = Some m -> ~ PD i p.
Proof. intros E [(path & A) _]. unfold posted in E. rewrite A in E. discriminate E. Qed.
Lemma post_some i c m b : req i = PostBroadcast m b -> phase_ok i (Posted c) -> exists x, posted req i = Some x /\ c = m_contest x /\ update_needed x = true.
Proof. intros _ H. exact H. Qed.

Lemma eff_SInv s i s' : SInv s -> eff s i s' -> SInv s'.
Proof.
  intros V E. destruct E as [|p Q|EV AT L|EV AT|EV AT FI|EV AT|m PO AT L|c method body ER AT CC|path x y user r ER ES AT L].
  - auto.
  - destruct (quiet_sub _ _ _ Q) as [A B]. destruct (quiet_old _ _ _ Q) as [O|[O|O]];
      (apply move_SInv; [auto|eapply quiet_phase; eauto|rewrite O; auto|rewrite O; split; [congruence|discriminate]|eapply quiet_PA; eauto|eapply quiet_PC; eauto|eapply quiet_PD; eauto]).
  - pose proof (v_phase s V i) as OK. rewrite AT in OK. cbn in OK. destruct s as [b a cc t d e]. destruct V as [V1 V2 V3 V4 V5 V6 V7]. cbn [bc at_ contestChan taken deauthed calls] in *.
    constructor; cbn [BhModel.call BhModel.move bc at_ contestChan taken deauthed calls].
    + intros j. unfold set. destruct (Nat.eqb_spec j i) as [->|N]; auto.
    + rewrite run_snoc, V2. auto.
    + intros j. rewrite calls_snoc, V3. unfold set. rewrite (Nat.eqb_sym j i). destruct (Nat.eqb_spec i j) as [<-|N]; [rewrite AT; auto|lia].
    + intros j. rewrite unsubs_snoc, V4. unfold set. destruct (Nat.eqb_spec j i) as [->|N]; [rewrite AT; auto|lia].
    + destruct V5 as (js & A & B & C). exists js. split; [auto|]. split; [apply tracked_keep; auto; pose proof (events_PA i Streaming EV); pose proof (events_PA i (a i) EV); tauto|].
      rewrite step_accepted, app_nil_r. auto.
    + destruct V6 as (js & A & B & C). exists js. split; [auto|]. split; [apply tracked_keep; auto; pose proof (events_PC i Streaming EV); pose proof (events_PC i (a i) EV); tauto|auto].
    + destruct V7 as (js & A & B & C). exists js. split; [auto|]. split; [apply tracked_keep; auto; pose proof (events_PD i Streaming EV); pose proof (events_PD i (a i) EV); tauto|].
      rewrite step_deauth. auto.
  - apply call_SInv; auto.
  - pose proof (v_phase s V i) as OK. rewrite AT in OK. apply move_SInv; [apply call_SInv; auto|exact OK|rewrite loop_at, AT; auto|rewrite loop_at, AT; split; discriminate| | |].
    + pose proof (events_PA i Leaving EV); pose proof (events_PA i (at_ (call s (Receive i)) i) EV); tauto.
    + pose proof (events_PC i Leaving EV); pose proof (events_PC i (at_ (call s (Receive i)) i) EV); tauto.
    + pose proof (events_PD i Leaving EV); pose proof (events_PD i (at_ (call s (Receive i)) i) EV); tauto.
  - pose proof (v_phase s V i) as OK. rewrite AT in OK. cbn in OK. destruct s as [b a cc t d e]. destruct V as [V1 V2 V3 V4 V5 V6 V7]. cbn [bc at_ contestChan taken deauthed calls] in *.
    constructor; cbn [BhModel.call BhModel.move bc at_ contestChan taken deauthed calls].
    + intros j. unfold set. destruct (Nat.eqb_spec j i) as [->|N]; auto.
    + rewrite run_snoc, V2. auto.
    + intros j. rewrite calls_snoc, V3. unfold set. destruct (Nat.eqb_spec j i) as [->|N]; [rewrite AT; auto|lia].
    + intros j. rewrite unsubs_snoc, V4. unfold set. rewrite (Nat.eqb_sym j i). destruct (Nat.eqb_spec i j) as [<-|N]; [rewrite AT; auto|lia].
    + destruct V5 as (js & A & B & C). exists js. split; [auto|]. split; [apply tracked_keep; auto; pose proof (events_PA i (Answered Streamed) EV); pose proof (events_PA i (a i) EV); tauto|].
      rewrite step_accepted, app_nil_r. auto.
    + destruct V6 as (js & A & B & C). exists js. split; [auto|]. split; [apply tracked_keep; auto; pose proof (events_PC i (Answered Streamed) EV); pose proof (events_PC i (a i) EV); tauto|auto].
    + destruct V7 as (js & A & B & C). exists js. split; [auto|]. split; [apply tracked_keep; auto; pose proof (events_PD i (Answered Streamed) EV); pose proof (events_PD i (a i) EV); tauto|].
      rewrite step_deauth. auto.
  - destruct s as [b a cc t d e]. destruct V as [V1 V2 V3 V4 V5 V6 V7]. cbn [bc at_ contestChan taken deauthed calls] in *.
    set (p := if update_needed m then Posted (m_contest m) else Answered ok_answer).
    assert (P1 : subscribed p = false) by (unfold p; destruct (update_needed m); auto).
    assert (P2 : match p with Answered Streamed => 1%nat | _ => 0%nat end = 0%nat) by (unfold p; destruct (update_needed m); auto).
    constructor; cbn [BhModel.call BhModel.move bc at_ contestChan taken deauthed calls].
    + intros j. unfold set. destruct (Nat.eqb_spec j i) as [->|N]; [|auto]. unfold p. destruct (update_needed m) eqn:EU; cbn; eauto.
    + rewrite run_snoc, V2. auto.
    + intros j. rewrite calls_snoc, V3. unfold set. destruct (Nat.eqb_spec j i) as [->|N]; [rewrite AT, P1; auto|lia].
    + intros j. rewrite unsubs_snoc, V4. unfold set. destruct (Nat.eqb_spec j i) as [->|N]; [rewrite AT, P2; auto|lia].
    + destruct V5 as (js & A & B & C). exists (js ++ [i])%list.
      destruct (tracked_add PA a i p js) as [D F]; auto.
      { intros [_ X]. rewrite AT in X. exact X. } { split; [congruence|]. unfold p. destruct (update_needed m); cbn; auto. }
      split; [auto|]. split; [auto|]. apply Nat.ltb_lt in L. rewrite step_accepted, L, !map_app, C. cbn. rewrite PO. auto.
    + destruct V6 as (js & A & B & C). destruct (update_needed m) eqn:EU.
      * exists js. split; [auto|]. split; [|auto]. apply tracked_keep; auto. rewrite AT. unfold p, PC. split; intros [X _]; discriminate X.
      * exists js. split; [auto|]. split; [|auto]. apply tracked_keep; auto. rewrite AT. unfold p, PC. split; [intros [_ (m' & X & Y)]; congruence|intros [X _]; discriminate X].
    + destruct V7 as (js & A & B & C). exists js. split; [auto|]. split; [apply tracked_keep; auto; pose proof (post_PD i m p PO); pose proof (post_PD i m (a i) PO); tauto|].
      rewrite step_deauth. auto.
  - pose proof (v_phase s V i) as OK. rewrite AT in OK. destruct OK as (m & PO & EC & EU).
    destruct s as [b a cc t d e]. destruct V as [V1 V2 V3 V4 V5 V6 V7]. cbn [bc at_ contestChan taken deauthed calls] in *.
    constructor; cbn [bc at_ contestChan taken deauthed calls]; auto.
    + intros j. unfold set. destruct (Nat.eqb_spec j i) as [->|N]; cbn; auto.
    + intros j. rewrite V3. unfold set. destruct (Nat.eqb_spec j i) as [->|N]; [rewrite AT; auto|auto].
    + intros j. rewrite V4. unfold set. destruct (Nat.eqb_spec j i) as [->|N]; [rewrite AT; auto|auto].
    + destruct V5 as (js & A & B & C). exists js. split; [auto|]. split; [|auto]. apply tracked_keep; auto. rewrite AT. unfold PA. cbn. tauto.
    + destruct V6 as (js & A & B & C). exists (js ++ [i])%list. subst cc. rewrite app_nil_r in C.
      destruct (tracked_add PC a i (Answered ok_answer) js) as [D F]; auto.
      { intros [X _]. rewrite AT in X. discriminate X. } { split; [auto|]. eauto. }
      split; [auto|]. split; [auto|]. rewrite map_app, C. cbn. unfold contest_of. rewrite PO, EC. auto.
    + destruct V7 as (js & A & B & C). exists js. split; [auto|]. split; [|auto]. apply tracked_keep; auto.
      pose proof (post_PD i m (Answered ok_answer) PO); pose proof (post_PD i m (a i) PO); tauto.
  - destruct s as [b a cc t d e]. destruct V as [V1 V2 V3 V4 V5 V6 V7]. cbn [bc at_ contestChan taken deauthed calls] in *.
    assert (NP : posted req i = None) by (unfold posted; rewrite ER; auto).
    constructor; cbn [BhModel.call BhModel.move bc at_ contestChan taken deauthed calls].
    + intros j. unfold set. destruct (Nat.eqb_spec j i) as [->|N]; cbn; auto.
    + rewrite run_snoc, V2. auto.
    + intros j. rewrite calls_snoc, V3. unfold set. destruct (Nat.eqb_spec j i) as [->|N]; [rewrite AT; auto|lia].
    + intros j. rewrite unsubs_snoc, V4. unfold set. destruct (Nat.eqb_spec j i) as [->|N]; [rewrite AT; auto|lia].
    + destruct V5 as (js & A & B & C). exists js. split; [auto|]. split; [apply tracked_keep; auto; unfold PA; rewrite NP; tauto|].
      rewrite step_accepted, app_nil_r. auto.
    + destruct V6 as (js & A & B & C). exists js. split; [auto|]. split; [|auto]. apply tracked_keep; auto. unfold PC. rewrite NP. split; intros [_ (m & X & _)]; discriminate X.
    + destruct V7 as (js & A & B & C). exists (js ++ [i])%list.
      destruct (tracked_add PD a i (Answered (Plain 200 "" None)) js) as [D F]; auto.
      { intros [_ X]. rewrite AT in X. discriminate X. } { split; eauto. }
      split; [auto|]. split; [auto|]. apply Nat.ltb_lt in L. rewrite step_deauth, L, app_assoc, C, map_app. cbn. unfold user_of at 3. rewrite ER, ES. auto.
Qed.

Lemma sstep_SInv s l : SInv s -> SInv (sstep s l).
Proof.
  intros V. destruct l as [i|i| | |order|order|]; cbn [BhModel.sstep].
  - eapply eff_SInv; [eauto|]. apply go_eff, (v_phase s V).
  - destruct (at_ s i) eqn:AT; auto. pose proof (v_phase s V i) as OK. rewrite AT in OK. apply move_SInv; auto; rewrite AT; try (split; discriminate); auto.
    + unfold PA. cbn. tauto.
    + unfold PC. split; intros [X _]; discriminate X.
    + unfold PD. split; intros [_ X]; discriminate X.
  - apply call_SInv; auto.
  - apply call_SInv; auto.
  - destruct s as [b a c t d e]. destruct V as [V1 V2 V3 V4 V5 V6 V7]. cbn [bc at_ contestChan taken deauthed calls] in *.
    constructor; cbn [BhModel.call bc at_ contestChan taken deauthed calls]; auto.
    + rewrite run_snoc, V2. auto.
    + intros j. rewrite calls_snoc, V3. lia.
    + intros j. rewrite unsubs_snoc, V4. lia.
    + rewrite step_accepted, app_nil_r. auto.
    + destruct V7 as (js & A & B & C). exists js. split; [auto|]. split; [auto|]. rewrite step_deauth, <- C.
      destruct (q_deauth b) as [|u q]; [destruct (is_order _ _); rewrite ?app_nil_r; auto|]. destruct (is_order _ _); [rewrite <- app_assoc; auto|rewrite app_nil_r; auto].
  - apply call_SInv; auto.
  - destruct s as [b a [|c r] t d e]; [auto|]. destruct V as [V1 V2 V3 V4 V5 V6 V7]. cbn [bc at_ contestChan taken deauthed calls] in *.
    constructor; cbn [bc at_ contestChan taken deauthed calls]; auto.
    destruct V6 as (js & A & B & C). exists js. split; [auto|]. split; [auto|]. rewrite <- app_assoc. auto.
Qed.
Lemma srun_snoc ls l : srun (ls ++ [l]) = sstep (srun ls) l.
Proof. unfold BhModel.srun. rewrite fold_left_app. auto. Qed.
Theorem srun_SInv ls : SInv (srun ls).
Proof. induction ls as [|l ls IH] using rev_ind; [apply init_SInv|]. rewrite srun_snoc. apply sstep_SInv, IH. Qed.
Lemma srun_once ls : once (calls (srun ls)).
Proof. intros i. pose proof (v_sub _ (srun_SInv ls) i) as H. unfold calls_of in H. rewrite H. destruct (subscribed _); auto. Qed.

(* --- Handlers that ended stay so, and are silent. *)
Lemma at_call s ev : at_ (call s ev) = at_ s.
Proof. destruct s; auto. Qed.
Lemma at_move s i p j : at_ (move s i p) j = if Nat.eqb j i then p else at_ s j.
Proof. destruct s; auto. Qed.
Lemma bc_move s i p : bc (move s i p) = bc s.
Proof. destruct s; auto. Qed.
Lemma bc_call s ev : bc (call s ev) = bstep (bc s) ev.
Proof. destruct s; auto. Qed.
Lemma eff_other s i s' j : eff s i s' -> j <> i -> at_ s' j = at_ s j.
Proof.
  intros E N. apply Nat.eqb_neq in N. destruct E; rewrite ?at_move, ?at_call, ?N; auto. cbn. unfold set. rewrite N. auto.
Qed.
Lemma eff_done s i s' r : eff s i s' -> at_ s i = Answered r -> s' = s.
Proof. intros E A. destruct E as [|? Q| | | | | | |]; try congruence. destruct (quiet_old _ _ _ Q) as [X|[X|X]]; congruence. Qed.
Lemma done_step s l i r : SInv s -> at_ s i = Answered r -> at_ (sstep s l) i = Answered r /\ got (bc (sstep s l)) i = got (bc s) i.
Proof.
  intros V A. destruct l as [j|j| | |order|order|]; cbn [BhModel.sstep].
  - pose proof (go_eff s j (v_phase s V j)) as E. destruct (Nat.eq_dec i j) as [<-|N].
    + rewrite (eff_done _ _ _ _ E A). auto.
    + rewrite (eff_other _ _ _ _ E N). split; [auto|]. destruct E; rewrite ?bc_move, ?bc_call; auto; apply step_got; congruence.
  - destruct (at_ s j) eqn:B; auto. rewrite at_move, bc_move. destruct (Nat.eqb_spec i j) as [->|N]; [congruence|auto].
  - rewrite at_call, bc_call. split; [auto|]. apply step_got; discriminate.
  - rewrite at_call, bc_call. split; [auto|]. apply step_got; discriminate.
  - pose proof (at_call s (LoopDeauth order)) as X. pose proof (bc_call s (LoopDeauth order)) as Y. destruct (call s (LoopDeauth order)) as [b a c t d e]. cbn in *. rewrite X, Y. split; [auto|]. apply step_got; discriminate.
  - rewrite at_call, bc_call. split; [auto|]. apply step_got; discriminate.
  - destruct s as [b a [|c q] t d e]; auto.
Qed.
Lemma srun_app ls ls' : srun (ls ++ ls') = fold_left sstep ls' (srun ls).
Proof. unfold BhModel.srun. apply fold_left_app. Qed.
Lemma done_run ls i r : at_ (srun ls) i = Answered r -> forall ls', at_ (srun (ls ++ ls')) i = Answered r /\ got (bc (srun (ls ++ ls'))) i = got (bc (srun ls)) i.
Proof.
  intros A. induction ls' as [|l ls' IH] using rev_ind; [rewrite app_nil_r; auto|]. rewrite app_assoc, srun_snoc. destruct IH as [B C].
  destruct (done_step _ l i r (srun_SInv _) B) as [D E]. split; [auto|congruence].
Qed.

(* --- The Broadcaster's state grows in the expected ways. *)
Lemma offers_log m l : forall st, exists x, log (fold_left (offer info websocket channelLength m) l st) = (log st ++ x)%list.
Proof.
  induction l as [|y l IH]; intros st; cbn [fold_left]; [exists []; rewrite app_nil_r; auto|].
  destruct (IH (offer info websocket channelLength m st y)) as (x & ->). unfold offer. destruct (negb _); [eauto|]. destruct (closed st y); [eauto|].
  destruct (_ <? _)%nat; [cbn; eauto|]. cbn. eexists. rewrite <- app_assoc. auto.
Qed.
Lemma deauths_log u l : forall st, exists x, log (fold_left (fun st s => if String.eqb (s_user (info s)) u then remove websocket st s else st) l st) = (log st ++ x)%list.
Proof.
  induction l as [|y l IH]; intros st; cbn [fold_left]; [exists []; rewrite app_nil_r; auto|].
  match goal with |- context [fold_left _ l ?z] => destruct (IH z) as (x & ->) end.
  destruct (String.eqb _ _); [|eauto]. cbn. eexists. rewrite <- app_assoc. auto.
Qed.
Lemma step_log st ev : exists x, log (bstep st ev) = (log st ++ x)%list.
Proof.
  destruct st as [R C CL G F qs qu qd qm w e p lg ac]. assert (Z : exists x, lg = (lg ++ x)%list) by (exists []; rewrite app_nil_r; auto).
  destruct ev; cbn [step log].
  - destruct (_ <? _)%nat; auto.
  - destruct (_ <? _)%nat; auto.
  - destruct (_ <? _)%nat; auto.
  - destruct (_ <? _)%nat; auto.
  - destruct qs; cbn; eauto.
  - destruct qu; [auto|]. destruct (mem _ _); cbn; eauto.
  - destruct qd as [|u qd]; [auto|]. destruct (is_order _ _); [|auto]. apply (deauths_log u order (St R C CL G F qs qu qd qm w e p lg ac)).
  - destruct qm as [|m qm]; [auto|]. destruct (is_order _ _); [|auto].
    destruct (offers_log m order (St R C CL G F qs qu qd qm w e p lg ac)) as (x & X). destruct (fold_left _ _ _) as [R1 C1 CL1 G1 F1 qs1 qu1 qd1 qm1 w1 e1 p1 lg1 ac1].
    cbn in *. subst lg1. rewrite <- app_assoc. eauto.
  - destruct (C s); [destruct (CL s)|]; auto.
Qed.
Lemma offers_closed m l i : forall st, closed st i = true -> closed (fold_left (offer info websocket channelLength m) l st) i = true.
Proof.
  induction l as [|y l IH]; intros st H; cbn [fold_left]; [auto|]. apply IH. unfold offer. destruct (negb _); [auto|]. destruct (closed st y); [auto|].
  destruct (_ <? _)%nat; [auto|]. cbn. unfold set. destruct (Nat.eqb i y); auto.
Qed.
Lemma deauths_closed u l i : forall st, closed st i = true -> closed (fold_left (fun st s => if String.eqb (s_user (info s)) u then remove websocket st s else st) l st) i = true.
Proof.
  induction l as [|y l IH]; intros st H; cbn [fold_left]; [auto|]. apply IH. destruct (String.eqb _ _); [|auto]. cbn. unfold set. destruct (Nat.eqb i y); auto.
Qed.
Lemma step_closed st ev i : closed st i = true -> closed (bstep st ev) i = true.
Proof.
  destruct st as [R C CL G F qs qu qd qm w e p lg ac]. cbn [closed]. intros H. destruct ev; cbn [step closed].
  - destruct (_ <? _)%nat; auto.
  - destruct (_ <? _)%nat; auto.
  - destruct (_ <? _)%nat; auto.
  - destruct (_ <? _)%nat; auto.
  - destruct qs; auto.
  - destruct qu; [auto|]. destruct (mem _ _); [|auto]. cbn. unfold set. destruct (Nat.eqb _ _); auto.
  - destruct qd as [|u qd]; [auto|]. destruct (is_order _ _); [|auto]. apply deauths_closed. auto.
  - destruct qm as [|m qm]; [auto|]. destruct (is_order _ _); [|auto].
    pose proof (offers_closed m order i (St R C CL G F qs qu qd qm w e p lg ac) H) as X. destruct (fold_left _ _ _). exact X.
  - destruct (C s); [destruct (CL s)|]; auto.
Qed.
Lemma step_unsub st ev i : (In i (q_unsubscribe st) -> In i (q_unsubscribe (bstep st ev)) \/ (In i (registered st) -> closed (bstep st ev) i = true)).
Proof.
  destruct st as [R C CL G F qs qu qd qm w e p lg ac]. cbn [q_unsubscribe]. intros H. destruct ev; cbn [step q_unsubscribe closed registered].
  - destruct (_ <? _)%nat; auto.
  - destruct (_ <? _)%nat; cbn; rewrite ?in_app_iff; auto.
  - destruct (_ <? _)%nat; auto.
  - destruct (_ <? _)%nat; auto.
  - destruct qs; auto.
  - destruct qu as [|x qu]; [destruct H|]. destruct H as [->|H].
    + right. intros M. apply mem_In in M. rewrite M. cbn. apply set_eq.
    + left. destruct (mem _ _); auto.
  - left. destruct qd as [|u qd]; [auto|]. destruct (is_order _ _); [|auto].
    pose proof (deauths_frame u order (St R C CL G F qs qu qd qm w e p lg ac)) as (_ & _ & A & _). rewrite A. auto.
  - left. destruct qm as [|m qm]; [auto|]. destruct (is_order _ _); [|auto].
    pose proof (offers_frame m order (St R C CL G F qs qu qd qm w e p lg ac)) as (_ & _ & A & _). destruct (fold_left _ _ _). cbn in *. rewrite A. auto.
  - left. destruct (C s); [destruct (CL s)|]; auto.
Qed.
(* A step of the system is at most one step of the Broadcaster. *)
Lemma sstep_bc s l : bc (sstep s l) = bc s \/ exists ev, bc (sstep s l) = bstep (bc s) ev.
Proof.
  destruct l as [i|i| | |order|order|]; cbn [BhModel.sstep].
  - unfold BhModel.go. destruct (req i), (at_ s i); auto.
    + destruct (_ && _); rewrite bc_move; auto.
    + destruct (created req i); rewrite bc_move; auto.
    + destruct (_ <? _)%nat; rewrite bc_move, ?bc_call; eauto.
    + cbv zeta. destruct (finished _ _); rewrite ?bc_move, bc_call; eauto.
    + rewrite bc_move, bc_call; eauto.
    + destruct (negb _); [rewrite bc_move; auto|]. destruct body; [|rewrite bc_move; auto]. destruct (accepts_message _ _); [|rewrite bc_move; auto].
      cbv zeta. destruct (_ && _); rewrite bc_move, bc_call; eauto.
    + destruct (contestChan s); [|auto]. destruct s; auto.
    + destruct (split "/" path) as [|? [|? [|? ?]]]; rewrite ?bc_move; auto. destruct (_ <? _)%nat; [rewrite bc_move, bc_call; eauto|auto].
  - destruct (at_ s i); rewrite ?bc_move; auto.
  - rewrite bc_call; eauto.
  - rewrite bc_call; eauto.
  - pose proof (bc_call s (LoopDeauth order)) as Y. destruct (call s (LoopDeauth order)). cbn in *. right. eauto.
  - rewrite bc_call; eauto.
  - destruct s as [b a [|c q] t d e]; auto.
Qed.
Lemma srun_log ls ls' : exists x, log (bc (srun (ls ++ ls'))) = (log (bc (srun ls)) ++ x)%list.
Proof.
  induction ls' as [|l ls' (x & IH)] using rev_ind; [exists []; rewrite !app_nil_r; auto|]. rewrite app_assoc, srun_snoc.
  destruct (sstep_bc (srun (ls ++ ls')) l) as [->|(ev & ->)]; [eauto|]. destruct (step_log (bc (srun (ls ++ ls'))) ev) as (y & ->). rewrite IH, <- app_assoc. eauto.
Qed.
Lemma srun_inv ls : Inv info websocket channelLength (calls_of (calls (srun ls))) (fun _ => []) [] (bc (srun ls)).
Proof. rewrite (v_bc _ (srun_SInv ls)). apply run_inv, srun_once. Qed.

Lemma entitled_app i : forall l here x, entitled info i here (l ++ x) = (entitled info i here l ++ entitled info i (present i here l) x)%list.
Proof.
  induction l as [|a l IH]; intros here x; cbn [app entitled present]; [auto|]. destruct a; rewrite ?IH; auto. destruct (_ && _); cbn; auto.
Qed.
Lemma entitled_present i : forall l, count_occ_action (is_removed i) l = 0%nat -> entitled info i true l = List.filter (matches (info i)) (processed l).
Proof.
  unfold count_occ_action. induction l as [|a l IH]; intros H; cbn in *; [auto|]. destruct a as [t|t|m]; cbn in *.
  - destruct (Nat.eqb t i); auto.
  - destruct (Nat.eqb t i); cbn in H; [discriminate H|auto].
  - destruct (matches (info i) m); cbn; rewrite IH; auto.
Qed.
Lemma entitled_absent i : forall l, count_occ_action (is_registered i) l = 0%nat -> entitled info i false l = [].
Proof.
  unfold count_occ_action. induction l as [|a l IH]; intros H; cbn in *; [auto|]. destruct a as [t|t|m]; cbn in *.
  - destruct (Nat.eqb t i); cbn in H; [discriminate H|auto].
  - destruct (Nat.eqb t i); auto.
  - auto.
Qed.
Lemma entitled_incl i m : forall l here, In m (entitled info i here l) -> In m (processed l) /\ matches (info i) m = true.
Proof.
  induction l as [|a l IH]; intros here H; cbn in *; [destruct H|]. destruct a as [t|t|m']; cbn in *; try (eapply IH; eauto; fail).
  destruct here; cbn in H.
  - destruct (matches (info i) m') eqn:E; [destruct H as [->|H]; [auto|]|]; apply IH in H; tauto.
  - apply IH in H; tauto.
Qed.

(* --- Who can be registered. *)
Lemma parse_Forall2 l : forall fs, parse_filters l = Ok fs <-> Forall2 denotes l fs.
Proof.
  induction l as [|x l IH]; intros fs; cbn [parse_filters].
  - split; [intros [= <-]; constructor|intros H; inversion H; auto].
  - destruct (NewFilter x) as [f| |] eqn:E.
    + destruct (parse_filters l) as [gs| |] eqn:EP.
      * split.
        -- intros [= <-]. constructor; [apply C28_grammar; auto|apply IH; auto].
        -- intros H. inversion H as [|? ? ? ? A B]; subst. apply C28_grammar in A. apply IH in B. congruence.
      * split; [discriminate|]. intros H. inversion H as [|? ? ? ? A B]; subst. apply IH in B. discriminate B.
      * split; [discriminate|]. intros H. inversion H as [|? ? ? ? A B]; subst. apply IH in B. discriminate B.
    + split; [discriminate|]. intros H. inversion H as [|? ? ? ? A B]; subst. apply C28_grammar in A. congruence.
    + split; [discriminate|]. intros H. inversion H as [|? ? ? ? A B]; subst. apply C28_grammar in A. congruence.
Qed.
Lemma no_params : parse_filters (split "," (join "," [])) = Err.
Proof. reflexivity. Qed.
Lemma created_granted i x : created req i = Ok x <-> exists v fs, granted req i v fs /\ x = with_rights v fs.
Proof.
  unfold created, granted. split.
  - destruct (req i) as [accept up params reply body|? ?|?] eqn:ER; try discriminate. unfold NewSubscriber.
    destruct params as [|p0 ps]; [rewrite no_params; discriminate|]. rewrite split_join_flat by discriminate.
    destruct (parse_filters _) as [fs| |] eqn:EP; try discriminate. apply parse_Forall2 in EP.
    destruct reply as [[st [v|]]|]; try discriminate. destruct (Z.eqb_spec st 200) as [->|N]; [|discriminate]. intros [= <-].
    exists v, fs. split; [|auto]. exists accept, up, (p0 :: ps), body. split; [auto|]. split; [discriminate|auto].
  - intros (v & fs & (accept & up & params & body & ER & NE & F) & ->). rewrite ER. unfold NewSubscriber. rewrite split_join_flat by auto.
    apply parse_Forall2 in F. rewrite F. auto.
Qed.
Lemma parse_panic l : parse_filters l = Panic -> In "/problemset" l.
Proof.
  induction l as [|x l IH]; cbn [parse_filters]; [discriminate|]. destruct (NewFilter x) as [f| |] eqn:E; try discriminate.
  - destruct (parse_filters l); try discriminate. intros _. right. auto.
  - intros _. left. apply C28_only_panic. auto.
Qed.
Lemma created_panic i : created req i = Panic -> exists accept up params reply body, req i = Events accept up params reply body /\ In "/problemset" (flat_map (split ",") params).
Proof.
  unfold created. destruct (req i) as [accept up params reply body|? ?|?] eqn:ER; try discriminate. unfold NewSubscriber.
  destruct params as [|p0 ps]; [rewrite no_params; discriminate|]. rewrite split_join_flat by discriminate. destruct (parse_filters _) eqn:EP.
  - destruct reply as [[st [v|]]|]; try discriminate. destruct (_ =? _)%Z; discriminate.
  - discriminate.
  - intros _. exists accept, up, (p0 :: ps), reply, body. split; [auto|]. apply parse_panic. auto.
Qed.
Lemma created_err i : created req i = Err -> is_events i -> exists accept up params reply body, req i = Events accept up params reply body /\
  ((exists st v fs, reply = Some (st, Some v) /\ st <> 200%Z /\ params <> [] /\ Forall2 denotes (flat_map (split ",") params) fs /\ refusal req i = refuse req i st body) \/
   (refusal req i = refuse req i 200 "" /\ ~ exists v fs, granted req i v fs)).
Proof.
  intros H EV. assert (NG : ~ exists v fs, granted req i v fs).
  { intros (v & fs & G). assert (X : created req i = Ok (with_rights v fs)) by (apply created_granted; eauto). congruence. }
  unfold is_events in EV. destruct (req i) as [accept up params reply body|? ?|?] eqn:ER; try contradiction.
  exists accept, up, params, reply, body. split; [auto|]. unfold created, refusal in *. rewrite ER in *.
  destruct reply as [[st [v|]]|]; try (right; solve [split; [auto|exact NG]]). unfold NewSubscriber in H.
  destruct (parse_filters _) as [fs| |] eqn:EP; try (right; solve [split; [auto|exact NG]]).
  destruct (Z.eqb_spec st 200) as [E2|N]; [discriminate H|]. left. exists st, v, fs. split; [auto|]. split; [auto|].
  destruct params as [|p0 ps]; [rewrite no_params in EP; discriminate EP|]. split; [discriminate|]. rewrite split_join_flat in EP by discriminate.
  apply parse_Forall2 in EP. auto.
Qed.

(* Answers. *)
Definition ans_ok (i : nat) (p : phase) : Prop :=
  match p with
  | Aborted => exists accept up params reply body, req i = Events accept up params reply body /\ In "/problemset" (flat_map (split ",") params)
  | Answered r =>
      match req i with
      | Events accept up params reply body =>
          (r = Streamed /\ exists v fs, granted req i v fs) \/
          (websocket i = true /\ (r = Switched \/ r = Plain 400 "Bad Request" None)) \/
          (websocket i = false /\
           ((r = Plain 503 "" None /\ exists v fs, granted req i v fs) \/
            (exists st v fs, r = Plain st body None /\ reply = Some (st, Some v) /\ st <> 200%Z /\ params <> [] /\ Forall2 denotes (flat_map (split ",") params) fs) \/
            (r = Plain 200 "" None /\ ~ exists v fs, granted req i v fs)))
      | PostBroadcast _ _ => r = Plain 400 "" None /\ posted req i = None \/ posted req i <> None /\ (r = Plain 503 "" None \/ r = ok_answer)
      | Deauth path => r = Plain 200 "" None /\ (3 <= length (split "/" path))%nat \/ r = Plain 400 "" None /\ (length (split "/" path) < 3)%nat
      end
  | _ => True
  end.
Lemma ok_granted i x : created req i = Ok x -> exists v fs, granted req i v fs.
Proof. intros H. apply created_granted in H as (v & fs & G & _). eauto. Qed.
Lemma quiet_ans s i p : quiet s i p -> ans_ok i p.
Proof.
  intros Q. destruct Q as [EV AT|EV AT W|x C EV AT|C EV AT|C EV AT|x C EV AT L|mt bd ER PN AT|mt bd m ER PM L AT|path ER L AT]; cbn [ans_ok]; auto.
  - unfold is_events in EV. destruct (req i); try contradiction. right. left. auto.
  - destruct (created_err i C EV) as (accept & up & params & reply & body & ER & [(st & v & fs & A1 & A2 & A3 & A4 & ->)|(-> & A)]);
      unfold refuse; cbn [ans_ok]; rewrite ER.
    + destruct (websocket i) eqn:W; [right; left; auto|]. right. right. split; [auto|]. right. left. exists st, v, fs. auto 6.
    + destruct (websocket i) eqn:W; [right; left; auto|]. right. right. split; [auto|]. right. right. auto.
  - apply created_panic, C.
  - unfold refuse. cbn [ans_ok]. unfold is_events in EV. destruct (req i) eqn:ER; try contradiction. destruct (websocket i) eqn:W; auto. right. right. split; [auto|]. left. split; [auto|].
    eapply ok_granted; eauto.
  - rewrite ER. auto.
  - rewrite ER. right. split; [congruence|auto].
  - rewrite ER. auto.
Qed.
Lemma eff_ans s i s' : SInv s -> eff s i s' -> (forall j, ans_ok j (at_ s j)) -> forall j, ans_ok j (at_ s' j).
Proof.
  intros V E H j. destruct (Nat.eq_dec j i) as [->|N]; [|rewrite (eff_other _ _ _ _ E N); auto].
  pose proof (v_phase s V i) as OK.
  destruct E as [|p Q|EV AT L|EV AT|EV AT FI|EV AT|m PO AT L|c method body ER AT CC|path x y user r ER ES AT L]; rewrite ?at_move, ?at_call, ?Nat.eqb_refl; auto.
  - eapply quiet_ans; eauto.
  - exact I.
  - exact I.
  - rewrite AT in OK. destruct OK as (_ & x & OK). cbn [ans_ok]. unfold is_events in EV. destruct (req i); try contradiction. left. split; [auto|]. eapply ok_granted; eauto.
  - destruct (update_needed m); [exact I|]. cbn [ans_ok]. unfold posted in *. destruct (req i); try discriminate PO. right. rewrite PO. split; [discriminate|auto].
  - cbn. rewrite set_eq. cbn [ans_ok]. rewrite ER. rewrite AT in OK. destruct OK as (m & PO & _). right. rewrite PO. split; [discriminate|auto].
  - cbn [ans_ok]. rewrite ER. left. split; [auto|]. rewrite ES. cbn. lia.
Qed.
Theorem srun_ans ls : forall j, ans_ok j (at_ (srun ls) j).
Proof.
  induction ls as [|l ls IH] using rev_ind; [intros j; exact I|]. rewrite srun_snoc. pose proof (srun_SInv ls) as V. set (s := srun ls) in *.
  destruct l as [i|i| | |order|order|]; cbn [BhModel.sstep].
  - eapply eff_ans; eauto. apply go_eff, (v_phase s V).
  - destruct (at_ s i); auto. intros j. rewrite at_move. destruct (Nat.eqb j i); [exact I|auto].
  - intros j. rewrite at_call. auto.
  - intros j. rewrite at_call. auto.
  - pose proof (at_call s (LoopDeauth order)) as X. destruct (call s (LoopDeauth order)). cbn in *. rewrite X. auto.
  - intros j. rewrite at_call. auto.
  - destruct s as [b a [|c q] t d e]; auto.
Qed.

(* 503 to a well-formed message: the queue was full. *)
Lemma full_503 ls i m : posted req i = Some m -> at_ (srun ls) i = Answered (Plain 503 "" None) ->
  exists l1 l2, ls = (l1 ++ Go i :: l2)%list /\ at_ (srun l1) i = Idle /\ (channelLength <= length (q_messages (bc (srun l1))))%nat.
Proof.
  intros PM. induction ls as [|l ls IH] using rev_ind; [discriminate|]. rewrite srun_snoc. intros A.
  assert (K : at_ (srun ls) i = Answered (Plain 503 "" None) -> exists l1 l2, (ls ++ [l])%list = (l1 ++ Go i :: l2)%list /\ at_ (srun l1) i = Idle /\ (channelLength <= length (q_messages (bc (srun l1))))%nat).
  { intros X. destruct (IH X) as (l1 & l2 & -> & Y). exists l1, (l2 ++ [l])%list. rewrite <- app_assoc. auto. }
  pose proof (srun_SInv ls) as V. set (s := srun ls) in *. destruct l as [j|j| | |order|order|]; cbn [BhModel.sstep] in A.
  - pose proof (go_eff s j (v_phase s V j)) as E. destruct (Nat.eq_dec i j) as [<-|N]; [|rewrite (eff_other _ _ _ _ E N) in A; auto].
    destruct E as [|p Q|EV AT L|EV AT|EV AT FI|EV AT|m' PO AT L|c method body ER AT CC|path x y user r ER ES AT L]; auto; rewrite ?at_move, ?at_call, ?Nat.eqb_refl in A; try discriminate A; try congruence.
    + subst p. assert (EV : ~ is_events i) by (unfold is_events, posted in *; destruct (req i); auto; discriminate PM).
      remember (Answered (Plain 503 "" None)) as q eqn:EQ. destruct Q as [EV2 AT|EV2 AT W|x C EV2 AT|C EV2 AT|C EV2 AT|x C EV2 AT L|mt bd ER PN AT|mt bd m2 ER PM2 L AT|path ER L AT]; try contradiction; try discriminate EQ.
      exists ls, []. auto.
    + destruct (update_needed m'); discriminate A.
    + cbn in A. rewrite set_eq in A. discriminate A.
  - destruct (at_ s j) eqn:B; auto. rewrite at_move in A. destruct (Nat.eqb i j); [discriminate A|auto].
  - rewrite at_call in A. auto.
  - rewrite at_call in A. auto.
  - pose proof (at_call s (LoopDeauth order)) as X. destruct (call s (LoopDeauth order)). cbn in *. rewrite X in A. auto.
  - rewrite at_call in A. auto.
  - apply K. destruct s as [b a [|c q] t d e]; auto.
Qed.
End Sys.

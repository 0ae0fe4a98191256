(* Proofs about the Broadcaster. *)
From Coq Require Import String List Arith ZArith Bool Lia.
From Verif Require Import BcFilterModel BcModel BcSpec.
Import ListNotations.

Lemma mem_In s l : mem s l = true <-> In s l.
Proof.
  unfold mem. rewrite existsb_exists. split; [intros (x & H & E); apply Nat.eqb_eq in E; subst; auto|].
  intros H. exists s. split; [auto|apply Nat.eqb_refl].
Qed.
Lemma in_del s t l : In t (del s l) <-> In t l /\ t <> s.
Proof. unfold del. rewrite filter_In, negb_true_iff, Nat.eqb_neq. intuition. Qed.
Lemma del_NoDup s l : NoDup l -> NoDup (del s l).
Proof. apply NoDup_filter. Qed.
Lemma del_id s l : ~ In s l -> del s l = l.
Proof.
  unfold del. induction l as [|x l IH]; intros H; [auto|]. cbn [In List.filter] in *. destruct (Nat.eqb_spec s x) as [->|N]; [tauto|]. cbn [negb]. rewrite IH by tauto. auto.
Qed.
Lemma set_eq {A} (f : nat -> A) s v : set f s v s = v.
Proof. unfold set. rewrite Nat.eqb_refl. auto. Qed.
Lemma set_neq {A} (f : nat -> A) s v t : t <> s -> set f s v t = f t.
Proof. unfold set. intros H. destruct (Nat.eqb_spec t s); [congruence|auto]. Qed.

Definition cnt (P : nat -> bool) (l : list nat) : nat := length (List.filter P l).
Lemma cnt_del P s l : NoDup l -> In s l -> cnt P l = (cnt P (del s l) + if P s then 1 else 0)%nat.
Proof.
  unfold cnt. induction l as [|x l IH]; intros HN HI; [destruct HI|]. inversion HN as [|? ? N1 N2]; subst. unfold del. cbn [List.filter].
  destruct (Nat.eqb_spec s x) as [->|N].
  - cbn [negb]. fold (del x l). rewrite (del_id x l) by auto. destruct (P x); cbn [length]; lia.
  - destruct HI as [->|HI]; [congruence|]. fold (del s l). specialize (IH N2 HI). cbn [negb List.filter]. fold (del s l) in *. destruct (P x); cbn [length]; lia.
Qed.

Lemma mem_del s t l : mem t (del s l) = if Nat.eqb s t then false else mem t l.
Proof.
  destruct (mem t (del s l)) eqn:E.
  - apply mem_In, in_del in E. destruct E as [E N]. destruct (Nat.eqb_spec s t); [congruence|]. symmetry. apply mem_In; auto.
  - destruct (Nat.eqb_spec s t) as [|N]; [auto|]. destruct (mem t l) eqn:E2; [|auto]. apply mem_In in E2.
    assert (X : mem t (del s l) = true) by (apply mem_In, in_del; auto). congruence.
Qed.
Lemma is_order_spec l keys : is_order l keys = true -> NoDup l /\ forall s, In s l <-> In s keys.
Proof.
  unfold is_order. rewrite !andb_true_iff, !forallb_forall. intros [[H1 H2] H3]. split.
  - clear H2 H3. induction l as [|x l IH]; [constructor|]. cbn in H1. apply andb_true_iff in H1. destruct H1 as [A B]. constructor; [|auto].
    intros X. apply mem_In in X. rewrite X in A. discriminate A.
  - intros s. split; intros H; apply mem_In; auto.
Qed.

Section P.
Variable info : nat -> subscriber.
Variable websocket : nat -> bool.
Variable channelLength : nat.
Notation remove := (remove websocket).
Notation offer := (offer info websocket channelLength).
Notation step := (step info websocket channelLength).
Notation run := (run info websocket channelLength).

Lemma present_snoc s : forall l here a, present s here (l ++ [a]) =
  match a with Registered t => if Nat.eqb t s then true else present s here l
             | Removed t => if Nat.eqb t s then false else present s here l
             | Processed _ => present s here l end.
Proof. induction l as [|b l IH]; intros here a; [destruct a; reflexivity|]. destruct b; cbn [app present]; rewrite IH; auto. Qed.
Lemma entitled_snoc s : forall l here a, entitled info s here (l ++ [a]) =
  entitled info s here l ++ match a with Processed m => if present s here l && matches (info s) m then [m] else [] | _ => [] end.
Proof.
  induction l as [|b l IH]; intros here a.
  - destruct a; cbn; auto.
  - destruct b as [t|t|m]; cbn [app entitled present]; rewrite IH; auto. destruct (here && matches (info s) m); auto.
Qed.
Lemma filter_snoc {A} (P : A -> bool) l x : List.filter P (l ++ [x]) = List.filter P l ++ (if P x then [x] else []).
Proof. rewrite filter_app. cbn. destruct (P x); auto. Qed.
Lemma count_snoc P l a : count_occ_action P (l ++ [a]) = (count_occ_action P l + if P a then 1 else 0)%nat.
Proof. unfold count_occ_action. rewrite filter_snoc, app_length. destruct (P a); auto. Qed.
Definition occ (s : nat) (l : list nat) : nat := length (List.filter (Nat.eqb s) l).

Record Inv (calls : nat -> nat) (extra : nat -> list message) (pend : list message) (st : state) : Prop := {
  i_calls : forall s, (count_occ_action (is_registered s) (log st) + occ s (q_subscribe st) <= calls s)%nat;
  i_nodup : NoDup (registered st);
  i_reg : forall s, In s (registered st) <-> count_occ_action (is_registered s) (log st) = 1%nat /\ closed st s = false;
  i_rem : forall s, count_occ_action (is_removed s) (log st) = (if closed st s then 1 else 0)%nat;
  i_closed : forall s, closed st s = true -> count_occ_action (is_registered s) (log st) = 1%nat;
  i_present : forall s, present s false (log st) = mem s (registered st);
  i_entitled : forall s, got st s ++ chan st s = entitled info s false (log st) ++ extra s;
  i_ws : ws st = Z.of_nat (cnt websocket (registered st));
  i_sse : sse st = Z.of_nat (cnt (fun s => negb (websocket s)) (registered st));
  i_panic : panicked st = false;
  i_acc : processed (log st) ++ pend ++ q_messages st = accepted st;
  i_cap : forall s, (length (chan st s) <= channelLength)%nat;
  i_fin : forall s, finished st s = true -> closed st s = true /\ chan st s = []
}.

Lemma processed_app a b : processed (a ++ b) = processed a ++ processed b.
Proof. apply flat_map_app. Qed.

Lemma remove_inv calls extra pend st s : Inv calls extra pend st -> In s (registered st) -> Inv calls extra pend (remove st s).
Proof.
  intros I HI. destruct (proj1 (i_reg _ _ _ _ I s) HI) as [R1 R2]. destruct I as [I1 I2 I3 I4 I5 I6 I7 I8 I9 I10 I11 I12 I13].
  constructor; cbn [BcModel.remove registered chan closed got finished q_subscribe q_messages ws sse panicked log accepted].
  - intros t. rewrite count_snoc. cbn [is_registered]. rewrite Nat.add_0_r. apply I1.
  - apply del_NoDup; auto.
  - intros t. rewrite in_del, count_snoc. cbn [is_registered]. rewrite Nat.add_0_r, I3. destruct (Nat.eq_dec t s) as [->|N].
    + rewrite set_eq. intuition discriminate.
    + rewrite set_neq by auto. tauto.
  - intros t. rewrite count_snoc. cbn [is_removed]. rewrite I4. destruct (Nat.eq_dec t s) as [->|N].
    + rewrite set_eq, Nat.eqb_refl, R2. auto.
    + rewrite set_neq by auto. destruct (Nat.eqb_spec s t); [congruence|]. lia.
  - intros t. rewrite count_snoc. cbn [is_registered]. rewrite Nat.add_0_r. destruct (Nat.eq_dec t s) as [->|N].
    + auto.
    + rewrite set_neq by auto. auto.
  - intros t. rewrite present_snoc, mem_del, I6. auto.
  - intros t. rewrite entitled_snoc, app_nil_r. auto.
  - rewrite I8, (cnt_del websocket s (registered st)) by auto. destruct (websocket s); lia.
  - rewrite I9, (cnt_del (fun s => negb (websocket s)) s (registered st)) by auto. destruct (websocket s); cbn [negb]; lia.
  - rewrite I10, R2. auto.
  - rewrite processed_app. cbn. rewrite app_nil_r. auto.
  - auto.
  - intros t H. apply I13 in H. destruct H as [H1 H2]. split; [|auto]. destruct (Nat.eq_dec t s) as [->|N]; [apply set_eq|rewrite set_neq by auto; auto].
Qed.

(* One message offered to one subscriber. *)
Lemma offer_inv calls extra m st s : Inv calls extra [m] st -> In s (registered st) -> extra s = [] ->
  exists extra', Inv calls extra' [m] (offer m st s) /\
  (forall t, t <> s -> extra' t = extra t /\ (In t (registered (offer m st s)) <-> In t (registered st)) /\ chan (offer m st s) t = chan st t) /\
  ((In s (registered (offer m st s)) /\ extra' s = if matches (info s) m then [m] else []) \/
   (~ In s (registered (offer m st s)) /\ extra' s = [] /\ matches (info s) m = true /\ length (chan st s) = channelLength)).
Proof.
  intros I HI HE. unfold BcModel.offer. destruct (matches (info s) m) eqn:EM; cbn [negb].
  2:{ exists extra. split; [auto|]. split; [intros; tauto|left; auto]. }
  destruct (proj1 (i_reg _ _ _ _ I s) HI) as [R1 R2]. rewrite R2. destruct (Nat.ltb_spec (length (chan st s)) channelLength) as [L|L].
  - exists (set extra s [m]). split; [|split].
    + destruct I as [I1 I2 I3 I4 I5 I6 I7 I8 I9 I10 I11 I12 I13].
      constructor; cbn [registered chan closed got finished q_subscribe q_messages ws sse panicked log accepted]; auto.
      * intros t. destruct (Nat.eq_dec t s) as [->|N]; [rewrite !set_eq|rewrite !set_neq by auto; auto]. rewrite app_assoc, I7, HE, app_nil_r. auto.
      * intros t. destruct (Nat.eq_dec t s) as [->|N]; [rewrite !set_eq|rewrite !set_neq by auto; auto]. rewrite app_length. cbn. lia.
      * intros t H. apply I13 in H. destruct H as [H1 H2]. split; [auto|]. destruct (Nat.eq_dec t s) as [->|N]; [congruence|rewrite set_neq by auto; auto].
    + intros t N. cbn [registered chan]. rewrite !set_neq by auto. tauto.
    + left. cbn [registered]. split; [auto|apply set_eq].
  - exists extra. split; [apply remove_inv; auto|]. split.
    + intros t N. cbn [BcModel.remove registered chan]. rewrite in_del. tauto.
    + right. cbn [BcModel.remove registered]. rewrite in_del. pose proof (i_cap _ _ _ _ I s). split; [tauto|]. split; [auto|]. split; [auto|lia].
Qed.
Lemma offers_inv calls m : forall order st extra, Inv calls extra [m] st -> NoDup order -> (forall s, In s order -> In s (registered st)) ->
  (forall s, In s order -> extra s = []) -> (forall s, In s (registered st) -> ~ In s order -> extra s = if matches (info s) m then [m] else []) ->
  (forall s, ~ In s (registered st) -> extra s = []) ->
  exists extra', Inv calls extra' [m] (fold_left (offer m) order st) /\
  (forall s, In s (registered (fold_left (offer m) order st)) -> extra' s = if matches (info s) m then [m] else []) /\
  (forall s, ~ In s (registered (fold_left (offer m) order st)) -> extra' s = []) /\
  (forall s, In s (registered st) -> In s (registered (fold_left (offer m) order st)) \/ (matches (info s) m = true /\ length (chan st s) = channelLength)) /\
  (forall s, In s (registered (fold_left (offer m) order st)) -> In s (registered st)).
Proof.
  induction order as [|s order IH]; intros st extra I HN HR HX HD HU; cbn [fold_left].
  - exists extra. split; [auto|]. split; [intros; apply HD; auto|]. split; [auto|]. split; auto.
  - inversion HN as [|? ? N1 N2]; subst.
    destruct (offer_inv calls extra m st s I) as (extra1 & I1 & O1 & O2); [apply HR; cbn; auto|apply HX; cbn; auto|].
    assert (NS : forall t, In t order -> t <> s) by (intros t Ht ->; contradiction).
    destruct (IH (offer m st s) extra1 I1 N2) as (extra' & J & J1 & J2 & J3 & J4).
    + intros t Ht. apply (O1 t (NS t Ht)). apply HR. cbn; auto.
    + intros t Ht. rewrite (proj1 (O1 t (NS t Ht))). apply HX. cbn; auto.
    + intros t Ht Hn. destruct (Nat.eq_dec t s) as [->|N].
      * destruct O2 as [[_ O2]|[O2 _]]; [auto|contradiction].
      * destruct (O1 t N) as (A & B & _). rewrite A. apply HD; [apply B; auto|]. cbn. intuition.
    + intros t Ht. destruct (Nat.eq_dec t s) as [->|N].
      * destruct O2 as [[O2 _]|[_ [O2 _]]]; [contradiction|auto].
      * destruct (O1 t N) as (A & B & _). rewrite A. apply HU. intros X. apply Ht, B, X.
    + exists extra'. split; [auto|]. split; [auto|]. split; [auto|]. split.
      * intros t Ht. destruct (Nat.eq_dec t s) as [->|N].
        -- destruct O2 as [[O2 _]|(_ & _ & O2)]; [|right; exact O2].
           destruct (J3 s O2) as [|[M L]]; [auto|]. 
           (* s was offered and kept: the fold over the rest does not touch it *)
           left. clear - J3 O2 N1 I1 O1 HN IH. 
           assert (X : forall l st', ~ In s l -> In s (registered st') -> In s (registered (fold_left (offer m) l st'))).
           { clear. induction l as [|x l IH]; intros st' Hn Hi; [auto|]. cbn [fold_left]. apply IH; [cbn in Hn; tauto|].
             unfold BcModel.offer. destruct (negb _); [auto|]. destruct (closed st' x); [auto|]. destruct (_ <? _); [auto|].
             cbn [BcModel.remove registered]. apply in_del. split; [auto|]. cbn in Hn. intuition. }
           apply X; auto.
        -- destruct (O1 t N) as (A & B & C). destruct (J3 t (proj2 B Ht)) as [|[M L]]; [auto|]. right. rewrite <- C. auto.
      * intros t Ht. apply J4 in Ht. destruct (Nat.eq_dec t s) as [->|N]; [apply HR; cbn; auto|apply (O1 t N); auto].
Qed.

Lemma nodup_order l : NoDup l -> is_order l l = true.
Proof.
  intros H. unfold is_order. rewrite !andb_true_iff, !forallb_forall. split; [split|]; try (intros x Hx; apply mem_In; auto).
  induction H as [|x l N _ IH]; [auto|]. cbn. rewrite IH, andb_true_r. destruct (mem x l) eqn:E; [|auto]. apply mem_In in E. contradiction.
Qed.

Lemma deauth_inv calls u : forall order st, Inv calls (fun _ => []) [] st -> NoDup order -> (forall s, In s order -> In s (registered st)) ->
  let st' := fold_left (fun st s => if String.eqb (s_user (info s)) u then remove st s else st) order st in
  Inv calls (fun _ => []) [] st' /\
  (forall s, In s (registered st') <-> In s (registered st) /\ ~ (In s order /\ s_user (info s) = u)).
Proof.
  induction order as [|s order IH]; intros st I HN HR; cbn [fold_left]; [split; [auto|intros; cbn; tauto]|].
  inversion HN as [|? ? N1 N2]; subst. destruct (String.eqb_spec (s_user (info s)) u) as [E|E].
  - destruct (IH (remove st s)) as [J1 J2]; [apply remove_inv; [auto|apply HR; cbn; auto]|auto| |].
    + intros t Ht. cbn [BcModel.remove registered]. apply in_del. split; [apply HR; cbn; auto|]. intros ->. contradiction.
    + split; [auto|]. intros t. rewrite J2. cbn [BcModel.remove registered]. rewrite in_del. cbn. split.
      * intros [[A B] C]. split; [auto|]. intros [[->|D] F]; [congruence|tauto].
      * intros [A B]. split; [split; [auto|]|tauto]. intros ->. apply B. auto.
  - destruct (IH st) as [J1 J2]; [auto|auto|intros; apply HR; cbn; auto|]. split; [auto|]. intros t. rewrite J2. cbn. split.
    + intros [A B]. split; [auto|]. intros [[->|D] F]; [congruence|tauto].
    + intros [A B]. split; [auto|]. intros [C D]. apply B. auto.
Qed.

Definition calls_of (evs : list event) (s : nat) : nat := length (List.filter (fun e => match e with CallSubscribe t => Nat.eqb t s | _ => false end) evs).
Lemma occ_snoc s l x : occ s (l ++ [x]) = (occ s l + if Nat.eqb s x then 1 else 0)%nat.
Proof. unfold occ. rewrite filter_snoc, app_length. destruct (Nat.eqb s x); auto. Qed.
Lemma occ_cons s l x : occ s (x :: l) = ((if Nat.eqb s x then 1 else 0) + occ s l)%nat.
Proof. unfold occ. cbn. destruct (Nat.eqb s x); auto. Qed.

Ltac same I := destruct I; constructor; cbn [registered chan closed got finished q_subscribe q_messages ws sse panicked log accepted] in *; auto.

Lemma step_inv calls calls' st ev : Inv calls (fun _ => []) [] st ->
  (forall s, calls' s = (calls s + match ev with CallSubscribe t => if Nat.eqb t s then 1 else 0 | _ => 0 end)%nat) -> (forall s, (calls' s <= 1)%nat) ->
  Inv calls' (fun _ => []) [] (step st ev).
Proof.
  intros I HC H1.
  assert (I0 : Inv calls' (fun _ => []) [] st).
  { destruct I; constructor; auto. intros s. rewrite HC. specialize (i_calls0 s). lia. }
  destruct st as [R C CL G F qs qu qd qm w e p lg ac].
  destruct ev as [s|s|u|m| | |order|order|s]; cbn [BcModel.step].
  - destruct (length qs <? 5); [|auto]. destruct I as [I1 I2 I3 I4 I5 I6 I7 I8 I9 I10 I11 I12 I13]. constructor;
      cbn [registered chan closed got finished q_subscribe q_messages ws sse panicked log accepted] in *; auto.
    intros t. rewrite occ_snoc, HC. specialize (I1 t). rewrite (Nat.eqb_sym t s). destruct (Nat.eqb s t); lia.
  - destruct (length qu <? 5); [|auto]. same I0.
  - destruct (length qd <? 5); [|auto]. same I0.
  - destruct (length qm <? channelLength); [|auto]. same I0. cbn in *. rewrite app_assoc. congruence.
  - destruct qs as [|s qs]; [auto|]. destruct I0 as [I1 I2 I3 I4 I5 I6 I7 I8 I9 I10 I11 I12 I13].
    cbn [registered chan closed got finished q_subscribe q_messages ws sse panicked log accepted] in *.
    assert (Z0 : count_occ_action (is_registered s) lg = 0%nat).
    { specialize (I1 s). specialize (H1 s). rewrite occ_cons, Nat.eqb_refl in I1. lia. }
    assert (NR : ~ In s R) by (intros X; apply I3 in X; lia).
    assert (NC : CL s = false) by (destruct (CL s) eqn:E; [apply I5 in E; lia|auto]).
    rewrite (del_id s R NR).
    constructor; cbn [registered chan closed got finished q_subscribe q_messages ws sse panicked log accepted]; auto.
    + intros t. rewrite count_snoc. specialize (I1 t). rewrite occ_cons in I1. cbn [is_registered]. rewrite (Nat.eqb_sym t s) in I1. destruct (Nat.eqb s t); lia.
    + constructor; auto.
    + intros t. rewrite count_snoc. cbn [In is_registered]. rewrite I3. destruct (Nat.eqb_spec s t) as [->|N]; [rewrite Z0, NC; intuition|].
      rewrite Nat.add_0_r. intuition.
    + intros t. rewrite count_snoc. cbn [is_removed]. rewrite Nat.add_0_r. auto.
    + intros t Ht. rewrite count_snoc. cbn [is_registered]. destruct (Nat.eqb_spec s t) as [->|N]; [congruence|]. rewrite Nat.add_0_r. auto.
    + intros t. rewrite present_snoc, I6. cbn [mem existsb]. fold (mem t R). rewrite (Nat.eqb_sym t s). destruct (Nat.eqb s t); auto.
    + intros t. rewrite entitled_snoc, app_nil_r. auto.
    + rewrite I8. unfold cnt. cbn [List.filter]. destruct (websocket s); cbn [length]; lia.
    + rewrite I9. unfold cnt. cbn [List.filter]. destruct (websocket s); cbn [length negb]; lia.
    + rewrite processed_app. cbn. rewrite app_nil_r. auto.
  - destruct qu as [|s qu]; [auto|]. assert (I2 : Inv calls' (fun _ => []) [] (St R C CL G F qs qu qd qm w e p lg ac)) by (same I0).
    destruct (mem s R) eqn:E; [|auto]. apply mem_In in E. apply remove_inv; auto.
  - destruct qd as [|u qd]; [auto|]. destruct (is_order order R) eqn:E; [|auto]. apply is_order_spec in E. destruct E as [E1 E2].
    assert (I2 : Inv calls' (fun _ => []) [] (St R C CL G F qs qu qd qm w e p lg ac)) by (same I0).
    apply deauth_inv; auto. intros s Hs. cbn. apply E2; auto.
  - destruct qm as [|m qm]; [auto|]. destruct (is_order order R) eqn:E; [|auto]. apply is_order_spec in E. destruct E as [E1 E2].
    assert (I2 : Inv calls' (fun _ => []) [m] (St R C CL G F qs qu qd qm w e p lg ac)) by (same I0).
    destruct (offers_inv calls' m order _ _ I2 E1) as (extra & J & J1 & J2 & _).
    { intros s Hs. cbn. apply E2; auto. }
    { auto. }
    { intros s Hs Hn. cbn in Hs. apply E2 in Hs. contradiction. }
    { auto. }
    destruct (fold_left _ _ _) as [R1 C1 CL1 G1 F1 qs1 qu1 qd1 qm1 w1 e1 p1 lg1 ac1].
    destruct J as [K1 K2 K3 K4 K5 K6 K7 K8 K9 K10 K11 K12 K13].
    cbn [registered chan closed got finished q_subscribe q_messages ws sse panicked log accepted] in *.
    constructor; cbn [registered chan closed got finished q_subscribe q_messages ws sse panicked log accepted]; auto.
    + intros t. rewrite count_snoc. cbn [is_registered]. rewrite Nat.add_0_r. auto.
    + intros t. rewrite count_snoc. cbn [is_registered]. rewrite Nat.add_0_r. auto.
    + intros t. rewrite count_snoc. cbn [is_removed]. rewrite Nat.add_0_r. auto.
    + intros t Ht. rewrite count_snoc. cbn [is_registered]. rewrite Nat.add_0_r. auto.
    + intros t. rewrite present_snoc. auto.
    + intros t. rewrite entitled_snoc, app_nil_r, K7, K6. f_equal. destruct (mem t R1) eqn:EM.
      * apply mem_In in EM. rewrite (J1 t EM). auto.
      * rewrite J2; [auto|]. intros X. apply mem_In in X. congruence.
    + rewrite processed_app, <- app_assoc. cbn. auto.
  - destruct (C s) as [|m c] eqn:EC.
    + destruct (CL s) eqn:EL; [|auto]. destruct I0 as [I1 I2 I3 I4 I5 I6 I7 I8 I9 I10 I11 I12 I13].
      constructor; cbn [registered chan closed got finished q_subscribe q_messages ws sse panicked log accepted] in *; auto.
      intros t H. destruct (Nat.eq_dec t s) as [->|N]; [auto|rewrite set_neq in H by auto; auto].
    + destruct I0 as [I1 I2 I3 I4 I5 I6 I7 I8 I9 I10 I11 I12 I13].
      constructor; cbn [registered chan closed got finished q_subscribe q_messages ws sse panicked log accepted] in *; auto.
      * intros t. destruct (Nat.eq_dec t s) as [->|N]; [rewrite !set_eq|rewrite !set_neq by auto; auto].
        rewrite <- I7, EC, <- app_assoc. auto.
      * intros t. destruct (Nat.eq_dec t s) as [->|N]; [rewrite !set_eq|rewrite !set_neq by auto; auto]. specialize (I12 s). rewrite EC in I12. cbn in I12. lia.
      * intros t H. destruct (Nat.eq_dec t s) as [->|N]; [|rewrite set_neq by auto; auto]. apply I13 in H. destruct H. congruence.
Qed.

Lemma run_snoc evs ev : run (evs ++ [ev]) = step (run evs) ev.
Proof. unfold BcModel.run. rewrite fold_left_app. reflexivity. Qed.
Lemma once_prefix evs ev : once (evs ++ [ev]) -> once evs.
Proof. intros H s. specialize (H s). rewrite filter_app, app_length in H. lia. Qed.
Lemma run_inv evs : once evs -> Inv (calls_of evs) (fun _ => []) [] (run evs).
Proof.
  induction evs as [|ev evs IH] using rev_ind; intros H.
  - constructor; cbn; auto; try (intros; lia); try discriminate; try constructor; try tauto; intros; lia.
  - rewrite run_snoc. eapply step_inv; [apply IH; eapply once_prefix; eauto| |exact H].
    intros s. unfold calls_of. rewrite filter_snoc, app_length. destruct ev as [t| | | | | | | |]; cbn; try lia. destruct (Nat.eqb t s); cbn; lia.
Qed.
End P.

From Coq Require Import String List ZArith Bool Lia Permutation PeanoNat.
From Verif Require Import SbModel SbSpec.
Import ListNotations.
Local Open Scope Z_scope.

(* ---- container/heap with this Less, Swap, Push and Pop ---- *)
Definition key (h : heap) (i : nat) : Z := deadline (at_ h i).
Definition parent (i : nat) : nat := ((i - 1) / 2)%nat.
Definition heap_ok (n : nat) (h : heap) : Prop := forall i, (0 < i < n)%nat -> key h (parent i) <= key h i.

Lemma parent_lt i : (0 < i)%nat -> (parent i < i)%nat.
Proof. intros H. unfold parent. pose proof (Nat.div_lt_upper_bound (i - 1) 2 i). lia. Qed.
Lemma parent_spec i : (0 < i)%nat -> (i = 2 * parent i + 1 \/ i = 2 * parent i + 2)%nat.
Proof. intros H. unfold parent. pose proof (Nat.div_mod (i - 1) 2). pose proof (Nat.mod_upper_bound (i - 1) 2). lia. Qed.
Lemma parent_l i : parent (2 * i + 1) = i.
Proof. pose proof (parent_spec (2 * i + 1)). lia. Qed.
Lemma parent_r i : parent (2 * i + 2) = i.
Proof. pose proof (parent_spec (2 * i + 2)). lia. Qed.

Lemma root_min n h : heap_ok n h -> forall i, (i < n)%nat -> key h 0 <= key h i.
Proof.
  intros H i. induction i as [i IH] using (well_founded_induction Wf_nat.lt_wf). intros Hi.
  destruct (Nat.eq_dec i 0) as [->|N]; [lia|].
  pose proof (parent_lt i ltac:(lia)). specialize (IH (parent i)). specialize (H i). lia.
Qed.

Lemma swap_key h i j k : key (Swap h i j) k = if Nat.eqb k i then key h j else if Nat.eqb k j then key h i else key h k.
Proof. unfold key. cbn [Swap at_]. destruct (Nat.eqb k i), (Nat.eqb k j); reflexivity. Qed.
Lemma swap_len h i j : len (Swap h i j) = len h. Proof. reflexivity. Qed.

Definition elems (n : nat) (h : heap) := map (at_ h) (seq 0 n).
Lemma swap_perm n h i j : (i < n)%nat -> (j < n)%nat -> Permutation (elems n (Swap h i j)) (elems n h).
Proof.
  intros Hi Hj. unfold elems.
  set (tr := fun k => if Nat.eqb k i then j else if Nat.eqb k j then i else k).
  assert (E : map (at_ (Swap h i j)) (seq 0 n) = map (at_ h) (map tr (seq 0 n))).
  { rewrite map_map. apply map_ext. intros k. unfold tr. cbn [Swap at_]. destruct (Nat.eqb k i), (Nat.eqb k j); reflexivity. }
  rewrite E. apply Permutation_map. apply NoDup_Permutation.
  - apply FinFun.Injective_map_NoDup; [|apply seq_NoDup]. intros a b. unfold tr.
    destruct (Nat.eqb_spec a i), (Nat.eqb_spec b i), (Nat.eqb_spec a j), (Nat.eqb_spec b j); lia.
  - apply seq_NoDup.
  - intros k. rewrite in_map_iff, in_seq. unfold tr. split.
    + intros (x & <- & Hx). apply in_seq in Hx. destruct (Nat.eqb_spec x i), (Nat.eqb_spec x j); lia.
    + intros Hk. exists (if Nat.eqb k i then j else if Nat.eqb k j then i else k). rewrite in_seq.
      destruct (Nat.eqb_spec k i), (Nat.eqb_spec k j); repeat match goal with |- context [Nat.eqb ?a ?b] => destruct (Nat.eqb_spec a b) end; split; lia.
Qed.

(* up: a heap except that j may be smaller than its ancestors. *)
Lemma up_ok n fuel : forall h j, (j < n)%nat -> (j <= fuel)%nat ->
  (forall i, (0 < i < n)%nat -> i <> j -> key h (parent i) <= key h i) ->
  (forall i, (0 < i < n)%nat -> (0 < j)%nat -> parent i = j -> key h (parent j) <= key h i) ->
  heap_ok n (up fuel h j) /\ Permutation (elems n (up fuel h j)) (elems n h) /\ len (up fuel h j) = len h.
Proof.
  induction fuel as [|fuel IH]; intros h j Hj Hf H1 H2.
  - assert (j = 0)%nat by lia. subst j. cbn [up]. split; [|split; auto]. intros i Hi. apply H1; lia.
  - cbn [up]. fold (parent j). destruct (Nat.eqb_spec (parent j) j) as [E|NE].
    { cbn [orb]. split; [|split; auto]. intros i Hi. destruct (Nat.eq_dec i j) as [->|N]; [rewrite E; lia|auto]. }
    cbn [orb]. assert (J0 : (0 < j)%nat). { destruct j; [elim NE; reflexivity|lia]. }
    unfold Less. fold (key h j) (key h (parent j)).
    destruct (Z.ltb_spec (key h j) (key h (parent j))) as [L|L]; cbn [negb].
    2: { split; [|split; auto]. intros i Hi. destruct (Nat.eq_dec i j) as [->|N]; auto. }
    pose proof (parent_lt j J0) as PL.
    destruct (IH (Swap h (parent j) j) (parent j)) as (A & B & C).
    + lia.
    + lia.
    + intros i Hi Ni. rewrite !swap_key.
      destruct (Nat.eqb_spec i (parent j)); [lia|]. destruct (Nat.eqb_spec i j) as [->|Nij].
      { rewrite Nat.eqb_refl. lia. }
      destruct (Nat.eqb_spec (parent i) (parent j)) as [E|N].
      { specialize (H1 i Hi Nij). rewrite E in H1. lia. }
      destruct (Nat.eqb_spec (parent i) j) as [E|N2].
      { apply H2; auto. }
      apply H1; auto.
    + intros i Hi P0 PE. rewrite !swap_key. pose proof (parent_lt (parent j) P0).
      assert (X : key h (parent (parent j)) <= key h (parent j)) by (apply H1; lia).
      pose proof (parent_lt i ltac:(lia)).
      repeat match goal with |- context [Nat.eqb ?a ?b] => destruct (Nat.eqb_spec a b) end; subst; try lia.
      specialize (H1 i Hi). rewrite PE in H1. lia.
    + split; [auto|]. split; [|rewrite C; auto]. etransitivity; [exact B|]. apply swap_perm; lia.
Qed.

(* down: a heap except that i may be larger than its children. *)
Lemma down_ok n fuel : forall h i, (i < n)%nat -> (n <= i + fuel)%nat -> 
  (forall k, (0 < k < n)%nat -> parent k <> i -> key h (parent k) <= key h k) ->
  (forall k, (0 < k < n)%nat -> (0 < i)%nat -> parent k = i -> key h (parent i) <= key h k) ->
  heap_ok n (down fuel h i n) /\ Permutation (elems n (down fuel h i n)) (elems n h) /\ len (down fuel h i n) = len h /\
  (forall k, (n <= k)%nat -> at_ (down fuel h i n) k = at_ h k).
Proof.
  induction fuel as [|fuel IH]; intros h i Hi Hf H1 H2; [lia|].
  cbn [down]. replace (i + (i + 0) + 1)%nat with (2 * i + 1)%nat by lia.
  destruct (Nat.leb_spec n (2 * i + 1)) as [L|L].
  { split; [|split; [auto|split; auto]]. intros k Hk. apply H1; [auto|]. pose proof (parent_spec k). lia. }
  set (j := if Nat.ltb (2 * i + 1 + 1) n && Less h (2 * i + 1 + 1) (2 * i + 1) then (2 * i + 1 + 1)%nat else (2 * i + 1)%nat).
  assert (J : (j < n)%nat /\ (0 < j)%nat /\ (i < j)%nat /\ parent j = i /\ forall k, (0 < k < n)%nat -> parent k = i -> key h j <= key h k).
  { assert (C : forall k, (0 < k < n)%nat -> parent k = i -> (k = 2 * i + 1 \/ k = 2 * i + 1 + 1)%nat) by (intros k Hk E; pose proof (parent_spec k); lia).
    unfold j. destruct (Nat.ltb_spec (2 * i + 1 + 1) n) as [L2|L2]; cbn [andb].
    - unfold Less. fold (key h (2 * i + 1 + 1)) (key h (2 * i + 1)). destruct (Z.ltb_spec (key h (2 * i + 1 + 1)) (key h (2 * i + 1))).
      + split; [lia|]. split; [lia|]. split; [lia|]. split; [replace (2 * i + 1 + 1)%nat with (2 * i + 2)%nat by lia; apply parent_r|].
        intros k Hk E. destruct (C k Hk E) as [->| ->]; lia.
      + split; [lia|]. split; [lia|]. split; [lia|]. split; [apply parent_l|]. intros k Hk E. destruct (C k Hk E) as [->| ->]; lia.
    - split; [lia|]. split; [lia|]. split; [lia|]. split; [apply parent_l|]. intros k Hk E. destruct (C k Hk E) as [->| ->]; lia. }
  clearbody j. destruct J as (J1 & J2 & J3 & J4 & J5).
  unfold Less. fold (key h j) (key h i). destruct (Z.ltb_spec (key h j) (key h i)) as [LT|GE]; cbn [negb].
  2: { split; [|split; [auto|split; auto]]. intros k Hk. destruct (Nat.eq_dec (parent k) i) as [E|N]; [|auto]. rewrite E. specialize (J5 k Hk E). lia. }
  destruct (IH (Swap h i j) j) as (A & B & C & D).
  - lia.
  - lia.
  - intros k Hk N. rewrite !swap_key. pose proof (parent_lt k ltac:(lia)).
    destruct (Nat.eqb_spec k i) as [->|Ki].
    { destruct (Nat.eqb_spec (parent i) i); [lia|]. destruct (Nat.eqb_spec (parent i) j); [lia|]. apply H2; auto. lia. }
    destruct (Nat.eqb_spec (parent k) i) as [E|Pi].
    { destruct (Nat.eqb_spec k j); [lia|]. apply J5; auto. }
    destruct (Nat.eqb_spec (parent k) j); [contradiction|].
    destruct (Nat.eqb_spec k j) as [->|Kj]; [congruence|]. apply H1; auto.
  - intros k Hk _ E. rewrite !swap_key. rewrite J4. pose proof (parent_lt k ltac:(lia)).
    rewrite Nat.eqb_refl. destruct (Nat.eqb_spec k i); [lia|]. destruct (Nat.eqb_spec k j); [lia|].
    specialize (H1 k Hk). rewrite E in H1. apply H1. lia.
  - split; [auto|]. split; [etransitivity; [exact B|]; apply swap_perm; lia|]. split; [rewrite C; auto|].
    intros k Hk. rewrite D by auto. cbn [Swap at_]. destruct (Nat.eqb_spec k i); [lia|]. destruct (Nat.eqb_spec k j); [lia|]. auto.
Qed.

Lemma heap_Push_ok h x : heap_ok (len h) h -> let h' := heap_Push h x in
  heap_ok (len h') h' /\ len h' = S (len h) /\ Permutation (elements h') (x :: elements h).
Proof.
  intros H h'. unfold h', heap_Push. set (p := Push h x).
  assert (EL : len p = S (len h)) by reflexivity.
  assert (KP : forall i, (i < len h)%nat -> key p i = key h i).
  { intros i Hi. unfold key, p. cbn [Push at_]. destruct (Nat.eqb_spec i (len h)); [lia|auto]. }
  destruct (up_ok (len p) (len p) p (len p - 1)) as (A & B & C).
  - lia.
  - lia.
  - intros i Hi N. pose proof (parent_lt i ltac:(lia)). rewrite !KP by lia. apply H. lia.
  - intros i Hi _ E. pose proof (parent_lt i ltac:(lia)). lia.
  - rewrite C. split; [auto|]. split; [lia|]. unfold elements. rewrite C. etransitivity; [exact B|].
    unfold elems. rewrite EL, seq_S, map_app. cbn [map]. replace (at_ p (0 + len h)%nat) with x.
    2: { cbn. rewrite Nat.eqb_refl. auto. }
    etransitivity; [apply Permutation_app_comm|]. cbn [app]. apply perm_skip.
    replace (map (at_ p) (seq 0 (len h))) with (map (at_ h) (seq 0 (len h))); [auto|].
    apply map_ext_in. intros k Hk. apply in_seq in Hk. cbn. destruct (Nat.eqb_spec k (len h)); [lia|auto].
Qed.

Lemma heap_Pop_ok h : heap_ok (len h) h -> (0 < len h)%nat -> exists h',
  heap_Pop h = Some (at_ h 0, h') /\ heap_ok (len h') h' /\ len h = S (len h') /\ Permutation (elements h) (at_ h 0 :: elements h').
Proof.
  intros H HL. unfold heap_Pop. set (n := (len h - 1)%nat). set (h0 := Swap h 0 n).
  assert (T : at_ h0 n = at_ h 0). { unfold h0. cbn [Swap at_]. rewrite Nat.eqb_refl. destruct (Nat.eqb_spec n 0) as [->|]; auto. }
  assert (P0 : Permutation (elems (S n) h0) (elems (S n) h)) by (apply swap_perm; lia).
  assert (D : exists d, d = down (len h) h0 0 n /\ heap_ok n d /\ Permutation (elems n d) (elems n h0) /\ len d = len h /\ at_ d n = at_ h 0).
  { exists (down (len h) h0 0 n). split; [auto|]. destruct (Nat.eq_dec n 0) as [E|N].
    - assert (X : down (len h) h0 0 n = h0). { destruct (len h) eqn:EL; [lia|]. cbn [down]. rewrite E. reflexivity. }
      rewrite X. split; [intros i Hi; lia|]. split; [auto|]. split; [auto|auto].
    - destruct (down_ok n (len h) h0 0) as (A & B & C & F); [lia|lia| | |].
      + intros k Hk Nk. unfold h0. rewrite !swap_key. pose proof (parent_lt k ltac:(lia)).
        repeat match goal with |- context [Nat.eqb ?a ?b] => destruct (Nat.eqb_spec a b) end; try lia. apply H. lia.
      + intros k Hk L. lia.
      + split; [auto|]. split; [auto|]. split; [rewrite C; auto|]. rewrite F by lia. auto. }
  destruct D as (d & -> & A & B & C & F). set (d := down (len h) h0 0 n) in *. clearbody d.
  unfold Pop. rewrite C. replace (len h) with (S n) by lia. rewrite F.
  eexists. split; [reflexivity|]. cbn [len]. split; [auto|]. split; [auto|].
  unfold elements. replace (len h) with (S n) by lia. cbn [len].
  etransitivity; [symmetry; exact P0|]. unfold elems in *. rewrite seq_S, map_app. cbn [map plus]. rewrite T.
  etransitivity; [apply Permutation_app_comm|]. cbn [app]. apply perm_skip. symmetry. exact B.
Qed.

(* ---- maps ---- *)
Lemma lookup_delete m c c' : lookup (delete m c) c' = if String.eqb c c' then None else lookup m c'.
Proof.
  unfold delete. induction m as [|[k b] m IH]; cbn; [destruct (String.eqb c c'); auto|].
  destruct (String.eqb_spec k c) as [->|N]; cbn.
  - rewrite IH. destruct (String.eqb c c'); auto.
  - rewrite IH. destruct (String.eqb_spec k c') as [->|]; [|auto]. destruct (String.eqb_spec c c'); congruence.
Qed.
Lemma lookup_insert m c b c' : lookup (insert m c b) c' = if String.eqb c c' then Some b else lookup m c'.
Proof. unfold insert. cbn [lookup]. rewrite lookup_delete. destruct (String.eqb c c'); auto. Qed.

Arguments insert : simpl never.
Arguments delete : simpl never.

(* ---- logs ---- *)
Fixpoint reqs (c : string) (lg : list entry) : list Z :=
  match lg with
  | [] => []
  | Requested c' t :: lg => if String.eqb c' c then t :: reqs c lg else reqs c lg
  | Received _ _ :: lg => reqs c lg
  end.
Lemma reqs_app c l1 l2 : reqs c (l1 ++ l2) = reqs c l1 ++ reqs c l2.
Proof. induction l1 as [|[c' t|c' t] l1 IH]; cbn; auto. destruct (String.eqb c' c); cbn; congruence. Qed.
Lemma in_reqs c t lg : In t (reqs c lg) <-> In (Requested c t) lg.
Proof.
  induction lg as [|[c' t'|c' t'] lg IH]; cbn; [tauto|..].
  - rewrite IH. split; [auto|intros [H|H]; [discriminate|auto]].
  - destruct (String.eqb_spec c' c) as [->|N]; cbn; rewrite IH; split.
    + intros [->|H]; auto.
    + intros [H|H]; [injection H; auto|auto].
    + auto.
    + intros [H|H]; [injection H; intros; contradiction|auto].
Qed.

Lemma unanswered_nil c t : ~ unanswered [] c t.
Proof. intros (l1 & l2 & E & _). destruct l1; discriminate. Qed.
Lemma unanswered_received c c' t t' lg : unanswered (Received c' t' :: lg) c t <-> (c' = c /\ t' = t) \/ unanswered lg c t.
Proof.
  split.
  - intros (l1 & l2 & E & H). destruct l1 as [|x l1]; [injection E as -> -> ->; auto|].
    injection E as <- ->. right. exists l1, l2. split; [auto|]. intros u Hu. apply (H u). right. auto.
  - intros [[-> ->]|(l1 & l2 & -> & H)].
    + exists [], lg. split; auto.
    + exists (Received c' t' :: l1), l2. split; [auto|]. intros u [X|X]; [discriminate|apply (H u); auto].
Qed.
Lemma unanswered_requested c c' t t' lg : unanswered (Requested c' t' :: lg) c t <-> c' <> c /\ unanswered lg c t.
Proof.
  split.
  - intros (l1 & l2 & E & H). destruct l1 as [|x l1]; [discriminate|]. injection E as <- ->.
    split; [intros ->; apply (H t'); left; auto|]. exists l1, l2. split; [auto|]. intros u Hu. apply (H u). right. auto.
  - intros (N & l1 & l2 & -> & H). exists (Requested c' t' :: l1), l2. split; [auto|]. intros u [X|X]; [congruence|apply (H u); auto].
Qed.

Section Inv.
Variable interval : Z.
Hypothesis I0 : 0 <= interval.
Notation I := interval.

Fixpoint spaced (l : list Z) : Prop :=
  match l with [] => True | a :: tl => Forall (fun x => x + I <= a) (List.tl tl) /\ spaced tl end.
Fixpoint useful (lg : list entry) : Prop :=
  match lg with
  | [] => True
  | Requested c t :: lg => (exists t', unanswered lg c t') /\ useful lg
  | Received _ _ :: lg => useful lg
  end.

Record Inv (s : state) : Prop := {
  i_stuck : stuck s = false;
  i_panic : panicked s = false;
  i_heap : heap_ok (len (events s)) (events s);
  i_nodup : NoDup (map contestAlias (elements (events s)));
  i_set : forall c, lookup (eventSet s) c <> None <-> In c (map contestAlias (elements (events s)));
  i_timer : match tm s with
            | Armed None => len (events s) = 0%nat
            | Armed (Some d) => len (events s) <> 0%nat /\ key (events s) 0 <= d /\ d <= Z.max (now s) (key (events s) 0)
            | Fired => len (events s) <> 0%nat /\ key (events s) 0 <= now s
            | Idle => False
            end;
  i_late : forall e, In e (elements (events s)) -> deadline e <= now s + I;
  i_dirty : forall c, lookup (eventSet s) c = Some true <-> exists t, unanswered (log s) c t;
  i_owed : forall c t, unanswered (log s) c t -> exists e, In e (elements (events s)) /\ contestAlias e = c /\ deadline e <= t + I;
  i_first : forall e, In e (elements (events s)) -> exists rest, reqs (contestAlias e) (log s) = (deadline e - I) :: rest;
  i_out : forall c, lookup (eventSet s) c = None -> Forall (fun x => x + I <= now s) (tl (reqs c (log s)));
  i_sorted : forall c, Forall (fun x => x <= now s) (reqs c (log s));
  i_desc : forall c a l, reqs c (log s) = a :: l -> Forall (fun x => x <= a) l;
  i_spaced : forall c, spaced (reqs c (log s));
  i_useful : useful (log s)
}.

Lemma len_elements h : length (elements h) = len h.
Proof. unfold elements. rewrite map_length, seq_length. auto. Qed.
Lemma root_in h : len h <> 0%nat -> In (at_ h 0) (elements h).
Proof. intros H. unfold elements. apply in_map, in_seq. lia. Qed.
Lemma key_root_le h e : heap_ok (len h) h -> In e (elements h) -> key h 0 <= deadline e.
Proof. intros H HE. unfold elements in HE. apply in_map_iff in HE. destruct HE as (k & <- & HK). apply in_seq in HK. apply (root_min (len h)); auto. lia. Qed.

Lemma inv_init t0 : Inv (init t0).
Proof.
  constructor; cbn; auto.
  - intros i Hi. lia.
  - constructor.
  - intros c. split; [tauto|intros []].
  - intros e [].
  - intros c. split; [discriminate|]. intros (t & H). elim (unanswered_nil _ _ H).
  - intros c t H. elim (unanswered_nil _ _ H).
  - intros e [].
  - discriminate.
Qed.

Lemma inv_tick s d : Inv s -> Inv (match s with St ev es tm pd t sk pn lg => St ev es tm pd (t + Z.of_nat d) sk pn lg end).
Proof.
  destruct s as [ev es tmr pd t sk pn lg]. intros H. destruct H; constructor; cbn in *; auto.
  - destruct tmr as [[x|]| |]; auto; lia.
  - intros e He. specialize (i_late0 e He). lia.
  - intros c Hc. eapply Forall_impl; [|apply i_out0; auto]. cbn. intros; lia.
  - intros c. eapply Forall_impl; [|apply i_sorted0]. cbn. intros; lia.
Qed.
Lemma inv_due ev es pd t sk pn lg d : d <= t -> Inv (St ev es (Armed (Some d)) pd t sk pn lg) -> Inv (St ev es Fired pd t sk pn lg).
Proof.
  intros HD H. destruct H; constructor; cbn in *; auto. lia.
Qed.
Lemma inv_pending ev es tmr pd pd' t sk pn lg : Inv (St ev es tmr pd t sk pn lg) -> Inv (St ev es tmr pd' t sk pn lg).
Proof. intros H. destruct H; constructor; cbn in *; auto. Qed.

Lemma inv_receive s : Inv s -> Inv (loop_receive I s).
Proof.
  destruct s as [ev es tmr pd t sk pn lg]. intros H. destruct pd as [|c pd]; [auto|]. cbn [loop_receive].
  destruct (lookup es c) as [b|] eqn:EL.
  - (* already scheduled *)
    assert (EIN : In c (map contestAlias (elements ev))). { apply (i_set _ H). cbn. congruence. }
    destruct H; constructor; cbn in *; auto.
    + intros c'. rewrite lookup_insert. destruct (String.eqb_spec c c') as [<-|N]; [|auto]. split; [auto|congruence].
    + intros c'. rewrite lookup_insert. destruct (String.eqb_spec c c') as [<-|N].
      * split; [|auto]. intros _. exists t. apply unanswered_received. auto.
      * rewrite i_dirty0. split; intros (u & Hu); exists u; [apply unanswered_received; auto|]. apply unanswered_received in Hu. destruct Hu as [[E _]|Hu]; [contradiction|auto].
    + intros c' t' Hu. apply unanswered_received in Hu. destruct Hu as [[<- <-]|Hu]; [|auto].
      apply in_map_iff in EIN. destruct EIN as (e & E1 & E2). exists e. split; [auto|split; auto].
    + intros c'. rewrite lookup_insert. destruct (String.eqb_spec c c') as [<-|N]; [discriminate|auto].
  - (* new entry *)
    set (e := Event c (t + I)). pose proof (heap_Push_ok ev e (i_heap _ H)) as (PO & PL & PP).
    set (ev' := heap_Push ev e) in *. clearbody ev'.
    assert (TM : exists tmr', (if Nat.eqb (len ev') 1 then let '(ok, tm0) := Stop tmr in
         if ok then (Armed (Some (Z.max t (t + I))), sk) else match tm0 with Fired => (Armed (Some (Z.max t (t + I))), sk) | _ => (tm0, true) end else (tmr, sk)) = (tmr', sk) /\
       match tmr' with
            | Armed None => len ev' = 0%nat
            | Armed (Some d) => len ev' <> 0%nat /\ key ev' 0 <= d /\ d <= Z.max t (key ev' 0)
            | Fired => len ev' <> 0%nat /\ key ev' 0 <= t
            | Idle => False
            end).
    { pose proof (i_timer _ H) as HT. cbn in HT. rewrite PL. destruct (Nat.eqb_spec (S (len ev)) 1) as [E1|N1].
      - assert (X : tmr = Armed None). { destruct tmr as [[d|]| |]; auto; try tauto; lia. }
        subst tmr. cbn. eexists. split; [reflexivity|]. cbn.
        assert (K : key ev' 0 = t + I). { assert (HI : In (at_ ev' 0) (elements ev')) by (apply root_in; lia).
          apply (Permutation_in _ PP) in HI. destruct HI as [HI|HI]; [unfold key; rewrite <- HI; reflexivity|]. unfold elements in HI. replace (len ev) with 0%nat in HI by lia. destruct HI. }
        rewrite K. lia.
      - exists tmr. split; [auto|].
        assert (K : key ev' 0 = key ev 0).
        { assert (HI : In (at_ ev 0) (elements ev')) by (apply (Permutation_in _ (Permutation_sym PP)); right; apply root_in; lia).
          pose proof (key_root_le _ _ PO HI) as L1. fold (key ev 0) in L1.
          assert (HI2 : In (at_ ev' 0) (elements ev')) by (apply root_in; lia).
          apply (Permutation_in _ PP) in HI2. destruct HI2 as [HI2|HI2].
          - assert (key ev' 0 = t + I) by (unfold key; rewrite <- HI2; reflexivity).
            pose proof (i_late _ H (at_ ev 0) (root_in ev ltac:(lia))). cbn in H1. unfold key in *. lia.
          - pose proof (key_root_le _ _ (i_heap _ H) HI2). unfold key in *. cbn [events] in *. lia. }
        rewrite K. destruct tmr as [[d|]| |]; try tauto; lia. }
    destruct TM as (tmr' & -> & HT'). pose proof (i_stuck _ H) as ES. cbn in ES. subst sk.
    assert (NIN : ~ In c (map contestAlias (elements ev))). { intros X. apply (i_set _ H) in X. cbn in X. congruence. }
    assert (NU : forall u, ~ unanswered lg c u). { intros u Hu. assert (X : lookup es c = Some true) by (apply (i_dirty _ H); exists u; auto). congruence. }
    assert (EP : forall x, In x (elements ev') <-> e = x \/ In x (elements ev)).
    { intros x. split; intros X; [apply (Permutation_in _ PP) in X; auto|apply (Permutation_in _ (Permutation_sym PP)); auto]. }
    assert (EPA : forall x, In x (map contestAlias (elements ev')) <-> c = x \/ In x (map contestAlias (elements ev))).
    { intros x. rewrite !in_map_iff. split.
      - intros (y & <- & Hy). apply EP in Hy. destruct Hy as [<-|Hy]; [auto|]. right. exists y. auto.
      - intros [<-|(y & <- & Hy)]; [exists e|exists y]; (split; [auto|apply EP; auto]). }
    destruct H; constructor; cbn in *; auto.
    + eapply Permutation_NoDup; [symmetry; apply Permutation_map; exact PP|]. cbn. constructor; auto.
    + intros c'. rewrite lookup_insert, EPA. destruct (String.eqb_spec c c') as [<-|N]; [split; [auto|congruence]|]. rewrite i_set0. tauto.
    + intros x Hx. apply EP in Hx. destruct Hx as [<-|Hx]; [cbn; lia|auto].
    + intros c'. rewrite lookup_insert. destruct (String.eqb_spec c c') as [<-|N].
      * split; [discriminate|]. intros (u & Hu). apply unanswered_requested in Hu. tauto.
      * rewrite i_dirty0. split; intros (u & Hu); exists u.
        -- apply unanswered_requested. split; [auto|]. apply unanswered_received. auto.
        -- apply unanswered_requested in Hu. destruct Hu as [_ Hu]. apply unanswered_received in Hu. destruct Hu as [[E _]|Hu]; [contradiction|auto].
    + intros c' u Hu. apply unanswered_requested in Hu. destruct Hu as [N Hu]. apply unanswered_received in Hu. destruct Hu as [[E _]|Hu]; [contradiction|].
      destruct (i_owed0 c' u Hu) as (x & A & B & C). exists x. split; [apply EP; auto|auto].
    + intros x Hx. apply EP in Hx. destruct Hx as [<-|Hx].
      * cbn. rewrite String.eqb_refl. eexists. f_equal. lia.
      * destruct (i_first0 x Hx) as (rest & E). destruct (String.eqb_spec c (contestAlias x)) as [E2|N]; [|exists rest; auto].
        elim NIN. rewrite E2. apply in_map. auto.
    + intros c'. rewrite lookup_insert. destruct (String.eqb_spec c c') as [<-|N]; [discriminate|auto].
    + intros c'. destruct (String.eqb_spec c c') as [<-|N]; [|auto]. constructor; [lia|auto].
    + intros c' a l. destruct (String.eqb_spec c c') as [<-|N]; [|eauto]. intros E. injection E as <- <-. apply i_sorted0.
    + intros c'. destruct (String.eqb_spec c c') as [<-|N]; [|auto]. cbn. split; [|auto]. apply i_out0. auto.
    + split; [|auto]. exists t. apply unanswered_received. auto.
Qed.

Lemma inv_timer s : Inv s -> Inv (loop_timer s).
Proof.
  destruct s as [ev es tmr pd t sk pn lg]. intros H. cbn [loop_timer]. destruct tmr as [d| |]; auto.
  pose proof (i_timer _ H) as [HN HK]. cbn in HN, HK. destruct (Nat.eqb_spec (len ev) 0) as [E|_]; [contradiction|].
  destruct (heap_Pop_ok ev (i_heap _ H) ltac:(lia)) as (ev' & -> & PO & PL & PP). set (e := at_ ev 0) in *.
  assert (HE : In e (elements ev)) by (apply root_in; auto).
  assert (ND := i_nodup _ H). cbn in ND. eapply Permutation_NoDup in ND; [|apply Permutation_map; exact PP]. cbn in ND. inversion ND as [|? ? NIN ND']; subst.
  assert (EP : forall x, In x (elements ev) <-> e = x \/ In x (elements ev')).
  { intros x. split; intros X; [apply (Permutation_in _ PP) in X; auto|apply (Permutation_in _ (Permutation_sym PP)); auto]. }
  assert (EPA : forall x, In x (map contestAlias (elements ev)) <-> contestAlias e = x \/ In x (map contestAlias (elements ev'))).
  { intros x. rewrite !in_map_iff. split.
    - intros (y & <- & Hy). apply EP in Hy. destruct Hy as [<-|Hy]; [auto|]. right. exists y. auto.
    - intros [<-|(y & <- & Hy)]; [exists e|exists y]; (split; [auto|apply EP; auto]). }
  set (c := contestAlias e) in *.
  assert (HL : lookup es c <> None). { apply (i_set _ H). cbn. apply EPA. auto. }
  assert (DE : deadline e <= t) by exact HK.
  destruct (i_first _ H e HE) as (rest & HR). cbn in HR. fold c in HR.
  assert (HD := i_desc _ H c _ _ HR).
  assert (TM : match (if Nat.eqb (len ev') 0 then Armed None else Armed (Some (Z.max t (deadline (at_ ev' 0))))) with
            | Armed None => len ev' = 0%nat
            | Armed (Some d) => len ev' <> 0%nat /\ key ev' 0 <= d /\ d <= Z.max t (key ev' 0)
            | Fired => len ev' <> 0%nat /\ key ev' 0 <= t
            | Idle => False
            end).
  { destruct (Nat.eqb_spec (len ev') 0); [auto|]. unfold key. lia. }
  assert (SET : forall c', lookup (delete es c) c' <> None <-> In c' (map contestAlias (elements ev'))).
  { intros c'. rewrite lookup_delete. destruct (String.eqb_spec c c') as [<-|N]; [split; [congruence|contradiction]|].
    pose proof (i_set _ H c') as X. cbn in X. rewrite X, EPA. tauto. }
  assert (OTHER : forall x, In x (elements ev') -> contestAlias x <> c). { intros x Hx E. apply NIN. rewrite <- E. apply in_map. auto. }
  destruct (lookup es c) as [[|]|] eqn:EL; [| |congruence].
  - (* trailing update *)
    assert (HU := i_dirty _ H c). cbn in HU. destruct (proj1 HU EL) as (u & Hu).
    destruct H; constructor; cbn in *; auto.
    + intros x Hx. apply i_late0, EP. auto.
    + intros c'. rewrite lookup_delete. destruct (String.eqb_spec c c') as [<-|N].
      * split; [discriminate|]. intros (v & Hv). apply unanswered_requested in Hv. tauto.
      * rewrite i_dirty0. split; intros (v & Hv); exists v; [apply unanswered_requested; auto|apply unanswered_requested in Hv; tauto].
    + intros c' v Hv. apply unanswered_requested in Hv. destruct Hv as [N Hv]. destruct (i_owed0 c' v Hv) as (x & A & B & C).
      apply EP in A. destruct A as [<-|A]; [contradiction|]. exists x. auto.
    + intros x Hx. destruct (String.eqb_spec c (contestAlias x)) as [E|N]; [elim (OTHER x Hx); auto|]. apply i_first0, EP. auto.
    + intros c'. rewrite lookup_delete. destruct (String.eqb_spec c c') as [<-|N]; [|auto]. intros _. rewrite HR. cbn. constructor; [lia|].
      eapply Forall_impl; [|exact HD]. cbn. intros; lia.
    + intros c'. destruct (String.eqb_spec c c') as [<-|N]; [|auto]. constructor; [lia|auto].
    + intros c' a l. destruct (String.eqb_spec c c') as [<-|N]; [|eauto]. intros E. injection E as <- <-. apply i_sorted0.
    + intros c'. destruct (String.eqb_spec c c') as [<-|N]; [|auto]. cbn. split; [|auto]. rewrite HR. cbn. eapply Forall_impl; [|exact HD]. cbn. intros; lia.
    + split; [|auto]. exists u. auto.
  - (* nothing new *)
    destruct H; constructor; cbn in *; auto.
    + intros x Hx. apply i_late0, EP. auto.
    + intros c'. rewrite lookup_delete. destruct (String.eqb_spec c c') as [<-|N]; [|auto].
      split; [discriminate|]. intros X. apply i_dirty0 in X. congruence.
    + intros c' v Hv. destruct (i_owed0 c' v Hv) as (x & A & B & C).
      apply EP in A. destruct A as [<-|A]; [|exists x; auto].
      assert (X : lookup es c' = Some true) by (apply i_dirty0; exists v; auto). rewrite <- B in X. fold c in X. congruence.
    + intros x Hx. apply i_first0, EP. auto.
    + intros c'. rewrite lookup_delete. destruct (String.eqb_spec c c') as [<-|N]; [|auto]. intros _. rewrite HR. cbn.
      eapply Forall_impl; [|exact HD]. cbn. intros; lia.
Qed.

Lemma inv_step s l : Inv s -> Inv (step I s l).
Proof.
  intros H. unfold step. rewrite (i_stuck _ H), (i_panic _ H). cbn [orb]. destruct l.
  - destruct s. eapply inv_pending. exact H.
  - apply inv_tick. exact H.
  - destruct s as [ev es tmr pd t sk pn lg]. destruct tmr as [[d|]| |]; auto. destruct (Z.leb_spec d t); [|auto]. eapply inv_due; eauto.
  - apply inv_receive. auto.
  - apply inv_timer. auto.
Qed.
Lemma run_snoc t0 ls l : run I t0 (ls ++ [l]) = step I (run I t0 ls) l.
Proof. unfold run. rewrite fold_left_app. reflexivity. Qed.
Lemma run_inv t0 ls : Inv (run I t0 ls).
Proof. induction ls as [|l ls IH] using rev_ind; [apply inv_init|]. rewrite run_snoc. apply inv_step. auto. Qed.

(* ---- prompt schedules ---- *)
Lemma prompt_snoc t0 ls l : prompt I t0 (ls ++ [l]) -> prompt I t0 ls.
Proof. intros H l1 d l2 E. apply (H l1 d (l2 ++ [l])). rewrite E, <- app_assoc. reflexivity. Qed.

Definition immediate (lg : list entry) : Prop := forall l1 c t l2, lg = l1 ++ Received c t :: l2 ->
  (exists t', t - I <= t' /\ In (Requested c t') l2) \/ (exists l1', l1 = l1' ++ [Requested c t]).
Lemma immediate_requested c t lg : immediate lg -> immediate (Requested c t :: lg).
Proof.
  intros H l1 c' t' l2 E. destruct l1 as [|x l1]; [discriminate|]. injection E as <- E.
  destruct (H _ _ _ _ E) as [X|(l1' & ->)]; [auto|]. right. exists (Requested c t :: l1'). reflexivity.
Qed.
Lemma immediate_old c t t' lg : immediate lg -> t - I <= t' -> In (Requested c t') lg -> immediate (Received c t :: lg).
Proof.
  intros H HT HI l1 c' u l2 E. destruct l1 as [|x l1].
  - injection E as <- <- <-. left. exists t'. auto.
  - injection E as <- E. destruct (H _ _ _ _ E) as [X|(l1' & ->)]; [auto|]. right. exists (Received c t :: l1'). reflexivity.
Qed.
Lemma immediate_new c t lg : immediate lg -> immediate (Requested c t :: Received c t :: lg).
Proof.
  intros H l1 c' u l2 E. destruct l1 as [|x [|y l1]].
  - discriminate.
  - injection E as <- <- <- <-. right. exists []. reflexivity.
  - injection E as <- <- E. destruct (H _ _ _ _ E) as [X|(l1' & ->)]; [auto|]. right. exists (Requested c t :: Received c t :: l1'). reflexivity.
Qed.

Lemma prompt_inv t0 ls : prompt I t0 ls -> let s := run I t0 ls in
  (forall e, In e (elements (events s)) -> now s <= deadline e) /\ immediate (log s).
Proof.
  induction ls as [|l ls IH] using rev_ind; intros HP.
  - cbn. split; [intros e []|]. intros l1 c t l2 E. destruct l1; discriminate.
  - specialize (IH (prompt_snoc _ _ _ HP)). cbv zeta in *. rewrite run_snoc. pose proof (run_inv t0 ls) as H.
    assert (HT : forall d, l = Tick d -> pending (run I t0 ls) = [] /\
       match tm (run I t0 ls) with Armed None => True | Armed (Some due) => now (run I t0 ls) + Z.of_nat d <= due | _ => False end).
    { intros d ->. apply (HP ls d []). reflexivity. }
    destruct IH as [D IM]. destruct (run I t0 ls) as [ev es tmr pd t sk pn lg]. cbn in D, IM. unfold step.
    rewrite (i_stuck _ H), (i_panic _ H). cbn [orb]. destruct l as [c|d| | |].
    + cbn. auto.
    + destruct (HT d eq_refl) as [_ HT']. cbn in *. split; [|auto]. pose proof (i_timer _ H) as TI. cbn in TI. intros e He.
      pose proof (key_root_le _ _ (i_heap _ H) He) as KL. cbn in KL.
      destruct tmr as [[due|]| |]; try contradiction.
      * assert (X : t <= key ev 0) by (apply D, root_in; tauto). lia.
      * unfold elements in He. rewrite TI in He. destruct He.
    + destruct tmr as [[due|]| |]; cbn; auto. destruct (due <=? t); cbn; auto.
    + destruct pd as [|c pd]; [cbn; auto|]. cbn [loop_receive]. destruct (lookup es c) as [b|] eqn:EL.
      * cbn. split; [auto|]. assert (EIN : In c (map contestAlias (elements ev))). { apply (i_set _ H). cbn. congruence. }
        apply in_map_iff in EIN. destruct EIN as (e & <- & HE). destruct (i_first _ H e HE) as (rest & HR). cbn in HR.
        eapply immediate_old with (t' := deadline e - I); [auto|specialize (D e HE); lia|]. apply in_reqs. rewrite HR. left. auto.
      * pose proof (heap_Push_ok ev (Event c (t + I)) (i_heap _ H)) as (PO & PL & PP). cbn [events] in *.
        assert (DD : forall e, In e (elements (heap_Push ev (Event c (t + I)))) -> t <= deadline e).
        { intros e He. apply (Permutation_in _ PP) in He. destruct He as [<-|He]; [cbn; lia|auto]. }
        pose proof (i_stuck _ (inv_receive _ H)) as ST. cbn [loop_receive] in ST. rewrite EL in ST.
        destruct (if Nat.eqb _ _ then _ else _) as [tm2 sk2]. destruct sk2; [discriminate|].
        cbn. split; [auto|]. apply immediate_new. auto.
    + cbn [loop_timer]. destruct tmr as [d| |]; [cbn; auto| |cbn; auto].
      pose proof (i_timer _ H) as [HN HK]. cbn in HN, HK. destruct (Nat.eqb_spec (len ev) 0) as [E|_]; [contradiction|].
      destruct (heap_Pop_ok ev (i_heap _ H) ltac:(lia)) as (ev' & -> & PO & PL & PP). cbn.
      split; [intros e He; apply D, (Permutation_in _ (Permutation_sym PP)); right; auto|].
      destruct (lookup es _) as [[|]|]; auto. apply immediate_requested. auto.
Qed.
End Inv.

Lemma received_order interval : forall t0 ls, let s := run interval t0 ls in received (log s) ++ pending s = arrivals ls.
Proof.
  intros t0 ls. cbv zeta. induction ls as [|l ls IH] using rev_ind; [reflexivity|]. rewrite run_snoc. pose proof (run_inv interval t0 ls) as H.
  assert (AA : forall l2, arrivals (ls ++ l2) = arrivals ls ++ arrivals l2).
  { clear. induction ls as [|x ls IH]; intros l2; [auto|]. destruct x; cbn; rewrite IH; auto. }
  rewrite AA, <- IH. clear AA IH. unfold step. rewrite (i_stuck _ _ H), (i_panic _ _ H). cbn [orb].
  destruct (run interval t0 ls) as [ev es tmr pd t sk pn lg]. destruct l as [c|d| | |]; cbn [pending log arrivals].
  - rewrite app_assoc. auto.
  - rewrite app_nil_r. auto.
  - rewrite app_nil_r. destruct tmr as [[due|]| |]; auto. destruct (due <=? t); auto.
  - rewrite app_nil_r. destruct pd as [|c pd]; [auto|]. cbn [loop_receive]. destruct (lookup es c).
    + cbn. rewrite <- app_assoc. auto.
    + pose proof (inv_receive _ _ H) as ST. apply i_stuck in ST. cbn [loop_receive] in ST.
      destruct (if Nat.eqb _ _ then _ else _) as [tm2 sk2]. destruct sk2; cbn; rewrite <- app_assoc; auto.
  - rewrite app_nil_r. cbn [loop_timer]. destruct tmr as [due| |]; auto. destruct (Nat.eqb (len ev) 0); [auto|].
    destruct (heap_Pop ev) as [[e ev']|]; [|auto]. cbn. destruct (lookup es (contestAlias e)) as [[|]|]; auto.
Qed.

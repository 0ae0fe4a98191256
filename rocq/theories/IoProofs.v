(* The I/O lock: one goroutine at a time, and what it leaves. *)
From Coq Require Import String Ascii List Arith Bool Lia.
From Verif Require Import GoStr InModel InSpec InProofs InRunnerProofs PoolModel PoolProps IoModel IoSpec.
Import ListNotations.
Local Open Scope list_scope.

Section Io.
Variable root : path.
Variable delete : string -> prog.
Variable L : nat.
Hypothesis HL : 2 <= L.
Hypothesis HD : forall h, 2 <= String.length h -> confined (input_path root h) (delete h).

Lemma listed_len h : listed_name L h -> 2 <= String.length h.
Proof.
  unfold listed_name, hash_of_length. intros [E|(g & E & ->)]; [lia|].
  assert (X : forall x y, String.length x <= String.length (x ++ y)) by (induction x; cbn; intros; [lia|apply le_n_S; auto]). specialize (X g ".tmp"%string). lia.
Qed.

(* Code outside (None), and inside with n references. *)
Inductive wf : option nat -> code -> Prop :=
| wf_stop : wf None Stop
| wf_lock : forall k, wf (Some 0) k -> wf None (Lock ioLock k)
| wf_unlock : forall k, wf None k -> wf (Some 0) (Unlock ioLock k)
| wf_add : forall n h how ok failed, listed_name L h -> confined (input_path root h) how -> wf (Some (S n)) ok ->
    (wf (Some n) failed \/ exists k, failed = RemoveEntry (input_path root h) k /\ wf (Some n) k) -> wf (Some n) (Add h how ok failed)
| wf_work : forall n ok failed, wf (Some n) ok -> wf (Some n) failed -> wf (Some n) (Work ok failed)
| wf_release : forall n k, wf (Some n) k -> wf (Some (S n)) (Release k).

Definition idle (t : thread) : Prop := wf None (now t) /\ held t = [] /\ busy_with t = Nothing.
Definition in_cache (c : list (string * list nat)) (h : string) : Prop := In h (map fst c).
Definition doing_ok (c : list (string * list nat)) (t : thread) : Prop :=
  let n := length (held t) in
  match busy_with t with
  | Nothing => wf (Some n) (now t) \/ exists h k, now t = RemoveEntry (input_path root h) k /\ wf (Some n) k /\ ~ in_cache c h /\ listed_name L h
  | Creating h p => (exists how ok failed, now t = Add h how ok failed) /\ wf (Some n) (now t) /\ confined (input_path root h) p /\ ~ in_cache c h
  | Evicting => wf (Some n) (now t)
  | Deleting h p => wf (Some n) (now t) /\ ~ in_cache c h /\ confined (input_path root h) p /\ listed_name L h
  end.
Definition inside_ok (c : list (string * list nat)) (t : thread) : Prop :=
  (forall h id, (exists l, In (h, l) c /\ In id l) <-> In (h, id) (held t)) /\ NoDup (map snd (held t)) /\ doing_ok c t.
Record inv (s : state) : Prop := {
  v_nodup : NoDup (map fst (cache s));
  v_names : forall h, in_cache (cache s) h -> listed_name L h;
  v_idle : forall j t, nth_error (threads s) j = Some t -> locked_by s ioLock <> Some j -> idle t;
  v_lock : match locked_by s ioLock with
           | None => forall h l, In (h, l) (cache s) -> l = []
           | Some i => exists t, nth_error (threads s) i = Some t /\ inside_ok (cache s) t
           end
}.

Lemma put_same {A} : forall i (a b : A) l, nth_error l i = Some b -> nth_error (put i a l) i = Some a.
Proof. induction i as [|i IH]; intros a b [|x l]; cbn; intros; try discriminate; eauto. Qed.
Lemma put_other {A} : forall i j (a : A) l, i <> j -> nth_error (put i a l) j = nth_error l j.
Proof. induction i as [|i IH]; intros [|j] a [|x l] N; cbn; auto; try lia. Qed.
Lemma put_length {A} : forall i (a : A) l, length (put i a l) = length l.
Proof. induction i as [|i IH]; intros a [|x l]; cbn; auto. Qed.

Lemma refs_in s h l : refs s h = Some l -> In (h, l) (cache s).
Proof.
  unfold refs. destruct (find _ _) as [[k v]|] eqn:E; [|discriminate]. intros X. injection X as <-. apply find_some in E. destruct E as [E1 E2]. cbn in E2. apply String.eqb_eq in E2. subst. auto.
Qed.
Lemma refs_none s h : refs s h = None <-> ~ in_cache (cache s) h.
Proof.
  unfold refs, in_cache. split.
  - destruct (find _ _) as [[k v]|] eqn:E; [discriminate|]. intros _ H. apply in_map_iff in H. destruct H as ([k v] & <- & H). apply (find_none _ _ E) in H. cbn in H. rewrite String.eqb_refl in H. discriminate.
  - intros H. destruct (find _ _) as [[k v]|] eqn:E; [|auto]. elim H. apply find_some in E. destruct E as [E1 E2]. cbn in E2. apply String.eqb_eq in E2. subst. apply in_map_iff. exists (h, v). auto.
Qed.
Lemma in_refs s h l : NoDup (map fst (cache s)) -> In (h, l) (cache s) -> refs s h = Some l.
Proof.
  unfold refs. induction (cache s) as [|[k v] c IH]; cbn; [tauto|]. intros ND [X|X].
  - injection X as -> ->. rewrite String.eqb_refl. auto.
  - inversion ND as [|? ? NI ND']; subst. destruct (String.eqb_spec k h) as [->|]; [elim NI; apply in_map_iff; exists (h, l); auto|]. auto.
Qed.
Lemma upd_some {A} (l : list (string * A)) h y : map fst (update l h (Some y)) = map fst l.
Proof. induction l as [|[k v] l IH]; cbn; [auto|]. destruct (k =? h)%string; cbn; congruence. Qed.
Lemma upd_none_in {A} (l : list (string * A)) h x : In x (update l h None) -> In x l.
Proof. induction l as [|[k' v'] l IH]; cbn; [auto|]. destruct (k' =? h)%string; cbn; [auto|]. intros [X|X]; auto. Qed.
Lemma nodup_val {A} (c : list (string * A)) h l l' : NoDup (map fst c) -> In (h, l) c -> In (h, l') c -> l = l'.
Proof.
  induction c as [|[k v] c IH]; cbn; [tauto|]. intros ND X Y. inversion ND as [|? ? NI ND']; subst. 
  destruct X as [X|X], Y as [Y|Y]; try congruence; auto.
  - injection X as -> ->. elim NI. apply in_map_iff. exists (h, l'). auto.
  - injection Y as -> ->. elim NI. apply in_map_iff. exists (h, l). auto.
Qed.
Lemma update_in {A} (c : list (string * A)) h y k v : NoDup (map fst c) -> In h (map fst c) ->
  (In (k, v) (update c h (Some y)) <-> k = h /\ v = y \/ k <> h /\ In (k, v) c).
Proof.
  intros ND. induction c as [|[k' v'] c IH]; cbn; [tauto|]. inversion ND as [|? ? NI ND']; subst. intros HI. destruct (String.eqb_spec k' h) as [->|N]; cbn.
  - split.
    + intros [X|X]; [injection X as <- <-; auto|]. right. split; [|auto]. intros ->. apply NI, in_map_iff. exists (h, v). auto.
    + intros [[-> ->]|[N [X|X]]]; auto. injection X as -> ->. congruence.
  - destruct HI as [|HI]; [congruence|]. rewrite (IH ND' HI). split; [|intuition]. intros [X|[X|X]]; auto.
    + injection X as <- <-. auto.
    + tauto.
Qed.
Lemma update_none {A} (c : list (string * A)) h k v : NoDup (map fst c) -> (In (k, v) (update c h None) <-> k <> h /\ In (k, v) c).
Proof.
  intros ND. induction c as [|[k' v'] c IH]; cbn; [tauto|]. inversion ND as [|? ? NI ND']; subst. destruct (String.eqb_spec k' h) as [->|N]; cbn.
  - split; [|intuition congruence]. intros X. split; [|auto]. intros ->. apply NI, in_map_iff. exists (h, v). auto.
  - rewrite (IH ND'). split; [|intuition]. intros [X|X]; [injection X as <- <-; auto|tauto].
Qed.
Lemma update_none_nodup {A} (c : list (string * A)) h : NoDup (map fst c) -> NoDup (map fst (update c h None)).
Proof.
  induction c as [|[k v] c IH]; cbn; [auto|]. intros ND. inversion ND as [|? ? NI ND']; subst. destruct (k =? h)%string; cbn; [auto|]. constructor; [|auto].
  intros X. apply NI. apply in_map_iff in X. destruct X as ([k' v'] & <- & X). apply upd_none_in in X. apply in_map_iff. exists (k', v'). auto.
Qed.
Lemma update_none_key {A} (c : list (string * A)) h : NoDup (map fst c) -> ~ In h (map fst (update c h None)).
Proof. intros ND X. apply in_map_iff in X. destruct X as ([k v] & E & X). cbn in E. subst. apply update_none in X; [|auto]. tauto. Qed.

(* ---- every step ---- *)
Lemma holder s i e s' : inv s -> step delete s i e s' -> (exists c, e = Starts c) \/ (e = Locks ioLock /\ locked_by s ioLock = None) \/ locked_by s ioLock = Some i.
Proof.
  intros I S. assert (D : locked_by s ioLock = Some i \/ locked_by s ioLock <> Some i).
  { destruct (locked_by s ioLock) as [j|]; [|right; discriminate]. destruct (Nat.eq_dec j i) as [->|]; [auto|right; congruence]. }
  destruct D as [D|D]; [auto|].
  inversion S; subst; try (match goal with H : nth_error (threads s) _ = Some _ |- _ => destruct (v_idle s I _ _ H D) as (W & HH & B) end); cbn in *; subst; try discriminate; try (inversion W; fail); eauto.
  inversion W; subst. auto.
Qed.
Lemma inside_here s i t : inv s -> locked_by s ioLock = Some i -> nth_error (threads s) i = Some t -> inside_ok (cache s) t.
Proof. intros I E N. assert (X := v_lock s I). rewrite E in X. destruct X as (t' & N' & X). congruence. Qed.
(* The holder does something and stays. *)
Lemma stay s i t f c t' : inv s -> locked_by s ioLock = Some i -> nth_error (threads s) i = Some t -> NoDup (map fst c) -> (forall h, in_cache c h -> listed_name L h) ->
  inside_ok c t' -> inv (thread_does s i t' f c (locked_by s)).
Proof.
  intros I E N ND NM X. constructor; cbn; auto.
  - intros j u NJ D. assert (i <> j) by congruence. rewrite put_other in NJ; auto. eapply v_idle; eauto.
  - rewrite E. exists t'. split; [eapply put_same; eauto|auto].
Qed.
Lemma step_inv s i e s' : inv s -> (forall c, e = Starts c -> wf None c) -> step delete s i e s' -> inv s'.
Proof.
  intros I HS S. assert (Q := holder _ _ _ _ I S).
  assert (ST : forall t, nth_error (threads s) i = Some t -> locked_by s ioLock = Some i -> inside_ok (cache s) t) by (intros; eapply inside_here; eauto).
  assert (ND := v_nodup s I). assert (NM := v_names s I).
  inversion S; subst; try (destruct Q as [(c0 & Q)|[[Q _]|Q]]; [discriminate|discriminate|]; match goal with H : nth_error (threads s) _ = Some _ |- _ => assert (X := ST _ H Q); destruct X as (X1 & X2 & X3); cbn in X1, X2, X3 end).
  - (* start *) constructor; cbn; auto.
    + intros j t N D. destruct (Nat.lt_ge_cases j (length (threads s))).
      * rewrite nth_error_app1 in N; auto. eapply v_idle; eauto.
      * rewrite nth_error_app2 in N; auto. destruct (j - length (threads s)) as [|x]; [|destruct x; discriminate]. cbn in N. injection N as <-. split; cbn; auto.
    + assert (X := v_lock s I). destruct (locked_by s ioLock) as [j|]; [|auto]. destruct X as (t & N & X). exists t. split; [|auto]. rewrite nth_error_app1; [auto|]. apply nth_error_Some. congruence.
  - (* lock *) destruct Q as [(c0 & Q)|[[Q NL]|Q]]; [discriminate| |].
    + injection Q as ->. assert (D : locked_by s ioLock <> Some i) by congruence. destruct (v_idle s I _ _ H D) as (W & HH & _). cbn in W, HH. subst h. inversion W; subst.
      assert (V := v_lock s I). rewrite NL in V. constructor; cbn; auto.
      * intros j u N D'. rewrite put_other in N; [|intros ->; apply D'; reflexivity]. eapply v_idle; eauto. congruence.
      * eexists. split; [eapply put_same; eauto|]. split; [|split; [constructor|left; auto]]. cbn. intros h id. split; [|tauto]. intros (l & A & B). rewrite (V _ _ A) in B. auto.
    + destruct (ST _ H Q) as (_ & _ & X). cbn in X. destruct X as [X|(a & k' & X & _)]; [inversion X|discriminate].
  - (* unlock *) destruct X3 as [X3|(a & k' & X3 & _)]; [|discriminate]. inversion X3; subst. destruct h; [|discriminate]. constructor; cbn; auto.
    + intros j u N _. destruct (Nat.eq_dec i j) as [->|NE].
      * erewrite put_same in N; eauto. injection N as <-. split; cbn; auto.
      * rewrite put_other in N; auto. eapply v_idle; eauto. congruence.
    + intros h l HI. destruct l as [|x l]; [auto|]. exfalso. apply (X1 h x). exists (x :: l). cbn. auto.
  - (* hit *) destruct X3 as [X3|(a & k' & X3 & _)]; [|discriminate]. inversion X3; subst. apply refs_in in H0. assert (HIN : In hash (map fst (cache s))) by (apply in_map_iff; eexists; split; [|exact H0]; auto).
    eapply stay; eauto; [rewrite upd_some; auto|unfold in_cache; rewrite upd_some; auto|]. split; cbn; [|split; [|left; auto]].
    + intros g z. split.
      * intros (l' & A & B). apply update_in in A; auto. destruct A as [[-> ->]|[NE A]]; [|right; apply X1; eauto]. destruct B as [->|B]; [auto|]. right. apply X1. eauto.
      * intros [A|A]; [injection A as <- <-; exists (id :: l); rewrite update_in; auto; split; [auto|cbn; auto]|]. apply X1 in A. destruct A as (l' & A & B). destruct (string_dec g hash) as [->|NE].
        -- assert (l' = l) by (eapply nodup_val; eauto). subst. exists (id :: l). rewrite update_in; auto. split; [auto|cbn; auto].
        -- exists l'. rewrite update_in; auto.
    + constructor; [|auto]. intros A. apply in_map_iff in A. destruct A as ([g z] & E & A). cbn in E. subst z. apply X1 in A. destruct A as (l' & A & B). exact (H1 _ _ A B).
  - (* miss *) destruct X3 as [X3|(a & k' & X3 & _)]; [|discriminate]. eapply stay; eauto. split; [auto|split; [auto|]]. cbn. inversion X3; subst. split; [eauto|]. split; [auto|]. split; [auto|]. apply refs_none. auto.
  - (* create *) eapply stay; eauto. split; [auto|split; [auto|]]. cbn. destruct X3 as ((how & ok & failed & ->) & W & C & NC). split; [eauto|]. split; [auto|]. split; [|auto].
    inversion W; subst. destruct (input_path_split root hash) as (a & n & E & _); [apply listed_len; auto|]. rewrite E in *. eapply (step_frame _ _ _ _ _ _ [] C H0).
  - (* add *) destruct X3 as (_ & W & C & NC). inversion W; subst. eapply stay; eauto; [cbn; constructor; auto|intros g [<-|A]; auto|]. split; cbn; [|split; [|left; auto]].
    + intros g x. split.
      * intros (l' & [A|A] & B); [injection A as <- <-; destruct B as [->|[]]; auto|]. right. apply X1. eauto.
      * intros [A|A]; [injection A as <- <-; exists [id]; cbn; auto|]. apply X1 in A. destruct A as (l' & A & B). exists l'. auto.
    + constructor; [|auto]. intros A. apply in_map_iff in A. destruct A as ([g y] & E & A). cbn in E. subst y. apply X1 in A. destruct A as (l' & A & B). exact (H1 _ _ A B).
  - (* fail *) destruct X3 as (_ & W & C & NC). inversion W; subst. eapply stay; eauto. split; [auto|split; [auto|]]. cbn. match goal with Z : _ \/ _ |- _ => destruct Z as [Z|(k & -> & Z)] end; [auto|]. right. exists hash, k. auto.
  - (* work *) destruct X3 as [X3|(a & k' & X3 & _)]; [|discriminate]. inversion X3; subst. eapply stay; eauto. split; [auto|split; [auto|]]. cbn. destruct well; auto.
  - (* release *) destruct X3 as [X3|(a & k' & X3 & _)]; [|discriminate]. inversion X3; subst. apply refs_in in H0. assert (HIN : In hash (map fst (cache s))) by (apply in_map_iff; eexists; split; [|exact H0]; auto).
    inversion X2 as [|? ? NI ND']; subst. eapply stay; eauto; [rewrite upd_some; auto|unfold in_cache; rewrite upd_some; auto|]. split; cbn; [|split; [auto|auto]].
    intros g z. split.
    + intros (l' & A & B). apply update_in in A; auto. destruct A as [[-> ->]|[NE A]].
      * apply in_remove in B. destruct B as [B NE]. destruct (proj1 (X1 hash z)) as [Y|Y]; [eauto| |auto]. congruence.
      * destruct (proj1 (X1 g z)) as [Y|Y]; [eauto| |auto]. congruence.
    + intros A. destruct (proj2 (X1 g z)) as (l' & B & C); [auto|]. destruct (string_dec g hash) as [->|NE].
      * assert (l' = l) by (eapply nodup_val; eauto). subst. exists (remove Nat.eq_dec id l). rewrite update_in; auto. split; [auto|]. apply in_in_remove; auto. intros ->. apply NI, in_map_iff. exists (hash, id). auto.
      * exists l'. rewrite update_in; auto.
  - (* evict *) apply refs_in in H0. eapply stay; eauto; [apply update_none_nodup; auto| |].
    + intros g A. apply NM. unfold in_cache in *. apply in_map_iff in A. destruct A as (x & <- & A). apply upd_none_in in A. apply in_map_iff. eauto.
    + assert (LN : listed_name L hash) by (apply NM, in_map_iff; exists (hash, []); auto). split; cbn; [|split; [auto|]].
      * intros g z. rewrite <- X1. split.
        -- intros (l' & A & B). apply update_none in A; [|auto]. exists l'. tauto.
        -- intros (l' & A & B). exists l'. split; [|auto]. apply update_none; auto. split; [|auto]. intros ->. assert (l' = []) by (eapply nodup_val; eauto). subst. auto.
      * split; [auto|]. split; [apply update_none_key; auto|]. split; [apply HD, listed_len; auto|auto].
  - (* delete *) eapply stay; eauto. split; [auto|split; [auto|]]. cbn. destruct X3 as (W & NC & C & LN). split; [auto|]. split; [auto|]. split; [|auto].
    destruct (input_path_split root hash) as (a & n & E & _); [apply listed_len; auto|]. rewrite E in *. eapply (step_frame _ _ _ _ _ _ [] C H0).
  - (* deleted *) eapply stay; eauto. split; [auto|split; [auto|]]. cbn. tauto.
  - (* evicted *) eapply stay; eauto. split; [auto|split; [auto|]]. cbn. tauto.
  - (* remove *) eapply stay; eauto. split; [auto|split; [auto|]]. cbn. left. destruct X3 as [X3|(a & k' & X3 & X4 & _)]; [inversion X3|]. injection X3 as -> ->. auto.
Qed.

(* ---- what it does not touch ---- *)
Lemma slen x y : String.length (x ++ y) = String.length x + String.length y.
Proof. induction x; cbn; auto. Qed.
Lemma files_split h q : 2 <= String.length h -> files_of root h q -> exists a n e r, h = (a ++ n)%string /\ String.length a = 2 /\ q = root ++ a :: (n ++ e)%string :: r /\ (e = "" \/ e = ".sha1")%string.
Proof.
  intros H F. destruct (input_path_split root h H) as (a & n & E & -> & La). unfold files_of in F. rewrite E, with_ext_snoc in F. destruct F as [(r & ->)|(r & ->)].
  - exists a, n, ""%string, r. rewrite append_nil_r, <- !app_assoc. auto.
  - exists a, n, ".sha1"%string, r. rewrite <- !app_assoc. auto.
Qed.
Lemma files_area h q : files_of root h q -> area (input_path root h) q.
Proof. unfold files_of, area. tauto. Qed.
Lemma apart h h' q : hash_of_length L h -> listed_name L h' -> h <> h' -> files_of root h q -> ~ area (input_path root h') q /\ ~ below q (input_path root h').
Proof.
  intros E1 E2 NE F. assert (A : ~ area (input_path root h') q).
  { intros A. destruct E2 as [E2|(g & E2 & ->)].
    - unfold hash_of_length in *. apply NE. eapply area_disjoint; [| |apply files_area, F|exact A]; lia.
    - unfold hash_of_length in *. destruct (files_split h q) as (a & n & e & r & -> & La & -> & He); [lia|auto|]. rewrite slen in E1.
      destruct (input_path_split root (g ++ ".tmp")) as (a' & n' & E & EG & La'); [rewrite slen; lia|]. rewrite E in A. assert (LE := f_equal String.length EG). rewrite !slen in LE. change (String.length ".tmp") with 4 in LE.
      assert (X : exists e' r', root ++ a :: (n ++ e)%string :: r = root ++ a' :: (n' ++ e')%string :: r' /\ (e' = "" \/ e' = ".tmp" \/ e' = ".sha1")%string).
      { unfold area in A. rewrite !with_ext_snoc in A. destruct A as [(z & A)|[(z & A)|(z & A)]]; rewrite A; [exists ""%string|exists ".tmp"%string|exists ".sha1"%string]; exists z; rewrite ?append_nil_r, <- !app_assoc; auto. }
      destruct X as (e' & r' & X & He'). apply app_inv_head in X. injection X as -> X _. apply (f_equal String.length) in X. rewrite !slen in X.
      destruct He as [-> | ->], He' as [-> |[-> | ->]]; cbn [String.length] in X; lia. }
  split; [auto|]. eapply area_not_above; [| |apply files_area; eassumption|auto].
  - unfold hash_of_length in *. lia.
  - eapply listed_len; eauto.
Qed.
Lemma confined_frame h p f p' f' q : 2 <= String.length h -> confined (input_path root h) p -> op_step p f p' f' -> ~ area (input_path root h) q -> ~ below q (input_path root h) -> f' q = f q.
Proof. intros E C O A B. destruct (input_path_split root h) as (a & n & EE & _); [auto|]. rewrite EE in *. eapply step_frame; eauto. Qed.
Lemma update_refs s c h h' y : cache s = update c h (Some y) -> h' <> h -> refs s h' = match find (fun x => fst x =? h')%string c with Some (_, l) => Some l | None => None end.
Proof.
  unfold refs. intros -> N. induction c as [|[k v] c IH]; [reflexivity|]. cbn. destruct (String.eqb_spec k h) as [->|].
  - cbn. destruct (String.eqb_spec h h'); [congruence|]. auto.
  - cbn. destruct (String.eqb_spec k h'); [reflexivity|]. apply IH.
Qed.
Lemma step_intact s i e s' h : inv s -> step delete s i e s' -> hash_of_length L h -> in_cache (cache s) h -> e <> Evicts h ->
  (forall q, files_of root h q -> disk s' q = disk s q) /\ in_cache (cache s') h.
Proof.
  intros I S EL HC NE. assert (Q := holder _ _ _ _ I S). assert (ND := v_nodup s I).
  assert (ST : forall t, nth_error (threads s) i = Some t -> locked_by s ioLock = Some i -> inside_ok (cache s) t) by (intros; eapply inside_here; eauto).
  inversion S; subst; cbn [disk cache thread_does]; unfold in_cache; rewrite ?upd_some; auto;
    destruct Q as [(c0 & Q)|[[Q _]|Q]]; try discriminate; match goal with N : nth_error (threads s) _ = Some _ |- _ => assert (X := ST _ N Q); destruct X as (_ & _ & X3); cbn in X3 end.
  - destruct X3 as ((how & ok & failed & ->) & W & C & NC). inversion W; subst. split; [|auto]. intros q F. destruct (apart h hash q) as [A1 A2]; auto; [congruence|]. eapply (confined_frame hash p (disk s) p' f); auto; eapply listed_len; eauto.
  - cbn. auto.
  - split; [auto|]. unfold in_cache in HC. apply in_map_iff in HC. destruct HC as ([k v] & <- & HC). apply in_map_iff. exists (k, v). split; [auto|]. apply update_none; auto. split; [|auto]. cbn in NE. congruence.
  - destruct X3 as (W & NC & C & LN). split; [|auto]. intros q F. destruct (apart h hash q) as [A1 A2]; auto; [congruence|]. eapply (confined_frame hash p (disk s) p' f); auto; eapply listed_len; eauto.
  - destruct X3 as [X3|(g & k' & X3 & _ & NC & LN)]; [inversion X3|]. injection X3 as -> ->. split; [|auto]. intros q F. destruct (apart h g q) as [A1 A2]; auto; [congruence|].
    destruct (H0 q) as [|[B _]]; [auto|]. destruct (strip _ q) as [r|] eqn:E; [|congruence]. apply strip_spec in E. elim A1. left. exists r. auto.
Qed.

(* ---- executions ---- *)
Variable allowed : code -> Prop.
Hypothesis HA : forall c, allowed c -> wf None c.
Lemma start_inv f : inv (start f).
Proof. constructor; cbn; auto; try tauto; try constructor; destruct j; discriminate. Qed.
Lemma exec_inv f tr s : execution allowed delete f tr s -> inv s.
Proof. induction 1 as [|tr s i e s' E IH S A]; [apply start_inv|]. eapply step_inv; eauto. Qed.
Lemma snoc_split {A} (tr : list A) x tr1 y tr2 : tr ++ [x] = tr1 ++ y :: tr2 -> (tr2 = [] /\ tr1 = tr /\ x = y) \/ exists tr3, tr2 = tr3 ++ [x] /\ tr = tr1 ++ y :: tr3.
Proof.
  destruct (exists_last (l := y :: tr2)) as (l & z & E); [discriminate|]. intros H. rewrite E in H. rewrite app_assoc in H. apply app_inj_tail in H. destruct H as [-> ->].
  destruct l as [|w l]; cbn in E; injection E as <- ->; [left; rewrite app_nil_r; auto|right; eauto].
Qed.
Lemma exec_inside f tr s i : execution allowed delete f tr s -> (inside ioLock i tr <-> locked_by s ioLock = Some i).
Proof.
  intros E. revert i. induction E as [|tr s j e s' E IH S A]; intros i.
  - split; [|discriminate]. intros (tr1 & tr2 & X & _). destruct tr1; discriminate.
  - assert (I := exec_inv _ _ _ E). assert (H := holder _ _ _ _ I S).
    assert (K : forall tr3, inside ioLock i tr -> (j, e) <> (i, Unlocks ioLock) -> inside ioLock i (tr ++ [(j, e)]) \/ tr3 = @nil nat).
    { intros tr3 (tr1 & tr2 & -> & NI) NE. left. exists tr1, (tr2 ++ [(j, e)]). split; [rewrite <- app_assoc; auto|]. rewrite in_app_iff. cbn. intros [X|[X|[]]]; congruence. }
    assert (K1 : inside ioLock i tr -> (j, e) <> (i, Unlocks ioLock) -> inside ioLock i (tr ++ [(j, e)])) by (intros X Y; destruct (K [0] X Y); [auto|discriminate]). clear K.
    assert (K2 : inside ioLock i (tr ++ [(j, e)]) -> (j, e) <> (i, Locks ioLock) -> inside ioLock i tr /\ (j, e) <> (i, Unlocks ioLock)).
    { intros (tr1 & tr2 & X & NI) NE. apply snoc_split in X. destruct X as [(_ & _ & X)|(tr3 & -> & ->)]; [congruence|]. rewrite in_app_iff in NI. split; [exists tr1, tr3; split; auto|]. intros EE. apply NI. right. left. auto. }
    destruct (locked_by s ioLock) as [i0|] eqn:EL.
    + (* locked *) assert (D : e = Unlocks ioLock /\ j = i0 /\ locked_by s' ioLock = None \/ locked_by s' ioLock = Some i0 /\ e <> Unlocks ioLock /\ e <> Locks ioLock).
      { inversion S; subst; cbn; auto; try (right; split; [auto|split; discriminate]); destruct H as [(c & H)|[[_ H]|H]]; try discriminate; injection H as ->.
        - assert (X := inside_here _ _ _ I EL H0). destruct X as (_ & _ & [X|(? & ? & X & _)]); [inversion X|discriminate].
        - assert (X := inside_here _ _ _ I EL H0). destruct X as (_ & _ & [X|(? & ? & X & _)]); [inversion X; subst|discriminate]. left. auto. }
      destruct D as [(-> & -> & D)|(D & D1 & D2)].
      * rewrite D. split; [|discriminate]. intros X. destruct (K2 X) as [Y1 Y2]; [congruence|]. apply IH in Y1. congruence.
      * rewrite D, <- (IH i). split; [|intros X; apply K1; [auto|congruence]]. intros X. apply K2; [auto|congruence].
    + (* not locked *) assert (D : e = Locks ioLock /\ locked_by s' ioLock = Some j \/ (exists c, e = Starts c) /\ locked_by s' ioLock = None).
      { destruct H as [(c & ->)|[[-> _]|H]]; [right|left|discriminate]; inversion S; subst; cbn; eauto. }
      destruct D as [(-> & D)|((c & ->) & D)]; rewrite D.
      * split.
        -- intros (tr1 & tr2 & X & NI). apply snoc_split in X. destruct X as [(_ & _ & X)|(tr3 & -> & ->)]; [congruence|]. exfalso. assert (Y : inside ioLock i (tr1 ++ (i, Locks ioLock) :: tr3)) by (exists tr1, tr3; rewrite in_app_iff in NI; auto). apply IH in Y. discriminate.
        -- intros X. injection X as ->. exists tr, []. auto.
      * split; [|discriminate]. intros X. destruct (K2 X) as [Y _]; [discriminate|]. apply IH in Y. discriminate.
Qed.
Lemma exec_holds f tr s i h id : execution allowed delete f tr s -> holds i h id tr -> exists t, nth_error (threads s) i = Some t /\ In (h, id) (held t).
Proof.
  intros E. induction E as [|tr s j e s' E IH S A].
  - intros (tr1 & tr2 & X & _). destruct tr1; discriminate.
  - intros (tr1 & tr2 & X & NI). apply snoc_split in X. destruct X as [(-> & -> & X)|(tr3 & -> & ->)].
    + injection X as -> ->. inversion S; subst; cbn; eexists; (split; [eapply put_same; eauto|cbn; auto]).
    + rewrite in_app_iff in NI. destruct IH as (t & N & HI); [exists tr1, tr3; split; auto|]. assert (NE : (j, e) <> (i, Releases h id)) by (intros EE; apply NI; right; left; auto).
      destruct (Nat.eq_dec j i) as [->|D].
      * inversion S; subst; cbn; try (match goal with H : nth_error (threads s) i = Some _ |- _ => rewrite H in N; injection N as <- end); try (eexists; split; [eapply put_same; eauto|cbn in *; auto]; fail).
        -- assert (X : nth_error (threads s) (length (threads s)) <> None) by congruence. apply nth_error_Some in X. lia.
        -- eexists; split; [eapply put_same; eauto|]. cbn in *. destruct HI as [HI|HI]; [congruence|auto].
      * exists t. split; [|auto]. inversion S; subst; cbn; rewrite ?put_other by auto; auto. rewrite nth_error_app1; [auto|]. apply nth_error_Some. congruence.
Qed.
Lemma exec_held f tr s i h id : execution allowed delete f tr s -> holds i h id tr -> locked_by s ioLock = Some i /\ exists l, refs s h = Some l /\ In id l.
Proof.
  intros E HO. destruct (exec_holds _ _ _ _ _ _ E HO) as (t & N & HI). assert (I := exec_inv _ _ _ E).
  assert (EL : locked_by s ioLock = Some i).
  { assert (D : locked_by s ioLock = Some i \/ locked_by s ioLock <> Some i). { destruct (locked_by s ioLock) as [j|]; [|right; discriminate]. destruct (Nat.eq_dec j i) as [->|]; [auto|right; congruence]. }
    destruct D as [D|D]; [auto|]. destruct (v_idle s I _ _ N D) as (_ & HH & _). rewrite HH in HI. destruct HI. }
  split; [auto|]. destruct (inside_here _ _ _ I EL N) as (X1 & _). apply X1 in HI. destruct HI as (l & A & B). exists l. split; [|auto]. apply in_refs; auto. apply v_nodup; auto.
Qed.

(* ---- it ends ---- *)
Definition started (e : event) : Prop := exists c, e = Starts c.
Definition next (s' s : state) : Prop := exists i e, step delete s i e s' /\ ~ started e.
Fixpoint size (c : code) : nat :=
  match c with
  | Stop => 0
  | Lock _ k | Unlock _ k | Release k | RemoveEntry _ k => S (size k)
  | Add _ _ a b | Work a b => S (size a + size b)
  end.
Definition rank (d : doing) : nat := match d with Deleting _ _ => 3 | Evicting => 2 | Nothing => 1 | Creating _ _ => 0 end.
Definition total (g : thread -> nat) (s : state) : nat := list_sum (map g (threads s)).
Lemma total_put (g : thread -> nat) i a t l : nth_error l i = Some t -> list_sum (map g (put i a l)) + g t = list_sum (map g l) + g a.
Proof. unfold list_sum. revert l. induction i as [|i IH]; intros [|x l]; cbn; intros H; try discriminate; [injection H as ->; lia|]. apply IH in H. lia. Qed.
Definition prog_of (d : doing) : prog := match d with Creating _ p | Deleting _ p => p | _ => Ret Err end.
Definition smaller (s' s : state) : Prop :=
  total (fun t => size (now t)) s' < total (fun t => size (now t)) s \/
  (total (fun t => size (now t)) s' = total (fun t => size (now t)) s /\
    (length (cache s') < length (cache s) \/ length (cache s') = length (cache s) /\ total (fun t => rank (busy_with t)) s' < total (fun t => rank (busy_with t)) s)).
Definition same_size (s' s : state) : Prop := total (fun t => size (now t)) s' = total (fun t => size (now t)) s /\ length (cache s') = length (cache s) /\ total (fun t => rank (busy_with t)) s' = total (fun t => rank (busy_with t)) s.
Definition goes_on (p' p : prog) : Prop := exists f f', op_step p f p' f'.
Lemma goes_on_acc p : Acc goes_on p.
Proof.
  induction p as [r|o k IH|k IH]; constructor; intros p' (f & f' & H); inversion H; subst; auto.
Qed.
Definition holder_prog (s : state) (p : prog) : Prop := exists i t, locked_by s ioLock = Some i /\ nth_error (threads s) i = Some t /\ prog_of (busy_with t) = p.
Lemma step_smaller s s' : inv s -> next s' s -> smaller s' s \/ (same_size s' s /\ exists p p', holder_prog s p /\ holder_prog s' p' /\ goes_on p' p).
Proof.
  intros I (i & e & S & NS). assert (Q := holder _ _ _ _ I S). unfold smaller, same_size, total.
  inversion S; subst; try (elim NS; eexists; reflexivity); cbn [threads thread_does cache];
    match goal with N : nth_error (threads s) i = Some ?t |- context [put i ?t' _] => assert (T1 := total_put (fun u => size (now u)) i t' t _ N); assert (T2 := total_put (fun u => rank (busy_with u)) i t' t _ N) end; cbn in T1, T2; try (left; left; lia).
  - left. right. split; [lia|]. right. split; [auto|lia].
  - right. destruct Q as [(c0 & Q)|[[Q _]|Q]]; try discriminate. split; [split; [lia|split; [auto|lia]]|]. exists p, p'. split; [exists i; eexists; split; [auto|]; split; [exact H|]; auto|]. split; [exists i; eexists; split; [auto|]; split; [cbn; eapply put_same; eauto|auto]|]. exists (disk s), f. auto.
  - left. left. destruct well; lia.
  - left. right. split; [lia|]. left. apply refs_in in H0. clear - H0. induction (cache s) as [|[k v] c IH]; cbn in *; [tauto|]. destruct (String.eqb_spec k hash) as [->|NE]; [lia|]. destruct H0 as [H0|H0]; [congruence|]. cbn. apply IH in H0. lia.
  - right. destruct Q as [(c0 & Q)|[[Q _]|Q]]; try discriminate. split; [split; [lia|split; [auto|lia]]|]. exists p, p'. split; [exists i; eexists; split; [auto|]; split; [exact H|]; auto|]. split; [exists i; eexists; split; [auto|]; split; [cbn; eapply put_same; eauto|auto]|]. exists (disk s), f. auto.
  - left. right. split; [lia|]. right. split; [auto|lia].
  - left. right. split; [lia|]. right. split; [auto|lia].
Qed.
Lemma next_inv s s' : inv s -> next s' s -> inv s'.
Proof. intros I (i & e & S & NS). eapply step_inv; eauto. intros c ->. elim NS. exists c. auto. Qed.
Lemma ends s : inv s -> Acc next s.
Proof.
  remember (total (fun t => size (now t)) s) as n eqn:En. revert s En. induction n as [n IHn] using lt_wf_ind.
  intros s. remember (length (cache s)) as c eqn:Ec. revert s Ec. induction c as [c IHc] using lt_wf_ind.
  intros s. remember (total (fun t => rank (busy_with t)) s) as r eqn:Er. revert s Er. induction r as [r IHr] using lt_wf_ind.
  assert (SM : forall s s', r = total (fun t => rank (busy_with t)) s -> c = length (cache s) -> n = total (fun t => size (now t)) s -> inv s -> next s' s -> smaller s' s -> Acc next s').
  { intros s s' Er Ec En I N [SM|(E1 & [SM|(E2 & SM)])].
    - eapply (IHn _); [|reflexivity|eapply next_inv; eauto]. lia.
    - eapply (IHc _); [|reflexivity| |eapply next_inv; eauto]; [lia|lia].
    - eapply (IHr _); [|reflexivity| | |eapply next_inv; eauto]; lia. }
  assert (WP : forall p s, holder_prog s p -> r = total (fun t => rank (busy_with t)) s -> c = length (cache s) -> n = total (fun t => size (now t)) s -> inv s -> Acc next s).
  { intros p. induction (goes_on_acc p) as [p _ IH]. intros s HP Er Ec En I. constructor. intros s' N. destruct (step_smaller _ _ I N) as [X|((X1 & X2 & X3) & p1 & p2 & H1 & H2 & GO)]; [eapply SM; eauto|].
    assert (p1 = p). { destruct HP as (i & t & A & B & C), H1 as (i' & t' & A' & B' & C'). congruence. }
    subst p1. eapply (IH p2); eauto; try congruence. eapply next_inv; eauto. }
  intros s Er Ec En I. constructor. intros s' N. destruct (step_smaller _ _ I N) as [X|((X1 & X2 & X3) & p1 & p2 & H1 & H2 & GO)]; [eapply SM; eauto|]. eapply (WP p2); eauto; try congruence. eapply next_inv; eauto.
Qed.

(* ---- and does not get stuck ---- *)
Lemma fresh s : exists id, unused s id.
Proof.
  exists (S (list_sum (map (fun x => list_sum (snd x)) (cache s)))). intros h l HI HX.
  assert (B : forall (l : list nat) x, In x l -> x <= list_sum l) by (clear; unfold list_sum; induction l as [|y l IH]; cbn; [tauto|]; intros x [->|X]; [lia|]; apply IH in X; lia).
  apply B in HX. assert (B2 : list_sum l <= list_sum (map (fun x => list_sum (snd x)) (cache s))) by (apply B, in_map_iff; exists (h, l); auto). lia.
Qed.
Lemma not_stuck s : inv s -> ~ all_ended s -> exists s', next s' s.
Proof.
  intros I NE. assert (V := v_lock s I). assert (VI := v_idle s I). destruct (locked_by s ioLock) as [i|] eqn:EL.
  - destruct V as (t & N & X1 & X2 & X3). unfold next, started. destruct t as [c hd b]. unfold doing_ok in X3. cbn in X1, X2, X3. destruct b as [|h p| |h p].
    + destruct X3 as [W|(h & k & -> & _)].
      * inversion W; subst.
        -- eexists. exists i. eexists. split; [eapply does_unlock; eauto|]. intros (? & ?); discriminate.
        -- destruct (refs s h) as [l|] eqn:ER.
           ++ destruct (fresh s) as (id & F). eexists. exists i. eexists. split; [eapply does_hit; eauto|]. intros (? & ?); discriminate.
           ++ eexists. exists i. eexists. split; [eapply does_miss; eauto|intros (? & ?); discriminate]. intros (j & u & p & NJ & B). destruct (Nat.eq_dec i j) as [->|D]; [rewrite N in NJ; injection NJ as <-; cbn in B; destruct B; discriminate|].
              destruct (VI j u NJ) as (_ & _ & B'); [congruence|]. rewrite B' in B. destruct B; discriminate.
        -- eexists. exists i. eexists. split; [eapply (does_work delete s i _ _ _ true); eauto|intros (? & ?); discriminate].
        -- destruct hd as [|[h id] hd]; [discriminate|]. destruct (proj2 (X1 h id)) as (l & A & B); [cbn; auto|]. eexists. exists i. eexists. split; [eapply does_release; eauto; apply in_refs; eauto; apply v_nodup; auto|intros (? & ?); discriminate].
      * eexists. exists i. eexists. split; [eapply (does_remove delete s i _ _ _ (disk s)); eauto|intros (? & ?); discriminate].
    + destruct X3 as ((how & ok & failed & ->) & W & C & NC). apply refs_none in NC. destruct p as [[|z]|o k|k].
      * eexists. exists i. eexists. split; [eapply does_fail; eauto|intros (? & ?); discriminate].
      * destruct (fresh s) as (id & F). eexists. exists i. eexists. split; [eapply does_add; eauto|intros (? & ?); discriminate].
      * eexists. exists i. eexists. split; [eapply does_create; eauto; apply op_fails|intros (? & ?); discriminate].
      * eexists. exists i. eexists. split; [eapply does_create; eauto; apply op_look|intros (? & ?); discriminate].
    + eexists. exists i. eexists. split; [eapply does_evicted; eauto|intros (? & ?); discriminate].
    + destruct p as [r|o k|k].
      * eexists. exists i. eexists. split; [eapply does_deleted; eauto|intros (? & ?); discriminate].
      * eexists. exists i. eexists. split; [eapply does_delete; eauto; apply op_fails|intros (? & ?); discriminate].
      * eexists. exists i. eexists. split; [eapply does_delete; eauto; apply op_look|intros (? & ?); discriminate].
  - assert (X : exists j t, nth_error (threads s) j = Some t /\ now t <> Stop).
    { assert (AL : forall l, (forall j t, nth_error l j = Some t -> idle t) -> (forall j t, nth_error l j = Some t -> now t = Stop) \/ exists j t, nth_error l j = Some t /\ now t <> Stop).
      { clear. induction l as [|t l IH]; intros H; [left; intros [|j]; discriminate|]. destruct (IH (fun j => H (S j))) as [X|(j & u & X & Y)]; [|right; exists (S j), u; auto].
        assert (D : now t = Stop \/ now t <> Stop) by (destruct (now t); auto; right; discriminate). destruct D as [D|D]; [left|right; exists 0, t; auto]. intros [|j] u; cbn; [intros E; injection E as <-; auto|apply X]. }
      destruct (AL (threads s)) as [Y|Y]; [intros j t N; apply (VI j t N); discriminate| |auto]. elim NE. intros j t N. split; [eauto|]. destruct (VI j t N) as (_ & B & C); [discriminate|auto]. }
    destruct X as (j & [c hd b] & N & NS). destruct (VI _ _ N) as (W & B & C); [discriminate|]. cbn in *. subst. inversion W; subst; [congruence|]. eexists. exists j. eexists. split; [eapply does_lock; eauto|intros (? & ?); discriminate].
Qed.
End Io.

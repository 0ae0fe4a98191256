(* Proofs about the cache of ephemeral runs. *)
From Coq Require Import List NArith ZArith Bool String Lia.
From Verif Require Import EphModel EphSpec.
Import ListNotations.
Local Open Scope Z_scope.

Lemma total_app a b : total (a ++ b) = total a + total b.
Proof. induction a as [|e a IH]; cbn; [auto|]. lia. Qed.
Lemma total_rev a : total (rev a) = total a.
Proof. induction a as [|e a IH]; cbn [rev]; [auto|]. rewrite total_app, IH. cbn. lia. Qed.
Lemma total_nonneg l : (forall e, In e l -> 0 <= snd e) -> 0 <= total l.
Proof. induction l as [|e l IH]; cbn; intros H; [lia|]. pose proof (H e (or_introl eq_refl)). assert (0 <= total l) by auto. lia. Qed.

Lemma in_remove_path p q l : In q (remove_path p l) <-> In q l /\ q <> p.
Proof. unfold remove_path. rewrite filter_In, negb_true_iff, String.eqb_neq. intuition. Qed.
Lemma in_remove_dir p e l : In e (remove_dir p l) <-> In e l /\ fst e <> p.
Proof. unfold remove_dir. rewrite filter_In, negb_true_iff, String.eqb_neq. intuition. Qed.
Lemma in_set_size p z d q : (exists x, In (q, x) (set_size p z d)) <-> (exists x, In (q, x) d).
Proof.
  unfold set_size. split; intros (x & H).
  - apply in_map_iff in H. destruct H as ([q' x'] & E & H). cbn in E. destruct (String.eqb p q'); injection E as <- _; eauto.
  - destruct (String.eqb_spec p q) as [->|N].
    + exists z. apply in_map_iff. exists (q, x). cbn. rewrite String.eqb_refl. auto.
    + exists x. apply in_map_iff. exists (q, x). cbn. destruct (String.eqb_spec p q); [congruence|auto].
Qed.
Lemma set_size_nonneg p z d : 0 <= z -> (forall q x, In (q, x) d -> 0 <= x) -> forall q x, In (q, x) (set_size p z d) -> 0 <= x.
Proof.
  intros Hz H q x HI. apply in_map_iff in HI. destruct HI as ([q' x'] & E & HI). cbn in E.
  destruct (String.eqb p q'); injection E as <- <-; [auto|eauto].
Qed.
Lemma dir_size_in p d z : dir_size p d = Some z -> In (p, z) d.
Proof.
  induction d as [|[q s] d IH]; cbn; [discriminate|]. destruct (String.eqb_spec p q) as [->|N]; [intros H; injection H as ->; auto|auto].
Qed.
Lemma get_spec m p : get m p = Some p <-> In p (paths m).
Proof.
  unfold get. split.
  - destruct (existsb _ _) eqn:E; [intros _|discriminate]. apply existsb_exists in E. destruct E as (x & H & E). apply String.eqb_eq in E. subst; auto.
  - intros H. destruct (existsb _ _) eqn:E; [auto|]. exfalso. assert (X : existsb (String.eqb p) (paths m) = true) by (apply existsb_exists; exists p; split; [auto|apply String.eqb_refl]). congruence.
Qed.
Lemma get_some m p q : get m p = Some q -> q = p.
Proof. unfold get. destruct (existsb _ _); [intros H; injection H; auto|discriminate]. Qed.

(* What the loop of add does. *)
Lemma evict_loop_spec limit need : forall es ps t d rms es' ps' t' d' ok,
  evict_loop limit need es ps t d rms = (es', ps', t', d', ok) ->
  exists gone, es = gone ++ es' /\ t' = t - total gone /\
  (forall p, In p ps' <-> In p ps /\ ~ In p (keys gone)) /\
  (forall a b, es = a ++ b -> (List.length a < List.length gone)%nat -> t - total a + need > limit) /\
  (ok = true -> es' = [] \/ t' + need <= limit) /\
  (ok = false -> exists z, In (RmErr z) rms) /\
  (forall p, (exists z, In (p, z) d') <-> (exists z, In (p, z) d) /\ ~ In p (keys gone)) /\
  ((forall p z, In (p, z) d -> 0 <= z) -> (forall z, In (RmErr z) rms -> 0 <= z) -> forall p z, In (p, z) d' -> 0 <= z).
Proof.
  induction es as [|[p s] es IH]; intros ps t d rms es' ps' t' d' ok H; cbn [evict_loop] in H.
  { injection H as <- <- <- <- <-. exists []. cbn. split; [auto|]. split; [lia|]. split; [tauto|]. split; [intros; lia|].
    split; [auto|]. split; [discriminate|]. split; [tauto|]. auto. }
  destruct (Z.ltb_spec limit (t + need)) as [L|L].
  2:{ injection H as <- <- <- <- <-. exists []. cbn. split; [auto|]. split; [lia|]. split; [tauto|]. split; [intros; lia|].
      split; [intros; right; lia|]. split; [discriminate|]. split; [tauto|]. auto. }
  assert (GO : forall rms0, evict_loop limit need es (remove_path p ps) (t - s) (remove_dir p d) rms0 = (es', ps', t', d', ok) ->
    (forall z, In (RmErr z) rms0 -> In (RmErr z) rms) ->
    exists gone, (p, s) :: es = gone ++ es' /\ t' = t - total gone /\
  (forall p, In p ps' <-> In p ps /\ ~ In p (keys gone)) /\
  (forall a b, (p, s) :: es = a ++ b -> (List.length a < List.length gone)%nat -> t - total a + need > limit) /\
  (ok = true -> es' = [] \/ t' + need <= limit) /\
  (ok = false -> exists z, In (RmErr z) rms) /\
  (forall p, (exists z, In (p, z) d') <-> (exists z, In (p, z) d) /\ ~ In p (keys gone)) /\
  ((forall p z, In (p, z) d -> 0 <= z) -> (forall z, In (RmErr z) rms -> 0 <= z) -> forall p z, In (p, z) d' -> 0 <= z)).
  { intros rms0 H0 HR. apply IH in H0. destruct H0 as (gone & E & A1 & A2 & A3 & A4 & A5 & A6 & A7).
    exists ((p, s) :: gone). subst es. split; [auto|]. split; [cbn; lia|].
    split; [intros q; rewrite A2, in_remove_path; cbn; intuition|].
    split.
    { intros [|x a] b Eab Hl; [cbn; lia|]. cbn in Eab. injection Eab as <- Eab. cbn in Hl.
      specialize (A3 a b Eab ltac:(lia)). cbn. lia. }
    split; [auto|]. split; [intros X; destruct (A5 X) as (z & Hz); eauto|].
    split.
    { intros q. rewrite A6. cbn. split.
      - intros ((z & Hz) & N). apply in_remove_dir in Hz. cbn in Hz. split; [exists z; tauto|]. intros [X|X]; [apply (proj2 Hz); auto|auto].
      - intros ((z & Hz) & N). split; [exists z; apply in_remove_dir; cbn; intuition|tauto]. }
    intros P1 P2. apply A7; [|auto]. intros q z Hz. apply in_remove_dir in Hz. destruct Hz. eauto. }
  destruct rms as [|[|rest] rms].
  - apply (GO [] H). auto.
  - apply (GO rms H). cbn. auto.
  - injection H as <- <- <- <- <-. exists []. cbn. split; [auto|]. split; [lia|]. split; [tauto|]. split; [intros; lia|].
    split; [discriminate|]. split; [eauto|]. split; [intros q; rewrite in_set_size; tauto|].
    intros P1 P2. apply set_size_nonneg; auto.
Qed.

Definition kept_of (m : mgr) : list entry := rev (evictList m).
(* What one add does: [gone] are the entries evicted, oldest first. *)
Lemma add_spec m d e rms m' d' ok : add m d e rms = (m', d', ok) ->
  sizeLimit m' = sizeLimit m /\
  exists gone k, evictList m = gone ++ k /\
  (forall a b, evictList m = a ++ b -> (List.length a < List.length gone)%nat -> totalSize m - total a + snd e > sizeLimit m) /\
  (forall p, (exists z, In (p, z) d') <-> (exists z, In (p, z) d) /\ ~ In p (keys gone)) /\
  ((forall p z, In (p, z) d -> 0 <= z) -> (forall z, In (RmErr z) rms -> 0 <= z) -> forall p z, In (p, z) d' -> 0 <= z) /\
  (if ok then evictList m' = k ++ [e] /\ totalSize m' = totalSize m - total gone + snd e /\
              (forall p, In p (paths m') <-> p = fst e \/ In p (paths m) /\ ~ In p (keys gone)) /\
              (k = [] \/ totalSize m' <= sizeLimit m)
   else evictList m' = k /\ totalSize m' = totalSize m - total gone /\
        (forall p, In p (paths m') <-> In p (paths m) /\ ~ In p (keys gone)) /\
        exists z, In (RmErr z) rms).
Proof.
  unfold add. destruct (evict_loop _ _ _ _ _ _ _) as [[[[es ps] t] d0] ok0] eqn:E. apply evict_loop_spec in E.
  destruct E as (gone & E & A1 & A2 & A3 & A4 & A5 & A6 & A7).
  destruct ok0; intros H; injection H as <- <- <-; cbn [sizeLimit evictList paths totalSize]; (split; [auto|]); exists gone, es;
    (split; [auto|]); (split; [exact A3|]); (split; [auto|]); (split; [auto|]).
  - split; [auto|]. split; [lia|]. split.
    + intros p. cbn [In]. rewrite in_remove_path, A2. destruct (string_dec p (fst e)) as [->|N]; [tauto|]. intuition.
    + destruct (A4 eq_refl) as [->|X]; [auto|right; lia].
  - split; [auto|]. split; [lia|]. split; [auto|]. auto.
Qed.

(* ---- C10: accounting ---- *)
Definition inv (s : sys) : Prop :=
  totalSize (s_mgr s) = total (evictList (s_mgr s)) /\
  (forall p, In p (paths (s_mgr s)) -> In p (keys (evictList (s_mgr s)))).
Lemma keys_app a b : keys (a ++ b) = keys a ++ keys b.
Proof. apply map_app. Qed.

Lemma step_inv s ev : inv s -> inv (step s ev).
Proof.
  intros [I1 I2]. destruct ev as [names f sz|p sz|p|i rms|p|]; cbn [step].
  - split; auto.
  - split; auto.
  - destruct (dir_size p (s_disk s)); split; auto.
  - destruct (nth_error _ _) as [e|]; [|split; auto].
    destruct (add _ _ _ _) as [[m d] ok] eqn:E. apply add_spec in E. destruct E as (_ & gone & k & E & _ & _ & _ & X).
    unfold inv. cbn [s_mgr]. rewrite E in *. rewrite total_app, keys_app in *. destruct ok; destruct X as (X1 & X2 & X3 & _); rewrite X1, X2.
    + rewrite total_app, keys_app. cbn. split; [lia|]. intros p Hp. apply X3 in Hp. apply in_or_app. destruct Hp as [->|[Hp N]]; [right; cbn; auto|].
      apply I2, in_app_or in Hp. tauto.
    + split; [lia|]. intros p Hp. apply X3 in Hp. destruct Hp as [Hp N]. apply I2, in_app_or in Hp. tauto.
  - split; auto.
  - split; [reflexivity|]. cbn. auto.
Qed.
Lemma run_inv evs : forall s, inv s -> inv (run s evs).
Proof. induction evs as [|ev evs IH]; intros s H; [auto|]. apply IH, step_inv, H. Qed.
Lemma init_inv limit d : inv (init_sys limit d).
Proof. split; [reflexivity|cbn; auto]. Qed.

Lemma limit_step s ev : sizeLimit (s_mgr (step s ev)) = sizeLimit (s_mgr s).
Proof.
  destruct ev as [names f sz|p sz|p|i rms|p|]; cbn [step]; auto.
  - destruct (dir_size _ _); auto.
  - destruct (nth_error _ _) as [e|]; [|auto]. destruct (add _ _ _ _) as [[m d] ok] eqn:E. apply add_spec in E. apply E.
Qed.
Lemma limit_run evs : forall s, sizeLimit (s_mgr (run s evs)) = sizeLimit (s_mgr s).
Proof. induction evs as [|ev evs IH]; intros s; [auto|]. cbn [run fold_left]. unfold run in IH. rewrite IH. apply limit_step. Qed.

(* ---- each directory once ---- *)
Lemma drop_nth_in {A} (l : list A) : forall i x, In x (drop_nth i l) -> In x l.
Proof. induction l as [|y l IH]; intros [|i] x; cbn; auto. intros [->|H]; [auto|]. right. eauto. Qed.
Lemma in_drop_nth {A} (l : list A) : forall i x y, nth_error l i = Some y -> In x l -> x = y \/ In x (drop_nth i l).
Proof.
  induction l as [|z l IH]; intros [|i] x y; cbn; try discriminate.
  - intros H; injection H as ->. intuition.
  - intros H [->|HI]; [auto|]. destruct (IH i x y H HI); auto.
Qed.
Lemma drop_nth_NoDup (l : list entry) : forall i e, NoDup (keys l) -> nth_error l i = Some e -> NoDup (keys (drop_nth i l)) /\ ~ In (fst e) (keys (drop_nth i l)).
Proof.
  induction l as [|y l IH]; intros [|i] e HN; cbn; try discriminate; inversion HN as [|? ? N1 N2]; subst.
  - intros H; injection H as ->. auto.
  - intros H. destruct (IH i e N2 H) as [A B]. split.
    + constructor; [|auto]. intros X. apply N1. apply in_map_iff in X. destruct X as (z & E & X). apply drop_nth_in in X. rewrite <- E. apply in_map. auto.
    + intros [X|X]; [|auto]. apply N1. rewrite X. apply in_map. eapply nth_error_In. eauto.
Qed.
Lemma NoDup_app_parts {A} (a b : list A) : NoDup (a ++ b) -> NoDup a /\ NoDup b /\ (forall x, In x a -> ~ In x b).
Proof.
  induction a as [|x a IH]; cbn; intros H; [split; [constructor|auto]|]. inversion H as [|? ? N1 N2]; subst.
  destruct (IH N2) as (A1 & A2 & A3). split; [constructor; [intros X; apply N1, in_or_app; auto|auto]|]. split; [auto|].
  intros y [->|Hy] X; [apply N1, in_or_app; auto|]. eapply A3; eauto.
Qed.
Lemma NoDup_app_join {A} (a b : list A) : NoDup a -> NoDup b -> (forall x, In x a -> ~ In x b) -> NoDup (a ++ b).
Proof.
  induction a as [|x a IH]; cbn; intros H1 H2 H3; [auto|]. inversion H1 as [|? ? N1 N2]; subst. constructor.
  - intros X. apply in_app_or in X. destruct X as [X|X]; [auto|]. apply (H3 x); auto.
  - apply IH; auto.
Qed.

Definition inv1 (s : sys) : Prop :=
  NoDup (keys (s_pending s)) /\ NoDup (keys (evictList (s_mgr s))) /\
  (forall p, In p (keys (s_pending s)) -> ~ In p (keys (evictList (s_mgr s)))) /\
  (forall p, In p (keys (evictList (s_mgr s))) -> In p (paths (s_mgr s))).
Lemma kept_keys s p : In p (keys (kept s)) <-> In p (keys (evictList (s_mgr s))).
Proof. unfold kept, keys. rewrite map_rev. symmetry. apply in_rev. Qed.

Lemma step_inv1 s ev : once s ev -> inv1 s -> inv1 (step s ev).
Proof.
  intros HO (I1 & I2 & I3 & I4). destruct ev as [names f sz|p sz|p|i rms|p|]; cbn [step].
  - repeat split; auto.
  - repeat split; auto.
  - destruct (dir_size p (s_disk s)) as [z|]; [|repeat split; auto]. cbn in HO. rewrite kept_keys in HO. destruct HO as [O1 O2].
    unfold inv1. cbn [s_mgr s_pending]. rewrite keys_app. cbn. split; [|split; [auto|split; [|auto]]].
    + apply NoDup_app_join; auto; [constructor; [auto|constructor]|]. intros q Hq [<-|[]]. contradiction.
    + intros q Hq. apply in_app_or in Hq. destruct Hq as [Hq|[<-|[]]]; auto.
  - destruct (nth_error (s_pending s) i) as [e|] eqn:EN; [|repeat split; auto].
    destruct (add _ _ _ _) as [[m d] ok] eqn:E. apply add_spec in E. destruct E as (_ & gone & k & E & _ & _ & _ & X).
    destruct (drop_nth_NoDup _ _ _ I1 EN) as [D1 D2].
    assert (DI : forall p, In p (keys (drop_nth i (s_pending s))) -> In p (keys (s_pending s))).
    { intros p Hp. apply in_map_iff in Hp. destruct Hp as (z & <- & Hp). apply in_map. eapply drop_nth_in; eauto. }
    assert (EP : In (fst e) (keys (s_pending s))) by (apply in_map; eapply nth_error_In; eauto).
    unfold inv1. cbn [s_mgr s_pending]. rewrite E, keys_app in *. destruct (NoDup_app_parts _ _ I2) as (G1 & G2 & G3).
    destruct ok; destruct X as (X1 & X2 & X3 & _); rewrite X1.
    + rewrite keys_app. cbn [keys map fst app]. split; [auto|]. split; [|split].
      * apply NoDup_app_join; auto; [constructor; [auto|constructor]|]. intros q Hq [<-|[]]. apply (I3 (fst e)); auto. apply in_or_app; auto.
      * intros q Hq Hk. apply in_app_or in Hk. destruct Hk as [Hk|[Hk|[]]]; [apply (I3 q); auto; apply in_or_app; auto|]. subst q. contradiction.
      * intros q Hq. apply X3. apply in_app_or in Hq. destruct Hq as [Hq|[Hq|[]]]; [|auto]. right. split; [apply I4, in_or_app; auto|].
        intros Z. apply (G3 q); auto.
    + split; [auto|]. split; [auto|]. split.
      * intros q Hq Hk. apply (I3 q); auto. apply in_or_app; auto.
      * intros q Hq. apply X3. split; [apply I4, in_or_app; auto|]. intros Z. apply (G3 q); auto.
  - repeat split; auto.
  - split; [constructor|]. split; [constructor|]. cbn. auto.
Qed.
Lemma run_inv1 evs : forall s, along once s evs -> inv1 s -> inv1 (run s evs).
Proof. induction evs as [|ev evs IH]; intros s HA H; [auto|]. destruct HA as [H1 H2]. apply IH; auto. apply step_inv1; auto. Qed.
Lemma init_inv1 limit d : inv1 (init_sys limit d).
Proof. split; [constructor|]. split; [constructor|]. cbn. auto. Qed.

(* Directories kept or being committed are on disk. *)
Definition inv2 (s : sys) : Prop :=
  (forall p, In p (keys (s_pending s)) -> exists_on_disk s p) /\ (forall p, In p (keys (evictList (s_mgr s))) -> exists_on_disk s p).
Lemma temp_dir_in : forall n names f d sz e, In e d -> In e (snd (temp_dir n names f d sz)).
Proof.
  induction n as [|n IH]; intros [|p names] f d sz e H; cbn; auto. destruct (on_disk p d); [auto|]. destruct f; [auto|]. apply in_or_app; auto.
Qed.
Lemma step_inv2 s ev : once s ev -> leaves_kept_alone s ev -> inv1 s -> inv2 s -> inv2 (step s ev).
Proof.
  intros HO HL (I1 & I2 & I3 & I4) [J1 J2]. destruct ev as [names f sz|p sz|p|i rms|p|]; cbn [step].
  - unfold inv2, exists_on_disk in *. cbn [s_mgr s_pending s_disk]. split; intros q Hq; [destruct (J1 q Hq) as (z & Hz)|destruct (J2 q Hq) as (z & Hz)]; exists z; apply temp_dir_in; auto.
  - unfold inv2, exists_on_disk in *. cbn [s_mgr s_pending s_disk]. split; intros q Hq; apply in_set_size; auto.
  - destruct (dir_size p (s_disk s)) as [z|] eqn:ED; [|split; auto].
    unfold inv2, exists_on_disk in *. cbn [s_mgr s_pending s_disk]. split; [|auto]. intros q Hq. rewrite keys_app in Hq. apply in_app_or in Hq.
    destruct Hq as [Hq|[<-|[]]]; [auto|]. exists z. apply dir_size_in; auto.
  - destruct (nth_error (s_pending s) i) as [e|] eqn:EN; [|split; auto].
    destruct (add _ _ _ _) as [[m d] ok] eqn:E. apply add_spec in E. destruct E as (_ & gone & k & E & _ & ED & _ & X).
    assert (DI : forall p, In p (keys (drop_nth i (s_pending s))) -> In p (keys (s_pending s))).
    { intros p Hp. apply in_map_iff in Hp. destruct Hp as (z & <- & Hp). apply in_map. eapply drop_nth_in; eauto. }
    assert (EP : In (fst e) (keys (s_pending s))) by (apply in_map; eapply nth_error_In; eauto).
    unfold inv2, exists_on_disk in *. cbn [s_mgr s_pending s_disk]. rewrite E, keys_app in *. destruct (NoDup_app_parts _ _ I2) as (G1 & G2 & G3).
    assert (P1 : forall p, In p (keys (s_pending s)) -> exists z, In (p, z) d).
    { intros p Hp. apply ED. split; [apply J1; auto|]. intros Z. apply (I3 p Hp). apply in_or_app; auto. }
    assert (P2 : forall p, In p (keys k) -> exists z, In (p, z) d).
    { intros p Hp. apply ED. split; [apply J2, in_or_app; auto|]. intros Z. apply (G3 p Z Hp). }
    split; [intros; auto|]. destruct ok; destruct X as (X1 & _); rewrite X1; [|auto].
    intros q Hq. rewrite keys_app in Hq. apply in_app_or in Hq. destruct Hq as [Hq|[<-|[]]]; auto.
  - cbn in HL. rewrite kept_keys in HL. destruct HL as [L1 L2].
    unfold inv2, exists_on_disk in *. cbn [s_mgr s_pending s_disk]. split; intros q Hq; [destruct (J1 q Hq) as (z & Hz)|destruct (J2 q Hq) as (z & Hz)];
      exists z; apply in_remove_dir; (split; [auto|]); cbn; intros ->; contradiction.
  - split; cbn; intros p [].
Qed.
Lemma run_inv2 evs : forall s, along once s evs -> along leaves_kept_alone s evs -> inv1 s -> inv2 s -> inv2 (run s evs).
Proof.
  induction evs as [|ev evs IH]; intros s HA HB H1 H2; [auto|]. destruct HA, HB. apply IH; auto; [apply step_inv1|apply step_inv2]; auto.
Qed.

(* ---- sizes are not negative ---- *)
Definition nonneg (s : sys) : Prop :=
  (forall p z, In (p, z) (s_disk s) -> 0 <= z) /\ (forall e, In e (s_pending s) -> 0 <= snd e) /\ (forall e, In e (evictList (s_mgr s)) -> 0 <= snd e).
Lemma step_nonneg s ev : sizes_ok ev -> nonneg s -> nonneg (step s ev).
Proof.
  intros HZ (N1 & N2 & N3). destruct ev as [names f sz|p sz|p|i rms|p|]; cbn [step]; cbn in HZ.
  - split; [|split; auto]. cbn [s_disk]. generalize (N.to_nat 10000). intros n. revert names.
    induction n as [|n IH]; intros [|q names] p z; cbn; eauto. destruct (on_disk q (s_disk s)); [eauto|]. destruct f; [eauto|]. cbn. intros H. apply in_app_or in H.
    destruct H as [H|[H|[]]]; [eauto|]. injection H as <- <-. auto.
  - split; [|split; auto]. cbn [s_disk]. apply set_size_nonneg; auto.
  - destruct (dir_size p (s_disk s)) as [z|] eqn:ED; [|split; auto]. apply dir_size_in in ED. split; [auto|split; [|auto]].
    cbn [s_pending]. intros e He. apply in_app_or in He. destruct He as [He|[<-|[]]]; [auto|]. cbn. eauto.
  - destruct (nth_error (s_pending s) i) as [e|] eqn:EN; [|split; auto].
    destruct (add _ _ _ _) as [[m d] ok] eqn:E. apply add_spec in E. destruct E as (_ & gone & k & E & _ & _ & ED & X).
    assert (HK : forall e, In e k -> 0 <= snd e) by (intros; apply N3; rewrite E; apply in_or_app; auto).
    split; [|split]; cbn [s_disk s_pending s_mgr]; [apply ED; auto|intros x Hx; apply N2; eapply drop_nth_in; eauto|].
    destruct ok; destruct X as (-> & _); [|auto]. intros x Hx. apply in_app_or in Hx. destruct Hx as [Hx|[<-|[]]]; [auto|]. apply N2. eapply nth_error_In; eauto.
  - split; [|split; auto]. cbn [s_disk]. intros q z H. apply in_remove_dir in H. destruct H; eauto.
  - split; [auto|]. split; cbn; intros e [].
Qed.

(* ---- C11: within the limit ---- *)
Definition small (s : sys) : Prop := total (evictList (s_mgr s)) <= sizeLimit (s_mgr s) \/ (List.length (evictList (s_mgr s)) <= 1)%nat.
Lemma step_small s ev : sizes_ok ev -> nonneg s -> inv s -> small s -> small (step s ev).
Proof.
  intros HZ (N1 & N2 & N3) [I1 I2] HS. destruct ev as [names f sz|p sz|p|i rms|p|]; cbn [step]; auto.
  - destruct (dir_size _ _); auto.
  - destruct (nth_error (s_pending s) i) as [e|] eqn:EN; [|auto].
    destruct (add _ _ _ _) as [[m d] ok] eqn:E. apply add_spec in E. destruct E as (EL & gone & k & E & _ & _ & _ & X).
    unfold small in *. cbn [s_mgr]. rewrite E in *. rewrite EL. rewrite I1 in X. rewrite total_app, app_length in *.
    assert (HG : 0 <= total gone) by (apply total_nonneg; intros; apply N3, in_or_app; auto).
    destruct ok; destruct X as (-> & X2 & _ & X3).
    + destruct X3 as [->|X3]; [right; cbn; lia|]. left. rewrite total_app. cbn. lia.
    + destruct HS as [HS|HS]; [left; lia|right; lia].
  - right. cbn. lia.
Qed.
Lemma run_small evs : forall s, along (fun _ ev => sizes_ok ev) s evs -> nonneg s -> inv s -> small s -> small (run s evs) /\ nonneg (run s evs).
Proof.
  induction evs as [|ev evs IH]; intros s HA HN HI HS; [auto|]. destruct HA. apply IH; auto; [apply step_nonneg|apply step_inv|apply step_small]; auto.
Qed.

(* ---- C12 ---- *)
Definition recent (s : sys) : Prop := exists rest, s_hist s = kept s ++ rest.
Lemma step_recent s ev : recent s -> recent (step s ev).
Proof.
  intros (rest & H). destruct ev as [names f sz|p sz|p|i rms|p|]; cbn [step]; try (exists rest; exact H).
  - destruct (dir_size _ _); exists rest; exact H.
  - destruct (nth_error (s_pending s) i) as [e|] eqn:EN; [|exists rest; exact H].
    destruct (add _ _ _ _) as [[m d] ok] eqn:E. apply add_spec in E. destruct E as (EL & gone & k & E & _ & _ & _ & X).
    unfold recent, kept in *. cbn [s_mgr s_hist]. rewrite E, rev_app_distr, <- app_assoc in H.
    destruct ok; destruct X as (-> & _); exists (rev gone ++ rest); [|auto]. rewrite rev_app_distr. cbn. f_equal. auto.
  - exists []. reflexivity.
Qed.
Lemma run_recent evs : forall s, recent s -> recent (run s evs).
Proof. induction evs as [|ev evs IH]; intros s H; [auto|]. apply IH, step_recent, H. Qed.

Lemma prefix_len {A} (h k r k' r' : list A) : h = k ++ r -> h = k' ++ r' -> (List.length k' <= List.length k)%nat -> exists m, k = k' ++ m.
Proof.
  revert k k' . induction h as [|x h IH]; intros k k' E1 E2 L.
  - destruct k'; [|discriminate E2]. eexists. reflexivity.
  - destruct k' as [|y k']; [eexists; reflexivity|]. destruct k as [|z k]; [cbn in L; lia|].
    cbn in E1, E2. injection E1 as -> E1. injection E2 as <- E2. destruct (IH k k' E1 E2) as (m & ->); [cbn in L; lia|]. exists m. reflexivity.
Qed.
Lemma step_best s ev : sizes_ok ev -> ~ removal_fails ev -> nonneg s -> inv s ->
  best (sizeLimit (s_mgr s)) (s_hist s) (kept s) -> best (sizeLimit (s_mgr (step s ev))) (s_hist (step s ev)) (kept (step s ev)).
Proof.
  intros HZ HF (N1 & N2 & N3) [I1 I2] HB. rewrite limit_step. destruct ev as [names f sz|p sz|p|i rms|p|]; cbn [step]; auto.
  - destruct (dir_size _ _); auto.
  - destruct (nth_error (s_pending s) i) as [e|] eqn:EN; [|auto].
    assert (HE : 0 <= snd e) by (apply N2; eapply nth_error_In; eauto).
    destruct (add _ _ _ _) as [[m d] ok] eqn:E. apply add_spec in E. destruct E as (EL & gone & k & E & EM & _ & _ & X).
    destruct ok; [|destruct X as (_ & _ & _ & X); elim HF; exact X].
    destruct X as (X1 & X2 & _ & X3). rewrite I1 in *. destruct HB as ((rest & B1) & B2 & B3 & B4). unfold kept in *. cbn [s_mgr s_hist]. rewrite X1.
    rewrite rev_app_distr. cbn [rev app]. rewrite E, rev_app_distr, <- app_assoc in B1.
    assert (TE : total (evictList (s_mgr s)) = total gone + total k) by (rewrite E; apply total_app).
    split; [exists (rev gone ++ rest); cbn; f_equal; auto|]. split.
    { destruct X3 as [->|X3]; [right; cbn; lia|]. left. cbn. rewrite total_rev. lia. }
    split; [discriminate|].
    intros [|x k'] rest' E' HT; [cbn; lia|]. cbn in E'. injection E' as <- E'. cbn in HT.
    assert (L : (List.length k' <= List.length (rev (evictList (s_mgr s))))%nat) by (eapply B4; [exact E'|lia]).
    cbn [List.length]. apply le_n_S.
    destruct (Nat.le_gt_cases (List.length k') (List.length (rev k))) as [G|G]; [exact G|exfalso].
    assert (HS : s_hist s = rev (evictList (s_mgr s)) ++ rest) by (rewrite E, rev_app_distr, <- app_assoc; auto).
    destruct (prefix_len _ _ _ _ _ HS E' L) as (mm & Em).
    assert (Em' : evictList (s_mgr s) = rev mm ++ rev k') by (rewrite <- rev_app_distr, <- Em, rev_involutive; auto).
    assert (LL : (List.length (rev mm) < List.length gone)%nat).
    { assert (Q : List.length (rev mm ++ rev k') = List.length (gone ++ k)) by (rewrite <- Em', E; auto).
      rewrite !app_length, !rev_length in Q. rewrite !rev_length in *. lia. }
    specialize (EM _ _ Em' LL). assert (total (evictList (s_mgr s)) = total (rev mm) + total k') by (rewrite Em', total_app, !total_rev; auto). lia.
  - split; [exists []; reflexivity|]. split; [right; cbn; lia|]. split; [auto|]. intros k' r' H. symmetry in H. apply app_eq_nil in H. destruct H as [-> _]. cbn. lia.
Qed.
Lemma run_best evs : forall s, along (fun _ ev => sizes_ok ev) s evs -> along (fun _ ev => ~ removal_fails ev) s evs -> nonneg s -> inv s ->
  best (sizeLimit (s_mgr s)) (s_hist s) (kept s) -> best (sizeLimit (s_mgr s)) (s_hist (run s evs)) (kept (run s evs)).
Proof.
  induction evs as [|ev evs IH]; intros s HA HB HN HI H; [auto|]. destruct HA, HB. rewrite <- (limit_step s ev). apply IH; auto; [apply step_nonneg|apply step_inv|apply step_best]; auto.
Qed.

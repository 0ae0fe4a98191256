From Coq Require Import String Ascii List Bool ZArith NArith QArith Sorted Permutation Lia.
From Verif Require Import GoStr LitModel LitSpec.
Import ListNotations.
Local Open Scope string_scope.

(* ---- The order of strings ---- *)
Lemma ltb_before a b : ltb a b = true <-> before a b.
Proof.
  unfold ltb. revert b. induction a as [|x a IH]; intros [|y b]; cbn [String.compare before]; try (split; [discriminate|tauto]); [tauto|].
  unfold Ascii.compare. destruct (N.compare_spec (N_of_ascii x) (N_of_ascii y)) as [E|E|E].
  - assert (x = y) by (rewrite <- (ascii_N_embedding x), E; apply ascii_N_embedding). subst y. rewrite IH. split; [auto|]. intros [X|[_ X]]; [lia|auto].
  - tauto.
  - split; [discriminate|]. intros [X|[-> _]]; lia.
Qed.
Lemma before_trans a b c : before a b -> before b c -> before a c.
Proof.
  revert b c. induction a as [|x a IH]; intros [|y b] [|z c]; cbn; try tauto. intros [X|[-> X]] [Y|[-> Y]]; auto.
  - left. lia.
  - right. split; eauto.
Qed.
Lemma before_irrefl a : ~ before a a.
Proof. induction a as [|x a IH]; cbn; [tauto|]. intros [X|[_ X]]; [lia|auto]. Qed.
Lemma before_total a b : before a b \/ a = b \/ before b a.
Proof.
  revert b. induction a as [|x a IH]; intros [|y b]; cbn; auto. destruct (N.lt_trichotomy (N_of_ascii x) (N_of_ascii y)) as [E|[E|E]]; auto.
  assert (x = y) by (rewrite <- (ascii_N_embedding x), E; apply ascii_N_embedding). subst y. destruct (IH b) as [X|[->|X]]; auto.
Qed.
Lemma ltb_false a b : ltb a b = false -> a = b \/ before b a.
Proof. intros H. destruct (before_total a b) as [X|X]; [apply ltb_before in X; congruence|tauto]. Qed.

(* ---- Sorting ---- *)
Section Sort.
Context {A : Type} (key : A -> string).
Definition lt_key (x y : A) : Prop := before (key x) (key y).
Notation sorted := (StronglySorted lt_key).
Lemma insert_perm x l : Permutation (x :: l) (insert key x l).
Proof. induction l as [|y l IH]; cbn; [auto|]. destruct (ltb (key y) (key x)); [|auto]. rewrite perm_swap. constructor. auto. Qed.
Lemma sort_perm l : Permutation l (sort key l).
Proof. induction l as [|x l IH]; cbn; [auto|]. rewrite <- insert_perm. constructor. auto. Qed.
Lemma insert_sorted x l : ~ In (key x) (map key l) -> sorted l -> sorted (insert key x l).
Proof.
  intros N S. induction S as [|y l S IH F]; cbn; [repeat constructor|]. cbn in N. destruct (ltb (key y) (key x)) eqn:E.
  - constructor; [apply IH; tauto|]. apply ltb_before in E. apply Forall_forall. intros z HZ. apply (Permutation_in _ (Permutation_sym (insert_perm x l))) in HZ. destruct HZ as [<-|HZ]; [exact E|].
    rewrite Forall_forall in F. auto.
  - apply ltb_false in E. assert (B : before (key x) (key y)) by (destruct E as [E|E]; [exfalso; apply N; left; auto|auto]).
    constructor; [constructor; auto|]. constructor; [exact B|]. rewrite Forall_forall in *. intros z HZ. eapply before_trans; [exact B|apply F; auto].
Qed.
Lemma sort_sorted l : NoDup (map key l) -> sorted (sort key l).
Proof.
  induction l as [|x l IH]; cbn; intros H; [constructor|]. inversion H as [|? ? H1 H2]; subst. apply insert_sorted; [|auto].
  intros X. apply H1. apply (Permutation_in _ (Permutation_sym (Permutation_map key (sort_perm l)))). auto.
Qed.
Lemma sorted_unique l l' : sorted l -> sorted l' -> (forall x, In x l <-> In x l') -> l = l'.
Proof.
  intros S. revert l'. induction S as [|x l S IH F]; intros l' S' E.
  - destruct l' as [|y l']; [auto|]. exfalso. apply (E y). left. auto.
  - destruct S' as [|y l' S' F']; [exfalso; apply (E x); left; auto|]. rewrite Forall_forall in F, F'.
    assert (x = y).
    { destruct (proj1 (E x) (or_introl eq_refl)) as [X|X]; [auto|]. destruct (proj2 (E y) (or_introl eq_refl)) as [Y|Y]; [auto|].
      exfalso. apply (before_irrefl (key x)). eapply before_trans; [apply F, Y|apply F', X]. }
    subst y. f_equal. apply IH; [auto|]. intros z. split; intros Z.
    + destruct (proj1 (E z) (or_intror Z)) as [<-|X]; [|auto]. exfalso. apply (before_irrefl (key x)). apply F. auto.
    + destruct (proj2 (E z) (or_intror Z)) as [<-|X]; [|auto]. exfalso. apply (before_irrefl (key x)). apply F'. auto.
Qed.
Lemma sort_unique l l' : NoDup (map key l) -> NoDup (map key l') -> (forall x, In x l <-> In x l') -> sort key l = sort key l'.
Proof.
  intros N N' E. apply sorted_unique; [apply sort_sorted; auto|apply sort_sorted; auto|]. intros x.
  split; intros H; eapply Permutation_in; try apply sort_perm; apply E; eapply Permutation_in; try exact H; apply Permutation_sym, sort_perm.
Qed.
End Sort.

(* ---- Files ---- *)
Notation sorted_files := (StronglySorted (lt_key (@fst string string))).
Lemma store_in m k v a b : sorted_files m -> (In (a, b) (store m k v) <-> (a = k /\ b = v) \/ (a <> k /\ In (a, b) m)).
Proof.
  intros S. induction S as [|[k' v'] m S IH F]; cbn [store].
  - cbn. split; [intros [X|[]]; injection X as <- <-; auto|]. intros [[-> ->]|[_ []]]. auto.
  - rewrite Forall_forall in F. destruct (String.eqb_spec k k') as [->|N].
    + cbn. split.
      * intros [X|X]; [injection X as <- <-; auto|]. right. split; [|auto]. intros ->. apply (before_irrefl k'). apply (F _ X).
      * intros [[-> ->]|[NE [X|X]]]; auto. injection X as <- <-. congruence.
    + destruct (ltb k k') eqn:E.
      * apply ltb_before in E. cbn. split.
        -- intros [X|[X|X]]; [injection X as <- <-; auto|injection X as <- <-; right; split; [congruence|auto]|].
           right. split; [|auto]. intros ->. apply (before_irrefl k'). eapply before_trans; [apply (F _ X)|exact E].
        -- intros [[-> ->]|[_ X]]; auto.
      * cbn. rewrite IH. split.
        -- intros [X|[X|[X Y]]]; auto. injection X as <- <-. right. split; [congruence|auto].
        -- intros [X|[X [Y|Y]]]; auto.
Qed.
Lemma store_sorted m k v : sorted_files m -> sorted_files (store m k v).
Proof.
  intros S. induction S as [|[k' v'] m S IH F]; cbn [store]; [repeat constructor|]. rewrite Forall_forall in F.
  destruct (String.eqb_spec k k') as [->|N]; [constructor; [auto|]; apply Forall_forall; exact F|]. destruct (ltb k k') eqn:E.
  - apply ltb_before in E. constructor; [constructor; [auto|apply Forall_forall; auto]|]. constructor; [exact E|]. apply Forall_forall. intros z Z. eapply before_trans; [exact E|apply F; auto].
  - constructor; [auto|]. apply Forall_forall. intros [a b] Z. apply store_in in Z; [|auto]. destruct Z as [[-> ->]|[_ Z]]; [|apply F; auto].
    apply ltb_false in E. destruct E; [congruence|auto].
Qed.

(* ---- Groups ---- *)
Lemma before_dot_spec name : group_of name (before_dot name).
Proof.
  unfold group_of. induction name as [|c s [A B]]; cbn [before_dot]; [split; [apply contains_nil|auto]|]. destruct (Ascii.eqb_spec c ".") as [->|N].
  - split; [apply contains_nil|]. right. exists s. auto.
  - split; [rewrite contains_cons; intuition|]. destruct B as [<-|(r & B)]; [left; auto|right; exists r; cbn; congruence].
Qed.
Lemma group_of_unique name g : group_of name g -> g = before_dot name.
Proof.
  revert g. induction name as [|c s IH]; intros g [A B]; cbn [before_dot].
  - destruct B as [<-|(r & B)]; [auto|destruct g; discriminate].
  - destruct (Ascii.eqb_spec c ".") as [->|N].
    + destruct B as [<-|(r & B)]; [elim A; left; auto|]. destruct g as [|x g]; [auto|]. cbn in B. injection B as <- _. elim A. left. auto.
    + destruct g as [|x g]; [destruct B as [B|(r & B)]; [discriminate|injection B as -> _; congruence]|]. rewrite contains_cons in A.
      destruct B as [B|(r & B)]; cbn in B; injection B as <- B; f_equal; apply IH; (split; [tauto|]); eauto.
Qed.

Definition mk (t : Q) (x : string * option literal_case) : case_settings := {| c_Name := fst x; c_Weight := Qred (weight_of x / t) |}.
Definition members (cs : cases) (g : string) : cases := filter (fun x => before_dot (fst x) =? g) cs.
Definition grouped (t : Q) (cs : cases) (G : list (string * list case_settings)) : Prop :=
  NoDup (map fst G) /\ forall g l, In (g, l) G <-> l = map (mk t) (members cs g) /\ l <> [].
Lemma append_group_keys G g c : forall x, In x (map fst (append_group G g c)) <-> x = g \/ In x (map fst G).
Proof. intros x. induction G as [|[k l] G IH]; cbn; [intuition|]. destruct (String.eqb_spec k g) as [->|]; cbn; [intuition|]. rewrite IH. intuition. Qed.
Lemma append_group_nodup G g c : NoDup (map fst G) -> NoDup (map fst (append_group G g c)).
Proof.
  induction G as [|[k l] G IH]; cbn; intros H; [repeat constructor; auto|]. inversion H; subst. destruct (String.eqb_spec k g) as [->|N]; cbn; [auto|].
  constructor; [|auto]. rewrite append_group_keys. intuition.
Qed.
Lemma append_group_in G g c : NoDup (map fst G) -> forall k l, In (k, l) (append_group G g c) <->
  (k <> g /\ In (k, l) G) \/ (k = g /\ ((exists l', In (g, l') G /\ l = (l' ++ [c])%list) \/ (~ In g (map fst G) /\ l = [c]))).
Proof.
  intros ND k l. induction G as [|[k' l'] G IH]; cbn [append_group].
  - cbn. split; [intros [X|[]]; injection X as <- <-; right; split; auto|]. intros [[_ []]|[-> [(l' & [] & _)|[_ ->]]]]. auto.
  - cbn in ND. inversion ND as [|? ? H1 H2]; subst. specialize (IH H2). destruct (String.eqb_spec k' g) as [->|N].
    + cbn [In map fst]. split.
      * intros [X|X]; [injection X as <- <-; right; split; [auto|]; left; exists l'; auto|]. left. split; [|auto]. intros ->. apply H1, in_map_iff. exists (g, l). auto.
      * intros [[NE [X|X]]|[-> [(l2 & [X|X] & ->)|[X _]]]]; auto.
        -- injection X as <- <-. congruence.
        -- injection X as <-. auto.
        -- exfalso. apply H1, in_map_iff. exists (g, l2). auto.
        -- exfalso. auto.
    + cbn [In map fst]. rewrite IH. split.
      * intros [X|[[A B]|[A [(l2 & B & C)|[B C]]]]].
        -- injection X as <- <-. left. auto.
        -- auto.
        -- right. split; [auto|]. left. exists l2. auto.
        -- right. split; [auto|]. right. split; [|auto]. intuition.
      * intros [[A [B|B]]|[A [(l2 & [B|B] & C)|[B C]]]]; auto.
        -- injection B as -> _. congruence.
        -- right. right. split; [auto|]. left. exists l2. auto.
        -- right. right. split; [auto|]. right. split; [|auto]. tauto.
Qed.
Lemma grouped_key t cs G g : grouped t cs G -> (In g (map fst G) <-> members cs g <> []).
Proof.
  intros [_ H]. rewrite in_map_iff. split.
  - intros ([k l] & <- & X). apply H in X. cbn. destruct X as [-> X]. intros E. rewrite E in X. apply X. auto.
  - intros X. exists (g, map (mk t) (members cs g)). split; [auto|]. apply H. split; [auto|]. destruct (members cs g); [congruence|discriminate].
Qed.
Lemma grouped_step t cs G name c : grouped t cs G -> grouped t (cs ++ [(name, c)]) (append_group G (before_dot name) (mk t (name, c))).
Proof.
  intros HG. assert (KEY := fun g => grouped_key t cs G g HG). destruct HG as [ND H]. split; [apply append_group_nodup; auto|]. intros g l. rewrite append_group_in by auto.
  assert (M : members (cs ++ [(name, c)]) g = (members cs g ++ if before_dot name =? g then [(name, c)] else [])%list).
  { unfold members. rewrite filter_app. cbn. destruct (before_dot name =? g); auto. }
  rewrite M, map_app. destruct (String.eqb_spec (before_dot name) g) as [<-|N].
  - cbn [map]. split.
    + intros [[X _]|[_ [(l' & X & ->)|[X ->]]]]; [congruence| |].
      * apply H in X. destruct X as [-> X]. split; [auto|]. destruct (map (mk t) _); discriminate.
      * rewrite KEY in X. destruct (members cs _); [|exfalso; apply X; discriminate]. split; [auto|discriminate].
    + intros [-> _]. right. split; [auto|]. destruct (members cs (before_dot name)) as [|x m] eqn:E.
      * right. split; [|auto]. rewrite KEY. intros X. apply X. auto.
      * left. exists (map (mk t) (x :: m)). split; [|auto]. apply H. rewrite E. split; [auto|discriminate].
  - cbn [map]. rewrite app_nil_r, <- H. split; [intros [[_ X]|[-> _]]; [auto|congruence]|]. intros X. left. split; [congruence|auto].
Qed.

(* ---- The loops ---- *)
Definition in_name (name : string) : string := "cases/" ++ name ++ ".in".
Definition out_name (name : string) : string := "cases/" ++ name ++ ".out".
Definition case_file (cs : cases) (k v : string) : Prop :=
  exists name c, In (name, Some c) cs /\ ((k = in_name name /\ v = LitModel.Input c) \/ (k = out_name name /\ v = ExpectedOutput c)).
Lemma append_assoc a b c : ((a ++ b) ++ c = a ++ b ++ c)%string.
Proof. induction a; cbn; congruence. Qed.
Lemma append_length a b : String.length (a ++ b) = (String.length a + String.length b)%nat.
Proof. induction a; cbn; auto. Qed.
Lemma append_suffix a b x y : String.length x = String.length y -> (a ++ x = b ++ y)%string -> a = b /\ x = y.
Proof.
  revert b. induction a as [|c a IH]; intros [|d b] L E.
  - auto.
  - exfalso. cbn in E. apply (f_equal String.length) in E. cbn in E. rewrite append_length in E. lia.
  - exfalso. cbn in E. apply (f_equal String.length) in E. cbn in E. rewrite append_length in E. lia.
  - cbn in E. injection E as -> E. destruct (IH b L E) as [-> ->]. auto.
Qed.
Fixpoint last_char (s : string) : option ascii := match s with "" => None | String c s => match s with "" => Some c | _ => last_char s end end.
Lemma last_char_app a c s : last_char (a ++ String c s) = last_char (String c s).
Proof. induction a as [|x a IH]; [auto|]. cbn [append]. rewrite <- IH. destruct a; reflexivity. Qed.
Lemma in_out n n' : in_name n <> out_name n'.
Proof. unfold in_name, out_name. intros E. apply (f_equal last_char) in E. rewrite <- !append_assoc, !last_char_app in E. discriminate. Qed.
Lemma in_inj n n' : in_name n = in_name n' -> n = n'.
Proof. unfold in_name. cbn. intros E. injection E as E. apply append_suffix in E; [tauto|auto]. Qed.
Lemma out_inj n n' : out_name n = out_name n' -> n = n'.
Proof. unfold out_name. cbn. intros E. injection E as E. apply append_suffix in E; [tauto|auto]. Qed.

Definition of_case (k : string) : Prop := exists s, k = ("cases/" ++ s)%string.
Lemma fill_ok t : forall cs done G m m0, complete cs -> NoDup (map fst (done ++ cs)) -> grouped t done G -> sorted_files m ->
  (forall k v, In (k, v) m0 -> ~ of_case k) -> (forall k v, In (k, v) m <-> case_file done k v \/ In (k, v) m0) ->
  exists G' m', fill_groups cs t G m = Accepted (G', m') /\ grouped t (done ++ cs) G' /\ sorted_files m' /\
    (forall k v, In (k, v) m' <-> case_file (done ++ cs) k v \/ In (k, v) m0).
Proof.
  induction cs as [|[name c] cs IH]; intros done G m m0 HC ND HG HS H0 HM; cbn [fill_groups].
  - exists G, m. rewrite app_nil_r. auto.
  - destruct (HC name c (or_introl eq_refl)) as (lc & w & -> & EW). destruct lc as [i o w']. cbn in EW. subst w'.
    set (lc := {| LitModel.Input := i; ExpectedOutput := o; Weight := Some w |}).
    replace {| c_Name := name; c_Weight := Qred (w / t) |} with (mk t (name, Some lc)) by reflexivity.
    destruct (IH (done ++ [(name, Some lc)])%list (append_group G (before_dot name) (mk t (name, Some lc))) (store (store m ("cases/" ++ name ++ ".in") i) ("cases/" ++ name ++ ".out") o) m0) as (G' & m' & E & A & B & C).
    + intros n x Hx. apply (HC n x). right. auto.
    + rewrite <- app_assoc. exact ND.
    + apply grouped_step. auto.
    + apply store_sorted, store_sorted. auto.
    + auto.
    + intros k v. rewrite store_in by (apply store_sorted; auto). rewrite store_in, HM by auto. fold (in_name name) (out_name name).
      assert (NI : forall c, ~ In (name, c) done).
      { intros x X. rewrite map_app in ND. cbn in ND. apply NoDup_remove_2 in ND. apply ND, in_app_iff. left. apply in_map_iff. exists (name, x). auto. }
      assert (NO : forall k v, In (k, v) m0 -> k <> in_name name /\ k <> out_name name).
      { intros k0 v0 X. split; intros ->; apply (H0 _ _ X); unfold in_name, out_name, of_case; eauto. }
      split.
      * intros [[-> ->]|[N1 [[-> ->]|[N2 [X|X]]]]].
        -- left. exists name, lc. rewrite in_app_iff. cbn. auto.
        -- left. exists name, lc. rewrite in_app_iff. cbn. auto.
        -- left. destruct X as (n & c & X & Y). exists n, c. rewrite in_app_iff. auto.
        -- auto.
      * intros [(n & c & X & Y)|X].
        -- rewrite in_app_iff in X. destruct X as [X|[X|[]]].
           ++ assert (n <> name) by (intros ->; apply (NI _ X)).
              assert (k <> out_name name) by (destruct Y as [[-> _]|[-> _]]; [apply in_out|intros Z; apply out_inj in Z; congruence]).
              assert (k <> in_name name) by (destruct Y as [[-> _]|[-> _]]; [intros Z; apply in_inj in Z; congruence|intros Z; apply (in_out name n); auto]).
              right. split; [auto|]. right. split; [auto|]. left. exists n, c. auto.
           ++ injection X as <- <-. destruct Y as [[-> ->]|[-> ->]]; cbn; [|auto]. right. split; [apply in_out|auto].
        -- destruct (NO _ _ X) as [A B]. right. split; [auto|]. right. auto.
    + exists G', m'. rewrite <- app_assoc in A. cbn [app] in A. split; [exact E|]. split; [exact A|]. split; [exact B|]. intros k v. rewrite C, <- app_assoc. reflexivity.
Qed.

(* ---- Weights ---- *)
Lemma total_perm l l' : Permutation l l' -> total l == total l'.
Proof. induction 1; cbn; [reflexivity|rewrite IHPermutation; reflexivity|ring|etransitivity; eauto]. Qed.
Lemma sum_ok : forall cs acc, (forall n x, In (n, x) cs -> exists c w, x = Some c /\ Weight c = Some w /\ 0 <= w) ->
  exists t, sum_weights cs acc = Accepted t /\ t == acc + total_weight cs.
Proof.
  induction cs as [|[n x] cs IH]; intros acc H; cbn [sum_weights].
  - exists acc. split; [auto|]. unfold total_weight. cbn. ring.
  - destruct (H n x (or_introl eq_refl)) as (c & w & -> & EW & P). rewrite EW. replace (Qle_bool 0 w) with true by (symmetry; apply Qle_bool_iff; auto). cbn [negb].
    destruct (IH (Qred (acc + w))) as (t & E & V); [intros; eapply H; right; eauto|]. exists t. split; [auto|]. rewrite V, Qred_correct. unfold total_weight. cbn [map total]. assert (X : weight_of (n, Some c) = w) by (unfold weight_of; cbn; rewrite EW; auto). rewrite X. ring.
Qed.
Lemma sum_red : forall cs acc t, sum_weights cs acc = Accepted t -> acc = Qred acc -> t = Qred t.
Proof.
  induction cs as [|[n x] cs IH]; intros acc t E A; cbn [sum_weights] in E; [congruence|]. destruct x as [c|]; [|discriminate]. destruct (Weight c); [|discriminate]. destruct (negb _); [discriminate|].
  apply IH in E; [auto|]. symmetry. apply Qred_complete, Qred_correct.
Qed.
Lemma sum_inv : forall cs acc t, sum_weights cs acc = Accepted t -> forall n x, In (n, x) cs -> exists c w, x = Some c /\ Weight c = Some w /\ 0 <= w.
Proof.
  induction cs as [|[n x] cs IH]; intros acc t E; [intros ? ? []|]. cbn [sum_weights] in E. destruct x as [c|]; [|discriminate]. destruct (Weight c) as [w|] eqn:EW; [|discriminate].
  destruct (Qle_bool 0 w) eqn:P; cbn [negb] in E; [|discriminate]. intros n' x' [X|X]; [injection X as <- <-|eapply IH; eauto]. exists c, w. split; [auto|]. split; [auto|]. apply Qle_bool_iff. auto.
Qed.

(* ---- The whole ---- *)
Lemma perm_total l l' : Permutation l l' -> total_weight l == total_weight l'.
Proof. intros H. apply total_perm, Permutation_map. auto. Qed.
Lemma perm_names (l l' : cases) : Permutation l l' -> NoDup (map fst l) -> NoDup (map fst l').
Proof. intros H. apply Permutation_NoDup, Permutation_map. auto. Qed.
Lemma members_perm cs cs' g : Permutation cs cs' -> Permutation (members cs g) (members cs' g).
Proof. intros H. unfold members. induction H as [|x l l' H IH|x y l|l l' l2 H IH H' IH']; cbn; [auto| | |etransitivity; eauto]; repeat destruct (_ =? g); auto. apply perm_swap. Qed.
Definition mkgroup (x : string * list case_settings) : group_settings := let '(name, g) := x in {| g_Name := name; g_Cases := sort c_Name g |}.
Lemma mk_names t cs : map c_Name (map (mk t) cs) = map fst cs.
Proof. rewrite map_map. apply map_ext. auto. Qed.
Lemma members_nodup cs g : NoDup (map fst cs) -> NoDup (map fst (members cs g)).
Proof.
  unfold members. induction cs as [|x cs IH]; cbn; intros H; [constructor|]. inversion H as [|? ? A B]; subst. destruct (_ =? g); [|auto]. cbn. constructor; [|auto].
  rewrite in_map_iff in *. intros (y & E & Y). apply A. exists y. apply filter_In in Y. tauto.
Qed.
Lemma group_names (l : list (string * list case_settings)) : map g_Name (map mkgroup l) = map fst l.
Proof. rewrite map_map. apply map_ext. intros []. auto. Qed.
Lemma grouped_perm t cs G G' : Permutation G G' -> grouped t cs G -> grouped t cs G'.
Proof.
  intros P [A B]. split; [eapply Permutation_NoDup; [apply Permutation_map, P|auto]|]. intros g l. rewrite <- B. split; apply Permutation_in; [apply Permutation_sym|]; auto.
Qed.
Lemma groups_in t cs G x : grouped t cs G -> (In x (map mkgroup G) <-> members cs (g_Name x) <> [] /\ g_Cases x = sort c_Name (map (mk t) (members cs (g_Name x)))).
Proof.
  intros [_ H]. rewrite in_map_iff. split.
  - intros ([g l] & <- & X). apply H in X. cbn. destruct X as [-> X]. split; [destruct (members cs g); [elim X; auto|discriminate]|auto].
  - intros [N E]. exists (g_Name x, map (mk t) (members cs (g_Name x))). split; [destruct x; cbn in *; congruence|]. apply H. split; [auto|]. destruct (members _ _); [congruence|discriminate].
Qed.
Lemma sort_groups t cs cs' G G' : NoDup (map fst cs) -> Permutation cs cs' -> grouped t cs G -> grouped t cs' G' -> sort g_Name (map mkgroup G) = sort g_Name (map mkgroup G').
Proof.
  intros ND P HG HG'. apply sort_unique; [rewrite group_names; apply HG|rewrite group_names; apply HG'|]. intros x. rewrite (groups_in _ _ _ _ HG), (groups_in _ _ _ _ HG').
  assert (PM := members_perm _ _ (g_Name x) P).
  assert (E : sort c_Name (map (mk t) (members cs (g_Name x))) = sort c_Name (map (mk t) (members cs' (g_Name x)))).
  { apply sort_unique; [rewrite mk_names; apply members_nodup; auto|rewrite mk_names; apply members_nodup; eapply perm_names; eauto|].
    intros y. split; apply Permutation_in; [|apply Permutation_sym]; apply Permutation_map; auto. }
  rewrite E. destruct (members cs _) eqn:E1, (members cs' _) eqn:E2; [tauto| | |intuition discriminate].
  - apply Permutation_nil in PM. discriminate.
  - apply Permutation_sym, Permutation_nil in PM. discriminate.
Qed.
Lemma case_file_perm cs cs' k v : Permutation cs cs' -> case_file cs k v -> case_file cs' k v.
Proof. intros P (n & c & X & Y). exists n, c. split; [eapply Permutation_in; eauto|auto]. Qed.

Lemma validator_files v x m : build_validator v [] = Accepted (x, m) -> sorted_files m /\ (forall k w, In (k, w) m -> ~ of_case k) /\
  (forall k w, In (k, w) m <-> exists lv c, v = Some lv /\ Name lv = "custom" /\ CustomValidator lv = Some c /\ k = ("validator." ++ Language c)%string /\ w = Source c).
Proof.
  unfold build_validator. destruct v as [lv|].
  - destruct (String.eqb_spec (Name lv) "custom") as [E|N].
    + destruct (CustomValidator lv) as [c|] eqn:EC; [|discriminate]. intros H. injection H as <- <-. split; [repeat constructor|]. split.
      * intros k w [X|[]]. injection X as <- <-. intros (s & X). discriminate.
      * intros k w. cbn. split; [intros [X|[]]; injection X as <- <-; exists lv, c; auto|]. intros (lv' & c' & X & _ & EC' & -> & ->). injection X as <-. rewrite EC in EC'. injection EC' as <-. auto.
    + destruct (existsb _ _); [|destruct (_ =? _); [|discriminate]]; intros H; injection H as <- <-; (split; [constructor|]); (split; [intros ? ? []|]);
        intros k w; (split; [intros []|]); intros (lv' & c' & X & E & _); injection X as <-; congruence.
  - cbn. intros H. injection H as <- <-. split; [constructor|]. split; [intros ? ? []|]. intros k w. split; [intros []|]. intros (lv' & c' & X & _). discriminate.
Qed.

Section Main.
Variable marshal : problem_settings -> option string.
Variable make_tar : files -> option string.
Variable sha1 : string -> string.
Variable libinteractive : string -> string -> string -> option string.
Notation New := (NewLiteralInputFactory marshal make_tar sha1 libinteractive).

(* What the loops compute, in any order. *)
Lemma loops o input x m : any_order o -> NoDup (map fst (Cases input)) -> good_cases (Cases input) -> build_validator (Validator input) [] = Accepted (x, m) ->
  exists t G m', sum_weights (order1 o (Cases input)) 0 = Accepted t /\ t = Qred (total_weight (Cases input)) /\ Qeq_bool t 0 = false /\
    fill_groups (order2 o (Cases input)) t [] m = Accepted (G, m') /\ grouped t (order2 o (Cases input)) (order3 o G) /\ sorted_files m' /\
    (forall k v, In (k, v) m' <-> case_file (Cases input) k v \/ In (k, v) m).
Proof.
  intros (O1 & O2 & O3) ND (NE & GC & POS) EV. specialize (O1 (Cases input)). specialize (O2 (Cases input)). destruct (validator_files _ _ _ EV) as (V1 & V2 & _).
  destruct (sum_ok (order1 o (Cases input)) 0) as (t & ET & VT). { intros n y Y. apply (GC n). eapply Permutation_in; [apply Permutation_sym, O1|auto]. }
  assert (T : t == total_weight (Cases input)) by (rewrite VT, <- (perm_total _ _ O1); ring).
  destruct (fill_ok t (order2 o (Cases input)) [] [] m m) as (G & m' & EF & HG & HS & HM).
  - intros n y Y. destruct (GC n y) as (c & w & E1 & E2 & _); [eapply Permutation_in; [apply Permutation_sym, O2|auto]|eauto].
  - eapply perm_names; [exact O2|auto].
  - split; [constructor|]. intros g l. split; [intros []|]. intros [-> X]. elim X. auto.
  - auto.
  - auto.
  - intros k v. split; [auto|]. intros [(n & c & [] & _)|X]. auto.
  - exists t, G, m'. split; [auto|]. split; [rewrite (sum_red _ _ _ ET eq_refl); apply Qred_complete; auto|]. split.
    + destruct (Qeq_bool t 0) eqn:E; [|auto]. apply Qeq_bool_iff in E. rewrite T in E. rewrite E in POS. elim (Qlt_irrefl _ POS).
    + split; [auto|]. split; [eapply grouped_perm; [apply O3|exact HG]|]. split; [auto|]. intros k v. rewrite HM. cbn [app].
      split; (intros [X|X]; [left|auto]); eapply case_file_perm; try exact X; [apply Permutation_sym|]; auto.
Qed.

Lemma order_irrelevant o o' input : any_order o -> any_order o' -> NoDup (map fst (Cases input)) -> good_cases (Cases input) -> New o input = New o' input.
Proof.
  intros HO HO' ND GC. unfold NewLiteralInputFactory. destruct (build_validator (Validator input) []) as [[v m]|r|] eqn:EV; cbn [andThen]; auto.
  destruct (loops o _ _ _ HO ND GC EV) as (t & G & m1 & E1 & T1 & Z1 & F1 & G1 & S1 & M1). destruct (loops o' _ _ _ HO' ND GC EV) as (t' & G' & m2 & E2 & T2 & _ & F2 & G2 & S2 & M2).
  subst t'. rewrite <- T1 in *. rewrite E1, E2. cbn [andThen]. rewrite Z1, F1, F2. cbn [andThen].
  assert (m2 = m1). { eapply sorted_unique; eauto. intros [k w]. rewrite M1, M2. reflexivity. } subst m2.
  assert (S : sort g_Name (map mkgroup (order3 o G)) = sort g_Name (map mkgroup (order3 o' G'))).
  { eapply sort_groups; [| |exact G1|exact G2]; [eapply perm_names; [apply HO|auto]|]. etransitivity; [apply Permutation_sym, HO|apply HO']. }
  change (fun '(name, g) => {| g_Name := name; g_Cases := sort c_Name g |}) with mkgroup. rewrite S. auto.
Qed.

Lemma accepted_good o input f : any_order o -> New o input = Accepted f -> good_cases (Cases input).
Proof.
  intros (O1 & _) E. unfold NewLiteralInputFactory in E. destruct (build_validator _ _) as [[v m]|r|]; cbn [andThen] in E; try discriminate.
  destruct (List.length (Cases input) =? 0)%nat eqn:EL; [discriminate|]. destruct (sum_weights _ 0) as [t|r|] eqn:ES; cbn [andThen] in E; try discriminate.
  destruct (Qeq_bool t 0) eqn:EZ; [discriminate|]. assert (I := sum_inv _ _ _ ES). specialize (O1 (Cases input)).
  assert (GC : forall n x, In (n, x) (Cases input) -> exists c w, x = Some c /\ Weight c = Some w /\ 0 <= w) by (intros n x X; apply (I n); eapply Permutation_in; eauto).
  split; [intros X; rewrite X in EL; discriminate|]. split; [exact GC|].
  destruct (sum_ok (order1 o (Cases input)) 0 I) as (t' & ES' & V). rewrite ES in ES'. injection ES' as <-.
  assert (T : t == total_weight (Cases input)) by (rewrite V, <- (perm_total _ _ O1); ring).
  assert (P : 0 <= total_weight (Cases input)).
  { unfold total_weight. clear - GC. induction (Cases input) as [|[n x] l IH]; cbn [map total]; [apply Qle_refl|]. destruct (GC n x (or_introl eq_refl)) as (c & w & -> & EW & P).
    replace (weight_of (n, Some c)) with w by (unfold weight_of; cbn; rewrite EW; auto). rewrite <- (Qplus_0_l 0). apply Qplus_le_compat; [auto|]. apply IH. intros; eapply GC; right; eauto. }
  apply Qle_lteq in P. destruct P as [P|P]; [auto|]. exfalso. rewrite <- P in T. apply Qeq_bool_iff in T. congruence.
Qed.
End Main.

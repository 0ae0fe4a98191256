(* C35, C36, C37: literal inputs. *)
From Coq Require Import String Ascii List Bool ZArith NArith QArith Sorted Permutation Lia.
From Verif Require InSpec.
From Verif Require Import GoStr LitModel LitSpec LitProofs.
Import ListNotations.
Local Open Scope string_scope.

(* ---- C35 ---- *)
(* An accepted input becomes the same input, with the same settings, files,
   archive, size and hash, in whatever order Go iterates over its maps. *)
Theorem C35_order : forall marshal make_tar sha1 libinteractive o o' input f,
  any_order o -> any_order o' -> NoDup (map fst (Cases input)) ->
  NewLiteralInputFactory marshal make_tar sha1 libinteractive o input = Accepted f ->
  NewLiteralInputFactory marshal make_tar sha1 libinteractive o' input = Accepted f.
Proof. intros mar tar sha lib o o' input f HO HO' ND E. rewrite <- E. symmetry. apply order_irrelevant; auto. exact (accepted_good _ _ _ _ _ _ _ HO E). Qed.
Print Assumptions C35_order.

Lemma sum_no_panic : forall cs acc, complete cs -> sum_weights cs acc <> Panics.
Proof.
  induction cs as [|[n x] cs IH]; intros acc H; cbn [sum_weights]; [discriminate|]. destruct (H n x (or_introl eq_refl)) as (c & w & -> & E). rewrite E. destruct (negb _); [discriminate|].
  apply IH. intros n' x' X. apply (H n'). right. auto.
Qed.
Lemma sum_reject : forall cs acc r, complete cs -> sum_weights cs acc = Rejected r -> exists n c w, has cs n c w /\ w < 0 /\ r = InvalidWeight w.
Proof.
  induction cs as [|[n x] cs IH]; intros acc r H; cbn [sum_weights]; [discriminate|]. destruct (H n x (or_introl eq_refl)) as (c & w & -> & E). rewrite E. destruct (Qle_bool 0 w) eqn:P; cbn [negb].
  - intros X. destruct (IH _ _ (fun n' x' X => H n' x' (or_intror X)) X) as (n' & c' & w' & [A B] & C & D). exists n', c', w'. repeat split; auto. right. auto.
  - intros X. injection X as <-. exists n, c, w. repeat split; auto; [left; auto|]. destruct (Qlt_le_dec w 0) as [L|L]; [auto|]. apply Qle_bool_iff in L. congruence.
Qed.
Lemma complete_perm l l' : Permutation l l' -> complete l -> complete l'.
Proof. intros P H n x X. apply (H n). eapply Permutation_in; [apply Permutation_sym, P|auto]. Qed.

(* Without nil entries nothing panics, and the reason of a rejection is the same
   except for which of the negative weights is named. *)
Theorem C35_rejected : forall marshal make_tar sha1 libinteractive o o' input r,
  any_order o -> any_order o' -> NoDup (map fst (Cases input)) -> complete (Cases input) ->
  NewLiteralInputFactory marshal make_tar sha1 libinteractive o input <> Panics /\
  (NewLiteralInputFactory marshal make_tar sha1 libinteractive o input = Rejected r ->
   NewLiteralInputFactory marshal make_tar sha1 libinteractive o' input = Rejected r \/
   exists n c w n' c' w', r = InvalidWeight w /\ has (Cases input) n c w /\ w < 0 /\
     NewLiteralInputFactory marshal make_tar sha1 libinteractive o' input = Rejected (InvalidWeight w') /\ has (Cases input) n' c' w' /\ w' < 0).
Proof.
  intros mar tar sha lib o o' input r HO HO' ND HC.
  assert (GOOD : (good_cases (Cases input)) \/ ~ good_cases (Cases input)).
  { destruct (sum_weights (order1 o (Cases input)) 0) as [t|r0|] eqn:E.
    - destruct (Cases input) as [|x l] eqn:EC; [right; intros [X _]; congruence|]. rewrite <- EC in *. destruct (Qlt_le_dec 0 (total_weight (Cases input))) as [L|L].
      + left. split; [congruence|]. split; [|auto]. intros n y Y. apply (sum_inv _ _ _ E n). eapply Permutation_in; [apply (proj1 HO)|auto].
      + right. intros (_ & _ & X). eapply Qlt_not_le; eauto.
    - right. intros (_ & X & _). destruct (sum_ok (order1 o (Cases input)) 0) as (t & ET & _); [|congruence]. intros n y Y. apply (X n). eapply Permutation_in; [apply Permutation_sym, (proj1 HO)|auto].
    - elim (sum_no_panic (order1 o (Cases input)) 0); auto. eapply complete_perm; [apply (proj1 HO)|auto]. }
  destruct GOOD as [GOOD|BAD].
  - rewrite <- (order_irrelevant mar tar sha lib o o' input) by auto. split; [|auto].
    unfold NewLiteralInputFactory. destruct (build_validator (Validator input) []) as [[v m]|r'|] eqn:EV; cbn [andThen]; [|discriminate|].
    + destruct (_ =? 0)%nat; [discriminate|]. destruct (loops o _ _ _ HO ND GOOD EV) as (t & G & m1 & E1 & T1 & Z1 & F1 & _). rewrite E1. cbn [andThen]. rewrite Z1, F1. cbn [andThen].
      unfold build_interactive. destruct (Interactive input) as [i|]; [destruct (negb _); [discriminate|]; destruct (negb _); [discriminate|]; destruct (lib _ _ _); [|discriminate]|]; cbn [andThen];
        destruct (mar _); try discriminate; destruct (tar _); discriminate.
    + unfold build_validator in EV. destruct (_ =? "custom"); [destruct (CustomValidator _)|destruct (existsb _ _); [|destruct (_ =? _)]]; discriminate.
  - unfold NewLiteralInputFactory. destruct (build_validator (Validator input) []) as [[v m]|r'|] eqn:EV; cbn [andThen].
    2: split; [discriminate|auto].
    2: unfold build_validator in EV; destruct (_ =? "custom"); [destruct (CustomValidator _)|destruct (existsb _ _); [|destruct (_ =? _)]]; discriminate.
    destruct (_ =? 0)%nat eqn:EL; [split; [discriminate|auto]|].
    assert (C1 := complete_perm _ _ (proj1 HO (Cases input)) HC). assert (C2 := complete_perm _ _ (proj1 HO' (Cases input)) HC).
    assert (NP := sum_no_panic (order1 o (Cases input)) 0 C1). assert (NP' := sum_no_panic (order1 o' (Cases input)) 0 C2).
    assert (NZ : forall o0 t, any_order o0 -> sum_weights (order1 o0 (Cases input)) 0 = Accepted t -> Qeq_bool t 0 = true).
    { intros o0 t H0 ES. destruct (Qeq_bool t 0) eqn:EZ; [auto|]. exfalso. apply BAD. assert (I := sum_inv _ _ _ ES).
      assert (GC : forall n x, In (n, x) (Cases input) -> exists c w, x = Some c /\ Weight c = Some w /\ 0 <= w) by (intros n x X; apply (I n); eapply Permutation_in; [apply (proj1 H0)|eauto]).
      split; [intros X; rewrite X in EL; discriminate|]. split; [exact GC|]. destruct (sum_ok _ 0 I) as (t' & ES' & V). rewrite ES in ES'. injection ES' as <-.
      assert (T : t == total_weight (Cases input)) by (rewrite V, <- (perm_total _ _ (proj1 H0 (Cases input))); ring).
      assert (P : 0 <= total_weight (Cases input)).
      { unfold total_weight. clear - GC. induction (Cases input) as [|[n x] l IH]; cbn [map total]; [apply Qle_refl|]. destruct (GC n x (or_introl eq_refl)) as (c & w & -> & EW & P).
        replace (weight_of (n, Some c)) with w by (unfold weight_of; cbn; rewrite EW; auto). rewrite <- (Qplus_0_l 0). apply Qplus_le_compat; [auto|]. apply IH. intros; eapply GC; right; eauto. }
      apply Qle_lteq in P. destruct P as [P|P]; [auto|]. exfalso. rewrite <- P in T. apply Qeq_bool_iff in T. congruence. }
    destruct (sum_weights (order1 o (Cases input)) 0) as [t|r1|] eqn:E1; cbn [andThen]; [|split; [discriminate|]|congruence].
    + rewrite (NZ o t HO E1). split; [discriminate|]. intros X. left. destruct (sum_weights (order1 o' (Cases input)) 0) as [t'|r2|] eqn:E2; cbn [andThen]; [rewrite (NZ o' t' HO' E2); auto| |congruence].
      exfalso. destruct (sum_reject _ _ _ C2 E2) as (n & c & w & [A B] & L & _). apply (Permutation_in _ (Permutation_sym (proj1 HO' _))) in A. apply (Permutation_in _ (proj1 HO _)) in A.
      destruct (sum_inv _ _ _ E1 _ _ A) as (c' & w' & Y & W & P). injection Y as <-. rewrite B in W. injection W as <-. apply (Qlt_not_le _ _ L P).
    + intros X. injection X as <-. destruct (sum_reject _ _ _ C1 E1) as (n & c & w & [A B] & L & ->). apply (Permutation_in _ (Permutation_sym (proj1 HO _))) in A.
      destruct (sum_weights (order1 o' (Cases input)) 0) as [t'|r2|] eqn:E2; cbn [andThen]; [| |congruence].
      * exfalso. apply (Permutation_in _ (proj1 HO' _)) in A. destruct (sum_inv _ _ _ E2 _ _ A) as (c' & w' & Y & W & P). injection Y as <-. rewrite B in W. injection W as <-. apply (Qlt_not_le _ _ L P).
      * destruct (sum_reject _ _ _ C2 E2) as (n' & c' & w' & [A' B'] & L' & ->). apply (Permutation_in _ (Permutation_sym (proj1 HO' _))) in A'. right. exists n, c, w, n', c', w'. unfold has. auto 10.
Qed.
Print Assumptions C35_rejected.

(* With a nil entry the order decides between an error and a panic. *)
Definition keep : orders := {| order1 := fun l => l; order2 := fun l => l; order3 := fun l => l |}.
Definition turn : orders := {| order1 := @rev _; order2 := @rev _; order3 := @rev _ |}.
Lemma keep_order : any_order keep. Proof. repeat split; cbn; auto. Qed.
Lemma turn_order : any_order turn. Proof. repeat split; cbn; intros; apply Permutation_rev. Qed.
Theorem C35_nil_refuted : forall marshal make_tar sha1 libinteractive, exists input, NoDup (map fst (Cases input)) /\
  NewLiteralInputFactory marshal make_tar sha1 libinteractive keep input = Panics /\
  NewLiteralInputFactory marshal make_tar sha1 libinteractive turn input = Rejected (InvalidWeight (-1)).
Proof.
  intros. exists {| Cases := [("a", None); ("b", Some {| Input := ""; ExpectedOutput := ""; Weight := Some (-1) |})]; Limits := None; Validator := None; Interactive := None |}.
  split; [|split; reflexivity]. repeat constructor; cbn; intuition discriminate.
Qed.
Print Assumptions C35_nil_refuted.

(* ---- C36 ---- *)
(* Which inputs are accepted. *)
Theorem C36_accepted : forall marshal make_tar sha1 libinteractive o input,
  (forall s, marshal s <> None) -> (forall m, make_tar m <> None) -> (forall a b c, libinteractive a b c <> None) ->
  any_order o -> NoDup (map fst (Cases input)) ->
  ((exists f, NewLiteralInputFactory marshal make_tar sha1 libinteractive o input = Accepted f) <->
   good_validator (Validator input) /\ good_cases (Cases input) /\ good_interactive (Interactive input)).
Proof.
  intros mar tar sha lib o input HM HT HL HO ND.
  assert (V : good_validator (Validator input) <-> exists x, build_validator (Validator input) [] = Accepted x).
  { unfold good_validator, build_validator. destruct (Validator input) as [v|]; [|split; [cbn; eauto|auto]]. cbn [existsb].
    destruct (String.eqb_spec (Name v) "custom") as [->|N1].
    - destruct (CustomValidator v); [split; [eauto|right; split; [auto|discriminate]]|]. split; [|intros (x & X); discriminate]. intros [X|[_ X]]; [|congruence]. exfalso. cbn in X. repeat (destruct X as [X|X]; [discriminate|]). exact X.
    - destruct (String.eqb_spec (Name v) "token") as [E|N2]; [cbn; split; [eauto|intros _; left; cbn; auto]|].
      destruct (String.eqb_spec (Name v) "token-caseless") as [E|N3]; [cbn; split; [eauto|intros _; left; cbn; auto]|].
      destruct (String.eqb_spec (Name v) "literal") as [E|N4]; [cbn; split; [eauto|intros _; left; cbn; auto]|]. cbn [orb].
      destruct (String.eqb_spec (Name v) "token-numeric") as [E|N5]; [cbn; split; [eauto|intros _; left; cbn; auto 6]|].
      split; [|intros (x & X); discriminate]. intros [X|[X _]]; [|congruence]. cbn in X. exfalso. intuition. }
  assert (I : forall m, good_interactive (Interactive input) <-> exists x, build_interactive lib (Interactive input) m = Accepted x).
  { intros m. unfold good_interactive, build_interactive. destruct (Interactive input) as [i|]; [|split; [eauto|auto]].
    assert (L : In (ParentLang i) languages <-> validateLanguage (ParentLang i) = true).
    { unfold validateLanguage. rewrite existsb_exists. split; [intros X; exists (ParentLang i); split; [exact X|apply String.eqb_refl]|]. intros (x & X & E). apply String.eqb_eq in E. subst. exact X. }
    assert (W : good_interface (ModuleName i) <-> validateInterface (ModuleName i) = true).
    { unfold good_interface, validateInterface. generalize (ModuleName i) as s. intros s. split.
      - intros (c & rest & -> & NE & LEN & C & R). replace (String.length (String c rest) =? 0)%nat with false by reflexivity. replace (32 <? String.length (String c rest))%nat with false by (symmetry; apply Nat.ltb_ge; auto).
        cbn [list_ascii_of_string]. destruct rest as [|d rest]; [congruence|]. cbn [list_ascii_of_string]. apply andb_true_iff. split.
        + apply orb_true_iff. destruct C as [C| ->]; auto.
        + apply forallb_forall. intros x X. apply orb_true_iff. destruct (R x X) as [Y|Y]; auto.
      - destruct (String.length s =? 0)%nat; [discriminate|]. destruct (Nat.ltb_spec 32 (String.length s)); [discriminate|]. destruct s as [|c [|d rest]]; try discriminate. cbn [list_ascii_of_string].
        intros H0. apply andb_true_iff in H0. destruct H0 as [C R]. exists c, (String d rest). split; [auto|]. split; [discriminate|]. split; [auto|]. split.
        + apply orb_true_iff in C. destruct C as [C|C]; [auto|]. apply Ascii.eqb_eq in C. auto.
        + rewrite forallb_forall in R. intros x X. specialize (R x X). apply orb_true_iff in R. tauto. }
    rewrite L, W. destruct (validateLanguage _); cbn [negb]; [|split; [intros [X _]; discriminate|intros (x & X); discriminate]].
    destruct (validateInterface _); cbn [negb]; [|split; [intros [_ X]; discriminate|intros (x & X); discriminate]].
    destruct (lib _ _ _) eqn:E; [split; eauto|]. elim (HL _ _ _ E). }
  split.
  - intros (f & E). assert (GC := accepted_good _ _ _ _ _ _ _ HO E). split; [|split; [auto|]].
    + apply V. unfold NewLiteralInputFactory in E. destruct (build_validator _ _); [eauto|discriminate|discriminate].
    + unfold NewLiteralInputFactory in E. destruct (build_validator (Validator input) []) as [[v m]|r|] eqn:EV; cbn [andThen] in E; try discriminate.
      destruct (_ =? 0)%nat; [discriminate|]. destruct (loops o _ _ _ HO ND GC EV) as (t & G & m1 & E1 & T1 & Z1 & F1 & _). rewrite E1 in E. cbn [andThen] in E. rewrite Z1, F1 in E. cbn [andThen] in E.
      apply (I m1). destruct (build_interactive _ _ _); [eauto|discriminate|discriminate].
  - intros (GV & GC & GI). apply V in GV. destruct GV as ([v m] & EV). unfold NewLiteralInputFactory. rewrite EV. cbn [andThen].
    destruct (Nat.eqb_spec (List.length (Cases input)) 0) as [X|_]; [destruct GC as [NE _]; destruct (Cases input); [congruence|discriminate]|].
    destruct (loops o _ _ _ HO ND GC EV) as (t & G & m1 & E1 & T1 & Z1 & F1 & _). rewrite E1. cbn [andThen]. rewrite Z1, F1. cbn [andThen].
    apply (I m1) in GI. destruct GI as ([i m2] & EI). rewrite EI. cbn [andThen]. destruct (mar _) eqn:EM; [|elim (HM _ EM)]. destruct (tar _) eqn:ET; [eauto|elim (HT _ ET)].
Qed.
Print Assumptions C36_accepted.

(* What an accepted input says, inverted once for all. *)
Lemma accepted_inv mar tar sha lib o input f : any_order o -> NoDup (map fst (Cases input)) -> NewLiteralInputFactory mar tar sha lib o input = Accepted f ->
  exists v m m1 i m2 json G t, build_validator (Validator input) [] = Accepted (v, m) /\ build_interactive lib (Interactive input) m1 = Accepted (i, m2) /\
    t = Qred (total_weight (Cases input)) /\ grouped t (order2 o (Cases input)) G /\ sorted_files m1 /\ (forall k w, In (k, w) m1 <-> case_file (Cases input) k w \/ In (k, w) m) /\
    f_settings f = {| s_Cases := sort g_Name (map mkgroup G); s_Interactive := i; s_Limits := build_limits (Limits input); s_Slow := true; s_Validator := v |} /\
    mar (f_settings f) = Some json /\ f_files f = store m2 "settings.json" json /\ tar (f_files f) = Some (f_tar f) /\ f_hash f = sha (f_tar f) /\ f_size f = total_size (f_files f).
Proof.
  intros HO ND E. assert (GC := accepted_good _ _ _ _ _ _ _ HO E). unfold NewLiteralInputFactory in E.
  destruct (build_validator (Validator input) []) as [[v m]|r|] eqn:EV; cbn [andThen] in E; try discriminate.
  destruct (_ =? 0)%nat; [discriminate|]. destruct (loops o _ _ _ HO ND GC EV) as (t & G & m1 & E1 & T1 & Z1 & F1 & G1 & S1 & M1). rewrite E1 in E. cbn [andThen] in E. rewrite Z1, F1 in E. cbn [andThen] in E.
  destruct (build_interactive _ _ _) as [[i m2]|r|] eqn:EI; cbn [andThen] in E; try discriminate. destruct (mar _) as [json|] eqn:EM; [|discriminate]. destruct (tar _) as [ar|] eqn:ET; [|discriminate].
  injection E as <-. exists v, m, m1, i, m2, json, (order3 o G), t. cbn [f_settings f_files f_tar f_hash f_size]. repeat (split; [first [assumption|reflexivity]|]). reflexivity.
Qed.

(* The settings: every case is there, once, with its share of the weight, in the
   group with the text before the first dot of its name, and nothing else is;
   groups and cases are sorted; the problem counts as slow. *)
Theorem C36_settings : forall marshal make_tar sha1 libinteractive o input f,
  any_order o -> NoDup (map fst (Cases input)) ->
  NewLiteralInputFactory marshal make_tar sha1 libinteractive o input = Accepted f ->
  let s := f_settings f in
  (forall g c, (exists cs, In {| g_Name := g; g_Cases := cs |} (s_Cases s) /\ In c cs) <->
     exists lc w, has (Cases input) (c_Name c) lc w /\ group_of (c_Name c) g /\ c_Weight c = Qred (w / total_weight (Cases input))) /\
  (forall g, In g (s_Cases s) -> g_Cases g <> [] /\ StronglySorted (fun x y => before (c_Name x) (c_Name y)) (g_Cases g)) /\
  StronglySorted (fun x y => before (g_Name x) (g_Name y)) (s_Cases s) /\ s_Slow s = true.
Proof.
  intros mar tar sha lib o input f HO ND E s. assert (GC := accepted_good _ _ _ _ _ _ _ HO E).
  destruct (accepted_inv _ _ _ _ _ _ _ HO ND E) as (v & m & m1 & i & m2 & json & G & t & EV & EI & T & HG & S1 & M1 & ES & EM & EF & _). unfold s. rewrite ES. cbn [s_Cases s_Slow].
  assert (IN : forall x, In x (sort g_Name (map mkgroup G)) <-> members (order2 o (Cases input)) (g_Name x) <> [] /\ g_Cases x = sort c_Name (map (mk t) (members (order2 o (Cases input)) (g_Name x)))).
  { intros x. rewrite <- (groups_in _ _ _ _ HG). split; apply Permutation_in; [apply Permutation_sym|]; apply sort_perm. }
  assert (O2 := proj1 (proj2 HO) (Cases input)). assert (ND2 := perm_names _ _ O2 ND).
  split; [|split; [|split]].
  - intros g c. split.
    + intros (cs & X & Y). apply IN in X. cbn [g_Name g_Cases] in X. destruct X as [_ ->]. apply (Permutation_in _ (Permutation_sym (sort_perm _ _))) in Y. apply in_map_iff in Y.
      destruct Y as ([n x] & <- & Y). apply filter_In in Y. destruct Y as [Y1 Y2]. apply String.eqb_eq in Y2. apply (Permutation_in _ (Permutation_sym O2)) in Y1. cbn [fst] in Y2.
      destruct (proj1 (proj2 GC) _ _ Y1) as (lc & w & -> & EW & _). exists lc, w. unfold mk. cbn [c_Name c_Weight fst].
      split; [split; auto|]. split; [rewrite <- Y2; apply before_dot_spec|]. replace (weight_of (n, Some lc)) with w by (unfold weight_of; cbn; rewrite EW; auto).
      apply Qred_complete. rewrite T, Qred_correct. reflexivity.
    + intros (lc & w & [X EW] & GO & EC). apply group_of_unique in GO. subst g.
      assert (Y : In (c_Name c, Some lc) (members (order2 o (Cases input)) (before_dot (c_Name c)))) by (apply filter_In; split; [eapply Permutation_in; eauto|cbn; apply String.eqb_refl]).
      eexists. split; [apply IN; cbn [g_Name g_Cases]; split; [intros Z; rewrite Z in Y; elim Y|reflexivity]|].
      apply (Permutation_in _ (sort_perm _ _)). apply in_map_iff. exists (c_Name c, Some lc). split; [|auto]. unfold mk. cbn [fst]. destruct c as [n w']. cbn [c_Name c_Weight] in *. f_equal.
      replace (weight_of (n, Some lc)) with w by (unfold weight_of; cbn; rewrite EW; auto). rewrite EC. apply Qred_complete. rewrite T, Qred_correct. reflexivity.
  - intros g X. apply IN in X. destruct X as [NE ->]. split.
    + intros Z. apply NE. assert (P := sort_perm c_Name (map (mk t) (members (order2 o (Cases input)) (g_Name g)))). rewrite Z in P. apply Permutation_sym, Permutation_nil in P. destruct (members _ _); [auto|discriminate].
    + apply (sort_sorted c_Name). rewrite mk_names. apply members_nodup. auto.
  - apply (sort_sorted g_Name). rewrite group_names. apply HG.
  - auto.
Qed.
Print Assumptions C36_settings.

(* The weights are shares: not negative, and together exactly one. *)
Lemma total_app a b : total (a ++ b) == total a + total b.
Proof. induction a as [|x a IH]; cbn [total app]; [ring|]. rewrite IH. ring. Qed.
Lemma perm_filter {A} (p : A -> bool) l : Permutation l (filter p l ++ filter (fun x => negb (p x)) l).
Proof. induction l as [|x l IH]; cbn; [auto|]. destruct (p x); cbn; [constructor; auto|]. apply Permutation_cons_app. auto. Qed.
Lemma groups_total t cs : forall G, grouped t cs G -> Permutation (map (mk t) cs) (concat (map snd G)).
Proof.
  intros G. revert cs. induction G as [|[g l] G IH]; intros cs [ND H].
  - destruct cs as [|x cs]; [auto|]. exfalso. apply (H (before_dot (fst x)) (map (mk t) (members (x :: cs) (before_dot (fst x))))). unfold members. cbn. rewrite String.eqb_refl. split; [auto|discriminate].
  - cbn [map concat snd]. cbn in ND. inversion ND as [|? ? N1 N2]; subst. destruct (proj1 (H g l) (or_introl eq_refl)) as [-> NE].
    etransitivity; [apply Permutation_map, (perm_filter (fun x => before_dot (fst x) =? g))|]. rewrite map_app. apply Permutation_app; [reflexivity|]. apply IH. split; [auto|].
    intros k l'. assert (MM : k <> g -> members (filter (fun x => negb (before_dot (fst x) =? g)) cs) k = members cs k).
    { intros NK. unfold members. clear - NK. induction cs as [|x cs IH]; cbn; [auto|]. destruct (String.eqb_spec (before_dot (fst x)) g) as [E|E]; cbn.
      - destruct (String.eqb_spec (before_dot (fst x)) k); [congruence|auto].
      - destruct (before_dot (fst x) =? k); [f_equal|]; auto. }
    assert (MG : members (filter (fun x => negb (before_dot (fst x) =? g)) cs) g = []).
    { unfold members. clear. induction cs as [|x cs IH]; cbn; [auto|]. destruct (before_dot (fst x) =? g) eqn:E; cbn; [auto|]. rewrite E. auto. }
    destruct (String.eqb_spec k g) as [->|NK].
    + rewrite MG. split; [|intros [-> X]; elim X; auto]. intros X. elim N1. apply in_map_iff. exists (g, l'). auto.
    + rewrite (MM NK). rewrite <- H. split; [intros X; right; auto|]. intros [X|X]; [|auto]. injection X as <- _. congruence.
Qed.
Theorem C36_weights : forall marshal make_tar sha1 libinteractive o input f,
  any_order o -> NoDup (map fst (Cases input)) ->
  NewLiteralInputFactory marshal make_tar sha1 libinteractive o input = Accepted f ->
  let all := map c_Weight (concat (map g_Cases (s_Cases (f_settings f)))) in
  (forall w, In w all -> 0 <= w <= 1) /\ total all == 1.
Proof.
  intros mar tar sha lib o input f HO ND E all. assert (GC := accepted_good _ _ _ _ _ _ _ HO E).
  destruct (accepted_inv _ _ _ _ _ _ _ HO ND E) as (v & m & m1 & i & m2 & json & G & t & EV & EI & T & HG & S1 & M1 & ES & _). unfold all. rewrite ES. cbn [s_Cases].
  assert (P : Permutation (map c_Weight (concat (map g_Cases (sort g_Name (map mkgroup G))))) (map (fun x => Qred (weight_of x / t)) (Cases input))).
  { transitivity (map c_Weight (map (mk t) (order2 o (Cases input)))).
    - apply Permutation_map. transitivity (concat (map g_Cases (map mkgroup G))).
      + rewrite <- !flat_map_concat_map. apply Permutation_flat_map. apply Permutation_sym, sort_perm.
      + symmetry. rewrite (groups_total _ _ _ HG). clear. induction G as [|[g l] G IH]; cbn; [auto|]. apply Permutation_app; [apply sort_perm|auto].
    - rewrite map_map. apply Permutation_map, Permutation_sym, HO. }
  destruct GC as (NE & GC & POS).
  assert (TT : t == total_weight (Cases input)) by (rewrite T; apply Qred_correct). assert (TP : 0 < t) by (rewrite TT; auto).
  assert (SUM : total (map (fun x => Qred (weight_of x / t)) (Cases input)) == 1).
  { assert (X : forall l, total (map (fun x => Qred (weight_of x / t)) l) == total_weight l / t).
    { induction l as [|x l IH]; unfold total_weight in *; cbn [map total]; [field; intros Z; rewrite Z in TP; apply (Qlt_irrefl _ TP)|]. rewrite IH, Qred_correct. field. intros Z. rewrite Z in TP. apply (Qlt_irrefl _ TP). }
    rewrite X, <- TT. field. intros Z. rewrite Z in TP. apply (Qlt_irrefl _ TP). }
  assert (NN : forall w, In w (map (fun x => Qred (weight_of x / t)) (Cases input)) -> 0 <= w).
  { intros w W. apply in_map_iff in W. destruct W as ([n x] & <- & W). rewrite Qred_correct. destruct (GC n x W) as (c & w & -> & EW & PW). replace (weight_of (n, Some c)) with w by (unfold weight_of; cbn; rewrite EW; auto).
    apply Qle_shift_div_l; [auto|]. rewrite Qmult_0_l. auto. }
  split; [|rewrite (total_perm _ _ P); exact SUM].
  intros w W. apply (Permutation_in _ P) in W. split; [apply NN; auto|]. rewrite <- SUM. clear - NN W.
  revert NN W. generalize (map (fun x => Qred (weight_of x / t)) (Cases input)) as l. induction l as [|x l IH]; intros NN W; [elim W|]. destruct W as [W|W]; cbn [total].
  - subst x. assert (0 <= total l). { assert (Z : forall w, In w l -> 0 <= w) by (intros; apply NN; right; auto). clear - Z. induction l as [|y l IH]; cbn [total]; [apply Qle_refl|]. rewrite <- (Qplus_0_l 0). apply Qplus_le_compat; [apply Z; left; auto|apply IH; intros; apply Z; right; auto]. }
    rewrite <- (Qplus_0_r w) at 1. apply Qplus_le_compat; [apply Qle_refl|auto].
  - rewrite <- (Qplus_0_l w). apply Qplus_le_compat; [apply NN; left; auto|]. apply IH; [intros; apply NN; right; auto|auto].
Qed.
Print Assumptions C36_weights.

(* The files: both files of every case, settings.json, the sources; no others,
   and none overwrites another.  The archive has exactly these. *)
Lemma prefix_differs a b x y : (a ++ x = b ++ y)%string -> String.length a = String.length b -> a = b.
Proof. revert b. induction a as [|c a IH]; intros [|d b] E L; cbn in *; try discriminate; auto. injection E as -> E. injection L as L. f_equal. eauto. Qed.
Lemma not_idl l : In l languages -> LanguageFileExtension l <> "idl".
Proof. intros H. cbn in H. repeat (destruct H as [<-|H]; [cbn; discriminate|]). elim H. Qed.
(* The extension of the Main file is that of its language. *)
Theorem C36_extension : forall l e, In (l, e) extensions -> LanguageFileExtension l = e.
Proof. intros l e H. cbn in H. repeat (destruct H as [H|H]; [injection H as <- <-; reflexivity|]). elim H. Qed.
Print Assumptions C36_extension.
Lemma no_dot_suffix a b x y : ~ contains "." x -> ~ contains "." y -> (a ++ String "." x = b ++ String "." y)%string -> x = y.
Proof.
  intros Hx Hy. revert b. induction a as [|c a IH]; intros [|d b] E; cbn in E.
  - injection E. auto.
  - injection E as <- E. exfalso. apply Hx. rewrite E. apply contains_app. right. left. auto.
  - injection E as -> E. exfalso. apply Hy. rewrite <- E. apply contains_app. right. left. auto.
  - injection E as _ E. eauto.
Qed.
Theorem C36_files : forall marshal make_tar sha1 libinteractive o input f,
  any_order o -> NoDup (map fst (Cases input)) ->
  NewLiteralInputFactory marshal make_tar sha1 libinteractive o input = Accepted f ->
  exists json, marshal (f_settings f) = Some json /\
    (forall k v, In (k, v) (f_files f) <-> has_file input json k v) /\ StronglySorted (fun x y => before (fst x) (fst y)) (f_files f) /\
    make_tar (f_files f) = Some (f_tar f) /\ f_hash f = sha1 (f_tar f).
Proof.
  intros mar tar sha lib o input f HO ND E. assert (GC := accepted_good _ _ _ _ _ _ _ HO E).
  destruct (accepted_inv _ _ _ _ _ _ _ HO ND E) as (v & m & m1 & i & m2 & json & G & t & EV & EI & T & HG & S1 & M1 & ES & EM & EF & ET & EH & _).
  destruct (validator_files _ _ _ EV) as (V1 & V2 & V3).
  assert (X : sorted_files m2 /\ forall k w, In (k, w) m2 <-> In (k, w) m1 \/ exists li, Interactive input = Some li /\
     ((k = ("interactive/Main." ++ LanguageFileExtension (ParentLang li))%string /\ w = MainSource li) \/ (k = ("interactive/" ++ ModuleName li ++ ".idl")%string /\ w = IDLSource li))).
  { unfold build_interactive in EI. destruct (Interactive input) as [li|] eqn:EL.
    2: injection EI as <- <-; split; [auto|]; intros k w; split; [auto|]; intros [X|(li & X & _)]; [auto|discriminate].
    destruct (validateLanguage (ParentLang li)) eqn:VL; [|discriminate]. destruct (validateInterface (ModuleName li)); [|discriminate]. cbn [negb] in EI. destruct (lib _ _ _) as [x|]; [|discriminate]. injection EI as <- <-.
    split; [apply store_sorted, store_sorted; auto|]. intros k w. rewrite store_in by (apply store_sorted; auto). rewrite store_in by auto.
    assert (NM : forall k w s, In (k, w) m1 -> k <> ("interactive/" ++ s)%string).
    { intros k0 w0 s Y ->. apply M1 in Y. destruct Y as [(n & c & _ & [[Y _]|[Y _]])|Y]; [unfold in_name in Y; discriminate|unfold out_name in Y; discriminate|].
      apply V3 in Y. destruct Y as (lv & c & _ & _ & _ & Y & _). discriminate. }
    assert (NEQ : ("interactive/Main." ++ LanguageFileExtension (ParentLang li) <> "interactive/" ++ ModuleName li ++ ".idl")%string).
    { intros Z. assert (In (ParentLang li) languages) as IL.
      { unfold validateLanguage in VL. apply existsb_exists in VL. destruct VL as (y & Y & E'). apply String.eqb_eq in E'. subst. exact Y. }
      apply (not_idl _ IL). change ("interactive/Main." ++ LanguageFileExtension (ParentLang li))%string with ("interactive/" ++ ("Main" ++ String "." (LanguageFileExtension (ParentLang li))))%string in Z.
      cbn [append] in Z. injection Z as Z. change (String "M" (String "a" (String "i" (String "n" (String "." (LanguageFileExtension (ParentLang li))))))) with ("Main" ++ String "." (LanguageFileExtension (ParentLang li)))%string in Z.
      change ".idl" with (String "." "idl") in Z. apply no_dot_suffix in Z; [auto| |].
      - clear - IL. cbn in IL. repeat (destruct IL as [<-|IL]; [cbn; unfold contains; cbn; intuition discriminate|]). elim IL.
      - unfold contains. cbn. intuition discriminate. }
    split.
    - intros [[-> ->]|[N1 [[-> ->]|[N2 Y]]]]; [right; exists li; auto|right; exists li; auto|left; auto].
    - intros [Y|(li' & Z & [[-> ->]|[-> ->]])].
      + right. split; [apply (NM k w (ModuleName li ++ ".idl") Y)|]. right. split; [apply (NM k w ("Main." ++ LanguageFileExtension (ParentLang li)) Y)|auto].
      + injection Z as <-. right. split; [exact NEQ|]. left. auto.
      + injection Z as <-. auto. }
  destruct X as [S2 M2]. exists json. split; [auto|]. split; [|split; [rewrite EF; apply store_sorted; auto|auto]].
  intros k w. rewrite EF, store_in, M2, M1, V3 by auto. split.
  - intros [[-> ->]|[N [[(n & c & X & [[-> ->]|[-> ->]])|(lv & c & A & B & C & -> & ->)]|(li & X & [[-> ->]|[-> ->]])]]].
    + apply settings_file.
    + apply case_in. auto.
    + apply case_out. auto.
    + eapply validator_file; eauto.
    + apply main_file. auto.
    + apply idl_file. auto.
  - intros X. destruct X as [name c X|name c X| |lv c A B C|li X|li X].
    + right. split; [discriminate|]. left. left. exists name, c. auto.
    + right. split; [discriminate|]. left. left. exists name, c. auto.
    + auto.
    + right. split; [discriminate|]. left. right. exists lv, c. auto.
    + right. split; [discriminate|]. right. exists li. auto.
    + right. split; [discriminate|]. right. exists li. auto.
Qed.
Print Assumptions C36_files.

(* Names are not checked: the name of a case, or the language of a validator, can
   make a file that climbs out of the directory. *)
Theorem C36_names_refuted : forall sha1 libinteractive make_tar marshal, (forall s, marshal s <> None) -> (forall m, make_tar m <> None) ->
  exists input f, NoDup (map fst (Cases input)) /\ NewLiteralInputFactory marshal make_tar sha1 libinteractive keep input = Accepted f /\
    exists k v, In (k, v) (f_files f) /\ ~ InSpec.inside k /\ InModel.path_join ["home"; "input"; "ab"; "cdef"] k = ["home"; "evil.in"].
Proof.
  intros sha lib tar mar HM HT. set (input := {| Cases := [("../../../../evil", Some {| Input := "x"; ExpectedOutput := ""; Weight := Some 1 |})]; Limits := None; Validator := None; Interactive := None |}).
  assert (ND : NoDup (map fst (Cases input))) by (repeat constructor; cbn; intuition).
  destruct (NewLiteralInputFactory mar tar sha lib keep input) as [f|r|] eqn:E.
  - exists input, f. split; [auto|]. split; [auto|]. destruct (C36_files _ _ _ _ _ _ _ keep_order ND E) as (json & _ & HF & _).
    exists "cases/../../../../evil.in", "x". split; [apply HF, (case_in input json "../../../../evil" {| Input := "x"; ExpectedOutput := ""; Weight := Some 1 |}); left; auto|]. split; [|vm_compute; auto].
    intros X. apply X. vm_compute. auto.
  - exfalso. cbn in E. destruct (mar _) eqn:EM; [|elim (HM _ EM)]. destruct (tar _) eqn:ET; [discriminate|elim (HT _ ET)].
  - exfalso. cbn in E. destruct (mar _) eqn:EM; [|elim (HM _ EM)]. destruct (tar _) eqn:ET; [discriminate|elim (HT _ ET)].
Qed.
Print Assumptions C36_names_refuted.

(* ---- C37 ---- *)
(* The limits are the requested ones, capped; the defaults if none are given. *)
Theorem C37_limits : forall marshal make_tar sha1 libinteractive o input f,
  any_order o -> NoDup (map fst (Cases input)) ->
  NewLiteralInputFactory marshal make_tar sha1 libinteractive o input = Accepted f ->
  let l := s_Limits (f_settings f) in
  (TimeLimit l <= 10000000000 /\ OverallWallTimeLimit l <= 10000000000 /\ ExtraWallTime l <= 0 /\ MemoryLimit l <= 1610612736 /\ OutputLimit l <= 2097152)%Z /\
  match Limits input with
  | None => l = {| TimeLimit := 10000000000; OverallWallTimeLimit := 10000000000; ExtraWallTime := 0; MemoryLimit := 1610612736; OutputLimit := 2097152 |}
  | Some r => (TimeLimit r <= 10000000000 -> TimeLimit l = TimeLimit r)%Z /\ (OverallWallTimeLimit r <= 10000000000 -> OverallWallTimeLimit l = OverallWallTimeLimit r)%Z /\
              (ExtraWallTime r <= 0 -> ExtraWallTime l = ExtraWallTime r)%Z /\ (MemoryLimit r <= 1610612736 -> MemoryLimit l = MemoryLimit r)%Z /\ (OutputLimit r <= 2097152 -> OutputLimit l = OutputLimit r)%Z /\
              (TimeLimit l <= TimeLimit r /\ OverallWallTimeLimit l <= OverallWallTimeLimit r /\ ExtraWallTime l <= ExtraWallTime r /\ MemoryLimit l <= MemoryLimit r /\ OutputLimit l <= OutputLimit r)%Z
  end.
Proof.
  intros mar tar sha lib o input f HO ND E l. destruct (accepted_inv _ _ _ _ _ _ _ HO ND E) as (v & m & m1 & i & m2 & json & G & t & _ & _ & _ & _ & _ & _ & ES & _).
  unfold l. rewrite ES. cbn [s_Limits]. destruct (Limits input) as [r|]; cbn [build_limits].
  - cbn [TimeLimit OverallWallTimeLimit ExtraWallTime MemoryLimit OutputLimit DefaultLiteralLimitSettings].
    change (10 * Second)%Z with 10000000000%Z. change (Gibibyte + Gibibyte / 2)%Z with 1610612736%Z. change (2 * Mebibyte)%Z with 2097152%Z. lia.
  - split; [|reflexivity]. vm_compute. intuition discriminate.
Qed.
Print Assumptions C37_limits.

(* An ephemeral run with limits is also capped by the configuration... *)
Theorem C37_ephemeral : forall marshal make_tar sha1 libinteractive o cfg input r f,
  any_order o -> NoDup (map fst (Cases input)) -> Limits input = Some r ->
  NewLiteralInputFactory marshal make_tar sha1 libinteractive o (validateRequest cfg input) = Accepted f ->
  let l := s_Limits (f_settings f) in
  (TimeLimit l = Z.min (e_CaseTimeLimit cfg) (Z.min (TimeLimit r) 10000000000) /\
   OverallWallTimeLimit l = Z.min (e_OverallWallTimeLimit cfg) (Z.min (OverallWallTimeLimit r) 10000000000) /\
   MemoryLimit l = Z.min (e_MemoryLimit cfg) (Z.min (MemoryLimit r) 1610612736) /\
   ExtraWallTime l = Z.min (ExtraWallTime r) 0 /\ OutputLimit l = Z.min (OutputLimit r) 2097152)%Z.
Proof.
  intros mar tar sha lib o cfg input r f HO ND EL E l. assert (ND' : NoDup (map fst (Cases (validateRequest cfg input)))) by (unfold validateRequest; rewrite EL; exact ND).
  destruct (accepted_inv _ _ _ _ _ _ _ HO ND' E) as (v & m & m1 & i & m2 & json & G & t & _ & _ & _ & _ & _ & _ & ES & _).
  unfold l. rewrite ES. unfold validateRequest. rewrite EL. cbn [s_Limits Limits build_limits TimeLimit OverallWallTimeLimit ExtraWallTime MemoryLimit OutputLimit DefaultLiteralLimitSettings].
  change (10 * Second)%Z with 10000000000%Z. change (Gibibyte + Gibibyte / 2)%Z with 1610612736%Z. change (2 * Mebibyte)%Z with 2097152%Z. lia.
Qed.
Print Assumptions C37_ephemeral.
(* ... but one without limits is not: with the default configuration it gets half
   as much memory again as the cap. *)
Theorem C37_ephemeral_refuted : forall sha1 libinteractive make_tar marshal, (forall s, marshal s <> None) -> (forall m, make_tar m <> None) ->
  exists input f, NewLiteralInputFactory marshal make_tar sha1 libinteractive keep (validateRequest default_ephemeral_config input) = Accepted f /\
    (MemoryLimit (s_Limits (f_settings f)) = e_MemoryLimit default_ephemeral_config + e_MemoryLimit default_ephemeral_config / 2)%Z /\ (0 < e_MemoryLimit default_ephemeral_config)%Z.
Proof.
  intros sha lib tar mar HM HT. exists {| Cases := [("a", Some {| Input := "x"; ExpectedOutput := ""; Weight := Some 1 |})]; Limits := None; Validator := None; Interactive := None |}.
  cbn. destruct (mar _) eqn:EM; [|elim (HM _ EM)]. destruct (tar _) eqn:ET; [|elim (HT _ ET)]. eexists. split; [reflexivity|]. split; reflexivity.
Qed.
Print Assumptions C37_ephemeral_refuted.

(* The limits a custom validator asks for are not used: it runs with the default
   ones and the time limit of the problem. *)
Theorem C37_validator_limits : forall marshal make_tar sha1 libinteractive o input f,
  any_order o -> NoDup (map fst (Cases input)) ->
  NewLiteralInputFactory marshal make_tar sha1 libinteractive o input = Accepted f ->
  let s := f_settings f in
  v_Limits (s_Validator s) = None /\
  validatorLimits (s_Limits s) (v_Limits (s_Validator s)) =
    {| ExtraWallTime := 0; MemoryLimit := 268435456; OutputLimit := 10240; OverallWallTimeLimit := 5000000000; TimeLimit := TimeLimit (s_Limits s) |}.
Proof.
  intros mar tar sha lib o input f HO ND E s. destruct (accepted_inv _ _ _ _ _ _ _ HO ND E) as (v & m & m1 & i & m2 & json & G & t & EV & _ & _ & _ & _ & _ & ES & _).
  assert (V : v_Limits v = None).
  { unfold build_validator in EV. destruct (_ =? "custom"); [destruct (CustomValidator _); [|discriminate]|destruct (existsb _ _); [|destruct (_ =? _); [|discriminate]]]; injection EV as <- _; auto. }
  unfold s. rewrite ES. cbn [s_Validator s_Limits]. rewrite V. split; reflexivity.
Qed.
Print Assumptions C37_validator_limits.
(* The validator: the name; the language only for a custom one, the tolerance only
   for a numeric one. *)
Theorem C37_validator : forall marshal make_tar sha1 libinteractive o input f,
  any_order o -> NoDup (map fst (Cases input)) ->
  NewLiteralInputFactory marshal make_tar sha1 libinteractive o input = Accepted f ->
  let v := s_Validator (f_settings f) in
  match Validator input with
  | None => v_Name v = "token-caseless" /\ v_Lang v = None /\ v_Tolerance v = None
  | Some lv => v_Name v = Name lv /\
      (v_Lang v = if Name lv =? "custom" then match CustomValidator lv with Some c => Some (Language c) | None => None end else None) /\
      (v_Tolerance v = if Name lv =? "token-numeric" then match Tolerance lv with Some t => Some t | None => Some (1 # 1000000) end else None)
  end.
Proof.
  intros mar tar sha lib o input f HO ND E v0. destruct (accepted_inv _ _ _ _ _ _ _ HO ND E) as (v & m & m1 & i & m2 & json & G & t & EV & _ & _ & _ & _ & _ & ES & _).
  unfold v0. rewrite ES. cbn [s_Validator]. unfold build_validator in EV. destruct (Validator input) as [lv|]; [|injection EV as <- _; auto].
  destruct (String.eqb_spec (Name lv) "custom") as [E1|N1].
  - destruct (CustomValidator lv) as [c|]; [|discriminate]. injection EV as <- _. cbn. rewrite E1. auto.
  - destruct (existsb _ _) eqn:EX.
    + injection EV as <- _. cbn. split; [auto|]. split; [auto|]. destruct (String.eqb_spec (Name lv) "token-numeric") as [Z|]; [rewrite Z in EX; discriminate|auto].
    + destruct (Name lv =? "token-numeric"); [|discriminate]. injection EV as <- _. cbn. split; [auto|]. split; [auto|]. destruct (Tolerance lv); auto.
Qed.
Print Assumptions C37_validator.

(* ---- A case that meets the hypotheses ---- *)
Definition ex_input : literal_input := {|
  Cases := [("sub.b", Some {| Input := "1"; ExpectedOutput := "2"; Weight := Some 1 |}); ("easy", Some {| Input := "3"; ExpectedOutput := "4"; Weight := Some (1 # 2) |}); ("sub.a.x", Some {| Input := "5"; ExpectedOutput := "6"; Weight := Some (2 # 4) |})];
  Limits := Some {| TimeLimit := 20000000000; OverallWallTimeLimit := 1000000000; ExtraWallTime := 5; MemoryLimit := 1000; OutputLimit := 1000 |};
  Validator := Some {| Name := "custom"; Tolerance := None; CustomValidator := Some {| Source := "print 1"; Language := "py"; CustomLimits := None |} |};
  Interactive := Some {| IDLSource := "interface"; ModuleName := "Mod1"; ParentLang := "cpp11"; MainSource := "main" |} |}.
Definition ex_factory (o : orders) := NewLiteralInputFactory (fun s => Some "{}") (fun m => Some "tar") (fun s => "hash") (fun _ _ _ => Some "{}") o ex_input.
Example ex_names : NoDup (map fst (Cases ex_input)).
Proof. repeat constructor; cbn; intuition discriminate. Qed.
Example ex_accepted : ex_factory keep = ex_factory turn /\ match ex_factory keep with
  | Accepted f => map (fun g => (g_Name g, map (fun c => (c_Name c, c_Weight c)) (g_Cases g))) (s_Cases (f_settings f)) = [("easy", [("easy", 1 # 4)]); ("sub", [("sub.a.x", 1 # 4); ("sub.b", 1 # 2)])] /\
      map fst (f_files f) = ["cases/easy.in"; "cases/easy.out"; "cases/sub.a.x.in"; "cases/sub.a.x.out"; "cases/sub.b.in"; "cases/sub.b.out"; "interactive/Main.cpp"; "interactive/Mod1.idl"; "settings.json"; "validator.py"]
  | _ => False end.
Proof. vm_compute. auto. Qed.

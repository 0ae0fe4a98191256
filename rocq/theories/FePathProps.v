(* C45: the paths of grades, resources and sources. *)
From Coq Require Import String Ascii List Bool ZArith Lia.
From Verif Require Import GoStr InModel FeModel FeSpec.
Import ListNotations.
Local Open Scope string_scope.

Lemma app_cons (a : string) c b : (a ++ String c "") ++ b = a ++ String c b.
Proof. induction a as [|x a IH]; [reflexivity|]. cbn [append]. rewrite IH. reflexivity. Qed.
Lemma join_entry p s : entry_name s -> path_join p s = (p ++ [s])%list.
Proof.
  intros (A & B & C & D). unfold path_join. rewrite split_single by auto. cbn [fold_left]. unfold join_seg.
  rewrite (proj2 (String.eqb_neq _ _) A), (proj2 (String.eqb_neq _ _) B), (proj2 (String.eqb_neq _ _) C). reflexivity.
Qed.
Lemma join_entries p s t : entry_name s -> path_join p (s ++ "/" ++ t) = path_join (p ++ [s])%list t.
Proof.
  intros H. unfold path_join. change (s ++ "/" ++ t) with (s ++ String "/" t). rewrite split_app by apply H. cbn [fold_left].
  destruct H as (A & B & C & D). unfold join_seg at 2.
  rewrite (proj2 (String.eqb_neq _ _) A), (proj2 (String.eqb_neq _ _) B), (proj2 (String.eqb_neq _ _) C). reflexivity.
Qed.
Lemma numeric_entry s : s <> "" -> (forall c, contains c s -> is_digit c \/ c = "-"%char) -> entry_name s.
Proof.
  intros N H. unfold entry_name. repeat split; auto.
  - intros ->. destruct (H "."%char) as [[]|]; [left; auto|cbn in *; lia|discriminate].
  - intros ->. destruct (H "."%char) as [[]|]; [left; auto|cbn in *; lia|discriminate].
  - intros HC. destruct (H _ HC) as [[]|]; [cbn in *; lia|discriminate].
Qed.
Lemma fmt_int_nonempty z : fmt_int z <> "".
Proof.
  unfold fmt_int. destruct z as [|p|p]; cbn; try discriminate. destruct (string_of_pos p) as (c & s & E & _).
  unfold DecimalString.NilZero.string_of_uint. destruct (Pos.to_uint p); discriminate.
Qed.
Lemma fmt_int_entry z : entry_name (fmt_int z).
Proof. apply numeric_entry; [apply fmt_int_nonempty|apply fmt_int_chars]. Qed.
Lemma fmt02_entry z : entry_name (fmt02 z).
Proof.
  unfold fmt02. destruct (_ && _); [|apply fmt_int_entry]. apply numeric_entry; [discriminate|].
  intros c H. cbn [append] in H. rewrite contains_cons in H. destruct H as [->|H]; [left; unfold is_digit; cbn; lia|apply fmt_int_chars in H; auto].
Qed.
Lemma gradeDir_eq root id : gradeDir root id = (root ++ [fmt02 (Z.rem id 100); fmt02 (Z.quot (Z.rem id 10000) 100); fmt_int id])%list.
Proof.
  unfold gradeDir. rewrite !join_entries by apply fmt02_entry. rewrite join_entry by apply fmt_int_entry.
  rewrite <- !app_assoc. reflexivity.
Qed.
Lemma fmt_int_inj z z' : (- 2 ^ 63 <= z < 2 ^ 63)%Z -> (- 2 ^ 63 <= z' < 2 ^ 63)%Z -> fmt_int z = fmt_int z' -> z = z'.
Proof. intros H H' E. apply ParseInt_fmt in H, H'. rewrite E in H. congruence. Qed.
Lemma fmt02_two z : (0 <= z < 100)%Z -> two_digits (fmt02 z) z.
Proof.
  intros H. assert (A : forall n, (n < 100)%nat -> exists a b, fmt02 (Z.of_nat n) = String a (String b "") /\ is_digitb a && is_digitb b && (Z.of_nat n =? 10 * digit_val a + digit_val b)%Z = true).
  { intros n. do 100 (destruct n as [|n]; [intros _; eexists _, _; split; vm_compute; reflexivity|]). intros; lia. }
  destruct (A (Z.to_nat z)) as (a & b & E & G); [lia|]. rewrite Z2Nat.id in * by lia.
  rewrite !andb_true_iff, !is_digitb_spec, Z.eqb_eq in G. exists a, b. tauto.
Qed.

(* The directory of a run: two directories of two digits and one named by the id. *)
Theorem C45_grade_dir : forall root id, (0 <= id < 2 ^ 63)%Z -> exists a b c,
  gradeDir root id = (root ++ [a; b; c])%list /\ two_digits a (id mod 100) /\ two_digits b (id / 100 mod 100) /\ numeral c id.
Proof.
  intros root id H. rewrite gradeDir_eq. eexists _, _, _. split; [reflexivity|].
  rewrite (Z.rem_mod_nonneg id 100), (Z.rem_mod_nonneg id 10000) by lia.
  rewrite Z.quot_div_nonneg by (try lia; apply Z.mod_pos_bound; lia).
  assert (E : (id mod 10000 / 100 = id / 100 mod 100)%Z) by (Z.to_euclidean_division_equations; lia).
  rewrite E. split; [apply fmt02_two, Z.mod_pos_bound; lia|]. split; [apply fmt02_two, Z.mod_pos_bound; lia|].
  apply ParseInt_spec, ParseInt_fmt. lia.
Qed.
Print Assumptions C45_grade_dir.

(* Different runs (any int64) have different directories, below the configured one,
   and none is inside that of another. *)
Theorem C45_grade_dirs_apart : forall root id id', (- 2 ^ 63 <= id < 2 ^ 63)%Z -> (- 2 ^ 63 <= id' < 2 ^ 63)%Z ->
  (exists a b c, gradeDir root id = (root ++ [a; b; c])%list /\ entry_name a /\ entry_name b /\ entry_name c) /\
  (forall r r', (gradeDir root id ++ r = gradeDir root id' ++ r')%list -> id = id' /\ r = r').
Proof.
  intros root id id' H H'. rewrite !gradeDir_eq. split.
  - eexists _, _, _. split; [reflexivity|]. split; [apply fmt02_entry|]. split; [apply fmt02_entry|apply fmt_int_entry].
  - intros r r' E. rewrite <- !app_assoc in E. apply app_inv_head in E. injection E as _ _ E1 E2.
    split; [apply fmt_int_inj; auto|auto].
Qed.
Print Assumptions C45_grade_dirs_apart.

(* /run/resource/ opens a file of the run's directory and nothing else. *)
Lemma has_char_spec c s : has_char c s = true <-> contains c s.
Proof.
  unfold has_char, contains. rewrite existsb_exists. split; [intros (x & H & E); apply Ascii.eqb_eq in E; subst; auto|].
  intros H. exists c. split; [auto|apply Ascii.eqb_refl].
Qed.
Lemma has_dot_spec s : has_prefix "." s = true <-> exists t, s = String "." t.
Proof.
  unfold has_prefix. destruct s as [|c s]; cbn [prefix]; [split; [discriminate|intros (t & H); discriminate]|].
  destruct (ascii_dec "." c) as [E|N].
  - split; intros _; [exists s; rewrite E; reflexivity|destruct s; reflexivity].
  - split; [discriminate|]. intros (t & H). injection H as H _. congruence.
Qed.
Theorem C45_resource : forall root id name p,
  run_resource root id name = Opens p <->
  id <> 0%Z /\ entry_name name /\ ~ (exists t, name = String "." t) /\ p = (gradeDir root id ++ [name])%list.
Proof.
  intros root id name p. unfold run_resource. split.
  - destruct (Z.eqb_spec id 0); [discriminate|].
    destruct ((name =? "") || has_prefix "." name || has_char "/" name) eqn:E; [discriminate|].
    rewrite !orb_false_iff in E. destruct E as [[E1 E2] E3]. apply String.eqb_neq in E1.
    rewrite <- not_true_iff_false in E2, E3. rewrite has_dot_spec in E2. rewrite has_char_spec in E3.
    assert (EN : entry_name name). { repeat split; auto; intros ->; apply E2; eexists; reflexivity. }
    intros H; injection H as <-. rewrite join_entry by auto. auto.
  - intros (N & EN & D & ->). destruct (Z.eqb_spec id 0); [congruence|].
    replace (_ || _ || _) with false. { rewrite join_entry by auto. reflexivity. }
    symmetry. rewrite !orb_false_iff. rewrite <- !not_true_iff_false, has_dot_spec, has_char_spec, String.eqb_eq. destruct EN; tauto.
Qed.
Print Assumptions C45_resource.

(* Different requests, different files. *)
Corollary C45_resources_apart : forall root id name id' name' p,
  (- 2 ^ 63 <= id < 2 ^ 63)%Z -> (- 2 ^ 63 <= id' < 2 ^ 63)%Z ->
  run_resource root id name = Opens p -> run_resource root id' name' = Opens p -> id = id' /\ name = name'.
Proof.
  intros root id name id' name' p H H' A B. apply C45_resource in A, B. destruct A as (_ & _ & _ & A), B as (_ & _ & _ & B). subst p.
  destruct (C45_grade_dirs_apart root id id' H H') as [_ G]. apply G in B. destruct B as [-> B]. injection B as ->. auto.
Qed.
Print Assumptions C45_resources_apart.

Example C45_example :
  gradeDir ["var"; "grade"] 1234567 = ["var"; "grade"; "67"; "45"; "1234567"] /\
  gradeDir ["var"; "grade"] 7 = ["var"; "grade"; "07"; "00"; "7"] /\
  gradeDir ["var"; "grade"] (-234) = ["var"; "grade"; "-34"; "-2"; "-234"] /\
  run_resource ["g"] 105 "details.json" = Opens ["g"; "05"; "01"; "105"; "details.json"] /\
  run_resource ["g"] 105 "../106/details.json" = Refuses 400 /\ run_resource ["g"] 105 ".." = Refuses 400.
Proof. repeat split; vm_compute; reflexivity. Qed.

(* ---- sources ---- *)
Lemma lower_hex_spec c : is_guid_char c = true <-> lower_hex c.
Proof. unfold lower_hex. destruct c as [[] [] [] [] [] [] [] []]; vm_compute; (split; [try discriminate; tauto|intros H; repeat (destruct H as [H|H]; [discriminate H || reflexivity|]); contradiction]). Qed.
Lemma guid_ok_spec g : guid_ok g = true <-> is_guid g.
Proof.
  unfold guid_ok, is_guid. rewrite andb_true_iff, Nat.eqb_eq, forallb_forall. unfold contains.
  split; intros [A B]; (split; [auto|intros c H; apply lower_hex_spec; auto]).
Qed.
Lemma guid_entry s : s <> "" -> (forall c, contains c s -> lower_hex c) -> entry_name s.
Proof.
  intros N H. assert (D : ~ lower_hex "." /\ ~ lower_hex "/") by (split; intros X; apply lower_hex_spec in X; discriminate X).
  destruct D as [D1 D2]. repeat split; auto; try (intros ->; apply D1, H; left; reflexivity). 
Qed.
Lemma source_path_guid root g : is_guid g -> exists a b r, g = String a (String b r) /\ source_path root g = Some (root ++ ["submissions"; String a (String b ""); r])%list /\
  entry_name (String a (String b "")) /\ entry_name r.
Proof.
  intros [L H]. destruct g as [|a [|b [|c r]]]; try discriminate L. exists a, b, (String c r). split; [reflexivity|].
  assert (E1 : entry_name (String a (String b ""))). { apply guid_entry; [discriminate|]. intros x Hx. apply H. rewrite !contains_cons in *. destruct Hx as [|[|[]]]; auto. }
  assert (E2 : entry_name (String c r)). { apply guid_entry; [discriminate|]. intros x Hx. apply H. rewrite !contains_cons in *. tauto. }
  split; [|auto]. unfold source_path.
  change (path_join root ("submissions/" ++ String a (String b "") ++ "/" ++ String c r)) with (path_join root ("submissions" ++ "/" ++ (String a (String b "") ++ "/" ++ String c r))).
  rewrite (join_entries root "submissions") by (repeat split; try discriminate; cbn; intuition discriminate).
  rewrite join_entries, join_entry by auto. rewrite <- !app_assoc. reflexivity.
Qed.

(* Every GUID has its own file two levels below RuntimePath/submissions. *)
Theorem C45_sources_apart : forall root g g', is_guid g -> is_guid g' ->
  (exists a b p, source_path root g = Some p /\ p = (root ++ ["submissions"; a; b])%list /\ a ++ b = g /\ entry_name a /\ entry_name b) /\
  (source_path root g = source_path root g' -> g = g').
Proof.
  intros root g g' H H'. destruct (source_path_guid root g H) as (a & b & r & -> & E & A & B).
  destruct (source_path_guid root g' H') as (a' & b' & r' & -> & E' & A' & B'). split.
  - exists (String a (String b "")), r, (root ++ ["submissions"; String a (String b ""); r])%list. repeat split; auto; try apply A; try apply B.
  - rewrite E, E'. intros X. injection X as X. apply app_inv_head in X. injection X as -> -> ->. reflexivity.
Qed.
Print Assumptions C45_sources_apart.

Fixpoint slashes (n : nat) : string := match n with O => "" | S n => String "/" (slashes n) end.
Lemma trim_right_spec s : exists k, s = trim_right s ++ slashes k /\ (trim_right s = "" \/ exists t c, trim_right s = t ++ String c "" /\ c <> "/"%char).
Proof.
  induction s as [|c s (k & E & H)]; [exists O; auto|]. cbn [trim_right]. destruct (trim_right s) as [|x t] eqn:T.
  - cbn [append] in E. destruct (Ascii.eqb_spec c "/") as [->|N].
    + exists (S k). split; [cbn; congruence|auto].
    + exists k. split; [cbn; congruence|]. right. exists "", c. auto.
  - exists k. split; [rewrite E; reflexivity|]. right. destruct H as [H|(t' & c' & H & N)]; [discriminate|].
    exists (String c t'), c'. split; [rewrite H; reflexivity|auto].
Qed.
Lemma slashes_no_end t c k : (t ++ String c "") ++ "" = slashes k -> c = "/"%char.
Proof.
  revert k. induction t as [|x t IH]; intros [|k] H; cbn in H; try discriminate; injection H as -> H; eauto.
Qed.
Lemma trim_right_slashes s k : (s = "" \/ exists t c, s = t ++ String c "" /\ c <> "/"%char) -> trim_right (s ++ slashes k) = s.
Proof.
  assert (Z0 : forall k, trim_right (slashes k) = "") by (induction k0 as [|n IH]; [reflexivity|cbn; rewrite IH; reflexivity]).
  intros [->|(t & c & -> & N)]; [apply Z0|]. rewrite app_cons. induction t as [|x t IH]; cbn [append trim_right].
  - rewrite Z0. destruct (Ascii.eqb_spec c "/"); [congruence|reflexivity].
  - rewrite IH. destruct (t ++ String c "") eqn:E; [destruct t; discriminate|reflexivity].
Qed.
Lemma guid_last g : is_guid g -> exists t c, g = t ++ String c "" /\ c <> "/"%char.
Proof.
  intros [L H]. assert (A : forall s, s <> "" -> exists t c, s = t ++ String c "").
  { induction s as [|x s IH]; [congruence|]. intros _. destruct s as [|y s]; [exists "", x; auto|].
    destruct IH as (t & c & E); [discriminate|]. exists (String x t), c. rewrite E. reflexivity. }
  destruct (A g) as (t & c & E); [intros ->; discriminate L|]. exists t, c. split; [auto|]. intros ->.
  assert (X : lower_hex "/") by (apply H; rewrite E; apply contains_app; right; left; reflexivity).
  apply lower_hex_spec in X. discriminate X.
Qed.
Lemma app_assoc_s (a b c : string) : (a ++ b) ++ c = a ++ b ++ c.
Proof. induction a as [|x a IH]; [reflexivity|]. cbn [append]. rewrite IH. reflexivity. Qed.
Lemma app_inv_s (a b c : string) : a ++ b = a ++ c -> b = c.
Proof. induction a as [|x a IH]; intros H; [exact H|]. cbn [append] in H. injection H as H. auto. Qed.

(* Which URLs (under the pattern the handler is registered for) open which file. *)
Theorem C45_source_urls : forall root get rest p,
  submission_source root get ("/submission/source/" ++ rest) = Opens p <->
  get = true /\ exists g k, rest = g ++ slashes k /\ is_guid g /\ source_path root g = Some p.
Proof.
  intros root [] rest p; [|split; [discriminate|intros [X _]; discriminate]]. unfold submission_source, Trim. cbn [negb].
  change (trim_left ("/submission/source/" ++ rest)) with ("submission/source/" ++ rest). split.
  - destruct (trim_right_spec ("submission/source/" ++ rest)) as (k & E & HT). set (t := trim_right _) in *.
    destruct (split "/" t) as [|x [|y [|g [|z l]]]] eqn:ES; try discriminate.
    destruct (guid_ok g) eqn:G; [|discriminate]. apply guid_ok_spec in G. cbn [negb].
    apply split_spec in ES. destruct ES as (_ & HF & EJ). cbn [join] in EJ.
    inversion HF as [|? ? Hx HF1]; subst. inversion HF1 as [|? ? Hy HF2]; subst.
    assert (x = "submission" /\ y = "source" /\ rest = g ++ slashes k) as (-> & -> & ER).
    { rewrite EJ in E.
      assert (S1 : split "/" ("submission/source/" ++ rest) = "submission" :: "source" :: split "/" rest).
      { change ("submission/source/" ++ rest) with ("submission" ++ String "/" ("source" ++ String "/" rest)).
        rewrite !split_app by (unfold contains; cbn; intuition discriminate). reflexivity. }
      assert (S2 : split "/" ("submission/source/" ++ rest) = x :: y :: split "/" (g ++ slashes k)).
      { rewrite E. replace ((x ++ String "/" (y ++ String "/" g)) ++ slashes k) with (x ++ String "/" (y ++ String "/" (g ++ slashes k))).
        - rewrite !split_app by auto. reflexivity.
        - clear. induction x as [|c x IH]; cbn [append]; [|rewrite IH; reflexivity]. f_equal. induction y as [|c y IH]; cbn [append]; [reflexivity|rewrite IH; reflexivity]. }
      rewrite S1 in S2. injection S2 as <- <- S2. repeat split; auto.
      rewrite <- (join_split "/" rest), <- (join_split "/" (g ++ slashes k)), S2. reflexivity. }
    destruct (source_path root g) as [q|] eqn:SP; [|discriminate]. intros H; injection H as ->. split; [auto|]. exists g, k. auto.
  - intros (_ & g & k & -> & G & SP).
    replace (trim_right ("submission/source/" ++ g ++ slashes k)) with ("submission" ++ String "/" ("source" ++ String "/" g)).
    2: { destruct (guid_last g G) as (t & c & Eg & N).
         replace ("submission/source/" ++ g ++ slashes k) with (("submission/source/" ++ g) ++ slashes k) by reflexivity.
         rewrite trim_right_slashes; [reflexivity|]. right. exists ("submission/source/" ++ t), c. rewrite Eg. auto. }
    assert (Hg : ~ contains "/" g). { intros X. apply G in X. apply lower_hex_spec in X. discriminate X. }
    rewrite !split_app by (unfold contains; cbn; intuition discriminate). rewrite split_single by auto.
    apply guid_ok_spec in G. rewrite G. cbn [negb]. rewrite SP. reflexivity.
Qed.
Print Assumptions C45_source_urls.

Example C45_source_example :
  is_guid "0123456789abcdef0123456789abcdef" /\
  submission_source ["var"] true "/submission/source/0123456789abcdef0123456789abcdef/" = Opens ["var"; "submissions"; "01"; "23456789abcdef0123456789abcdef"] /\
  submission_source ["var"] true "/submission/source/../../etc/passwd" = Refuses 404 /\
  submission_source ["var"] true "/submission/source/0123456789ABCDEF0123456789abcdef" = Refuses 400.
Proof. split; [apply guid_ok_spec; reflexivity|]. repeat split; vm_compute; reflexivity. Qed.

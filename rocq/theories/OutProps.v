(* C26: output-only submissions. *)
From Coq Require Import String Ascii List NArith ZArith Bool Lia.
From Verif Require Import GradeModel OutModel OutSpec OutProofs.
Import ListNotations.
Local Open Scope string_scope.

(* For every archive, the files accepted are exactly those named like a case,
   with what the last usable entry of that name contributes. *)
Theorem C26_exact : forall data cases limit files, (0 <= limit < 2 ^ 63)%Z ->
  let (m, err) := parseOutputOnlyFile (Some (Some files)) data cases limit in
  err = false /\
  forall n f, lookup n m = Some f <-> (exists c, In c cases /\ n = c ++ ".out") /\ last_for limit n files f.
Proof.
  intros data cases limit files HL. cbn. split; [auto|]. intros n f. rewrite fold_lookup by auto. unfold expected_names. rewrite in_map_iff.
  split; intros [(c & A & B) C]; (split; [exists c; auto|auto]).
Qed.
Print Assumptions C26_exact.

(* Whatever is submitted, no name with a separator, nothing above the limit, an
   oversize file is empty and marked, and contents come from the archive
   unchanged. *)
Theorem C26_safe : forall data cases limit files n f, (0 <= limit < 2 ^ 63)%Z ->
  lookup n (fst (parseOutputOnlyFile (Some (Some files)) data cases limit)) = Some f ->
  no_slash n /\ (exists c, In c cases /\ n = c ++ ".out") /\
  (Z.of_nat (String.length (o_contents f)) <= limit)%Z /\
  (o_ole f = true -> o_contents f = "" /\ exists e, In e files /\ names e n /\ (limit < Z.of_N (z_declared e))%Z) /\
  (o_ole f = false -> exists e, In e files /\ names e n /\ holds e (o_contents f)).
Proof.
  intros data cases limit files n f HL H. pose proof (C26_exact data cases limit files HL) as X.
  destruct (parseOutputOnlyFile _ _ _ _) as [m err]. cbn in H. destruct X as [_ X]. apply X in H. destruct H as [HE (pre & e & post & -> & HN & HC & _)].
  assert (I : In e (pre ++ e :: post)) by (apply in_or_app; cbn; auto).
  split; [apply HN|]. split; [auto|]. inversion HC as [A|s A HH]; subst; cbn [o_contents o_ole].
  - split; [cbn; lia|]. split; [|discriminate]. intros _. split; [auto|]. exists e. auto.
  - split; [destruct HH as [_ HH]; lia|]. split; [discriminate|]. intros _. exists e. auto.
Qed.
Print Assumptions C26_safe.

(* The case's verdict: OK, with the archive's contents as output, exactly when
   the last usable entry of its name is within the limit; OLE exactly when it is
   larger; RTE with an empty output when there is none. *)
Theorem C26_verdict : forall data cases limit files c, (0 <= limit < 2 ^ 63)%Z -> In c cases ->
  let '(v, out, _) := cat_case (fst (parseOutputOnlyFile (Some (Some files)) data cases limit)) c in
  (forall s, v = OK /\ out = s <-> last_for limit (c ++ ".out") files (mkO s false)) /\
  (v = OLE <-> last_for limit (c ++ ".out") files (mkO "" true)) /\
  (v = RTE <-> forall f, ~ last_for limit (c ++ ".out") files f) /\
  (v = OK \/ v = OLE /\ out = "" \/ v = RTE /\ out = "").
Proof.
  intros data cases limit files c HL HC. pose proof (C26_exact data cases limit files HL) as X.
  destruct (parseOutputOnlyFile _ _ _ _) as [m err]. destruct X as [_ X]. cbn [fst]. unfold cat_case.
  assert (HX : forall f, lookup (c ++ ".out") m = Some f <-> last_for limit (c ++ ".out") files f).
  { intros f. rewrite X. split; [tauto|]. intros H. split; [exists c; auto|auto]. }
  destruct (lookup (c ++ ".out") m) as [[s o]|] eqn:E.
  - assert (HS := proj1 (HX _) eq_refl).
    assert (U : forall f, last_for limit (c ++ ".out") files f -> f = mkO s o) by (intros f H; apply HX in H; congruence).
    destruct o; cbn [o_ole o_contents].
    + assert (s = "").
      { destruct HS as (pre & e & post & _ & _ & HC' & _). inversion HC'; auto. }
      subst s. split; [intros s; split; [intros [A _]; discriminate A|intros H; apply U in H; discriminate H]|].
      split; [tauto|]. split; [split; [discriminate|intros H; elim (H _ HS)]|auto].
    + split; [intros t; split; [intros [_ <-]; auto|intros H; apply U in H; injection H as <-; auto]|].
      split; [split; [discriminate|intros H; apply U in H; discriminate H]|]. split; [split; [discriminate|intros H; elim (H _ HS)]|auto].
  - assert (NO : forall f, ~ last_for limit (c ++ ".out") files f) by (intros f H; apply HX in H; discriminate H).
    split; [intros s; split; [intros [A _]; discriminate A|intros H; elim (NO _ H)]|].
    split; [split; [discriminate|intros H; elim (NO _ H)]|]. split; [tauto|auto].
Qed.
Print Assumptions C26_verdict.

(* What is no data URL is taken as the output of a case named Main, and what is
   no archive is an error. *)
Theorem C26_plain : forall data cases limit c, 
  cat_case (fst (parseOutputOnlyFile None data cases limit)) c = (if c =? "Main" then (OK, data, "status:0") else (RTE, "", "status:1")) /\
  snd (parseOutputOnlyFile None data cases limit) = false /\ snd (parseOutputOnlyFile (Some None) data cases limit) = true.
Proof.
  intros data cases limit c. split; [|auto]. unfold cat_case. cbn [parseOutputOnlyFile fst lookup].
  destruct (String.eqb_spec c "Main") as [->|N]; [reflexivity|].
  destruct (String.eqb_spec (c ++ ".out") "Main.out") as [E|E]; [|auto]. exfalso. apply N.
  change "Main.out" with ("Main" ++ ".out") in E. clear - E. generalize dependent "Main". intros m E.
  revert m E. induction c as [|a c IH]; intros [|b m] E; auto.
  - apply (f_equal String.length) in E. rewrite !str_app_len in E. cbn in E. lia.
  - apply (f_equal String.length) in E. rewrite !str_app_len in E. cbn in E. lia.
  - cbn in E. injection E as -> E. f_equal. auto.
Qed.
Print Assumptions C26_plain.

(* False of the code: that every output is within the limit.  A submission that
   is not a data URL is not checked, and a limit below zero counts as none. *)
Theorem C26_plain_within_limit_refuted : exists data cases limit, (0 <= limit)%Z /\
  let '(v, out, _) := cat_case (fst (parseOutputOnlyFile None data cases limit)) "Main" in
  v = OK /\ (limit < Z.of_nat (String.length out))%Z.
Proof. exists "too long", ["Main"], 3%Z. cbn. split; [lia|]. split; [auto|lia]. Qed.
Print Assumptions C26_plain_within_limit_refuted.
Theorem C26_negative_limit_refuted : exists files cases limit, (limit < 0)%Z /\
  let '(v, out, _) := cat_case (fst (parseOutputOnlyFile (Some (Some files)) "" cases limit)) "1" in
  v = OK /\ (limit < Z.of_nat (String.length out))%Z.
Proof. exists [mkZ "1.out" 5 (Some "hello")], ["1"], (-1)%Z. vm_compute. auto. Qed.
Print Assumptions C26_negative_limit_refuted.

Example C26_example : let files := [mkZ "a/b/1.out" 3 (Some "old"); mkZ "../../1.out" 3 (Some "new"); mkZ "1.out" 9 (Some "lie");
                                    mkZ "../etc/passwd" 1 (Some "x"); mkZ "2.out" 100 None; mkZ "sub/3.txt" 1 (Some "y")] in
  let m := fst (parseOutputOnlyFile (Some (Some files)) "" ["1"; "2"; "3"] 10) in
  cat_case m "1" = (OK, "new", "status:0") /\ cat_case m "2" = (OLE, "", "status:0") /\ cat_case m "3" = (RTE, "", "status:1") /\
  last_for 10 "2.out" files (mkO "" true).
Proof.
  cbv zeta. split; [reflexivity|]. split; [reflexivity|]. split; [reflexivity|].
  eexists [_; _; _; _], _, [_]. split; [reflexivity|]. split; [apply names_base; reflexivity|]. split; [constructor; reflexivity|].
  intros e f [<-|[]] H. apply names_base in H. discriminate H.
Qed.

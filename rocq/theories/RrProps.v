(* C71, C72, C73. *)
From Coq Require Import String Ascii List Arith NArith ZArith QArith Bool Lia Lqa.
From Verif Require Import TrcModel Utf8Spec RrModel RrSpec RrProofs.
From Verif Require RhModel InModel.
Import ListNotations.
Local Open Scope string_scope.

(* ==== C71: results ==== *)
Theorem C71_round_trip : forall flt zero show read show_byte read_byte to_float to_rational equal_fold,
  @floats_round_trip flt show read -> bytes_round_trip show_byte read_byte ->
  forall r j, result_ok r -> enc_result flt show show_byte to_float r = Ok j ->
  exists r', dec_result flt zero read read_byte to_rational equal_fold (result0 flt zero) j = Some r' /\ result_arrives to_float to_rational r r'.
Proof. intros. eapply result_round_trip; eauto. Qed.

(* Text arrives as it is exactly if it is valid UTF-8, and what arrives is determined. *)
Theorem C71_text : forall s, (text s s <-> valid s) /\ (forall s1 s2, text s s1 -> text s s2 -> s1 = s2) /\ (forall s', text s s' -> valid s').
Proof.
  intros s. split; [apply text_same|]. split; [|intros s' T; apply (cleaned_valid _ _ T)].
  intros s1 s2 T1 T2. rewrite (text_clean _ _ T1), (text_clean _ _ T2). auto.
Qed.

Theorem C71_sent : forall flt show show_byte to_float r,
  (exists j, enc_result flt show show_byte to_float r = Ok j) <->
  (forall q, In q (scores r) -> exists x, q = Some x /\ show (to_float x) <> None) /\ (forall f, In f (times r) -> show f <> None).
Proof. intros. pose proof (good_result show show_byte to_float r) as G. rewrite !Forall_forall in G. exact G. Qed.

Theorem C71_panics : forall flt show show_byte to_float r,
  (enc_result flt show show_byte to_float r = Crash -> In None (scores r)) /\
  ((forall x, In (Some x) (scores r) -> show (to_float x) <> None) -> (forall f, In f (times r) -> show f <> None) ->
   (enc_result flt show show_byte to_float r = Crash <-> In None (scores r))).
Proof.
  intros. split; [apply crash_result|]. intros S F. apply crash_iff; apply Forall_forall; auto. intros q I x ->. auto.
Qed.

(* What an upload decodes to can be stored again, unless there is null in it for the
   result, a group or a case. *)
Theorem C71_stored : forall flt zero show read show_byte read_byte to_float to_rational equal_fold,
  @readable_is_writable flt zero show read to_float to_rational ->
  forall j r name, dec_result flt zero read read_byte to_rational equal_fold (result0 flt zero) j = Some r ->
  j <> JNull -> ~ null_elements j -> exists j', enc_result flt show show_byte to_float (judged_by flt name r) = Ok j'.
Proof. intros. eapply dec_result_good; eauto. Qed.
(* With it, false: the upload is taken, not retried (the verdict is not JE), and storing it panics. *)
Theorem C71_stored_refuted : forall flt zero show read show_byte read_byte to_float to_rational equal_fold j name, show zero <> None -> show (to_float (to_rational zero)) <> None ->
  (j = JNull \/ j = JObj [("groups", JArr [JNull])] \/ j = JObj [("groups", JArr [JObj [("cases", JArr [JNull])]])]) ->
  exists r, dec_result flt zero read read_byte to_rational equal_fold (result0 flt zero) j = Some r /\ r_Verdict r <> "JE" /\
    enc_result flt show show_byte to_float (judged_by flt name r) = Crash.
Proof.
  intros flt zero show read show_byte read_byte to_float to_rational equal_fold j name Z TZ [-> | [-> | ->]]; eexists; (split; [reflexivity|]); (split; [discriminate|]);
    unfold enc_result, enc_group, enc_case, enc_float; cbn; try reflexivity;
    repeat (destruct (show _); [cbn|congruence]); reflexivity.
Qed.
Theorem C71_upload_refuted : forall flt zero show read show_byte read_byte to_float to_rational equal_fold decode_tracing (parsed : string -> json),
  parsed "null" = JNull ->
  let upload wr := RhModel.processRun (RunResult flt (option Q)) r_Verdict
    (fun t => dec_result flt zero read read_byte to_rational equal_fold (result0 flt zero) (parsed t)) decode_tracing wr in
  forall wr d name w r0 f f0 f1, InModel.partly (InModel.RemoveAll d) (RhModel.kept w) f = f0 -> RhModel.mkdir_works w = true -> InModel.apply (InModel.MkdirAll d) f0 = Some f1 ->
  exists r, upload wr d name w (Some (RhModel.Part "details.json" "null" RhModel.Ends)) r0 f = (RhModel.Answer 200 false, r, f1) /\
  enc_result flt show show_byte to_float (judged_by flt (RhModel.JudgedBy r) (RhModel.Result r)) = Crash.
Proof.
  intros flt zero show read show_byte read_byte to_float to_rational equal_fold decode_tracing parsed P upload wr d name w r0 f f0 f1 E0 M E1.
  unfold upload, RhModel.processRun. rewrite E0, M, E1. cbn. rewrite P. cbn. eexists. split; [reflexivity|]. reflexivity.
Qed.
Print Assumptions C71_round_trip.
Print Assumptions C71_text.
Print Assumptions C71_sent.
Print Assumptions C71_panics.
Print Assumptions C71_stored.
Print Assumptions C71_stored_refuted.
Print Assumptions C71_upload_refuted.

(* The hypotheses can be met: numbers below 2^1024 as they are. *)
Definition F := option Q.
Definition ex_show (f : F) : option json := option_map JDec f.
Definition ex_read (j : json) : option F := match j with JDec q => Some (Some q) | JInt z => Some (Some (inject_Z z)) | _ => None end.
Definition ex_read_byte (old : Z) (j : json) : option Z := as_int64 old j.
Definition ex_to_float (q : Q) : F := if Qle_bool (inject_Z (2 ^ 1024)) q then None else Some q.
Definition ex_to_rational (f : F) : Q := match f with Some q => if Qle_bool (inject_Z (2 ^ 1024)) q then 0 else q | None => 0 end.
Example ex_hypotheses : floats_round_trip ex_show ex_read /\ bytes_round_trip JInt ex_read_byte /\
  readable_is_writable (Some 0) ex_show ex_read ex_to_float ex_to_rational.
Proof.
  split; [|split].
  - intros [q|] j [= <-]. split; [discriminate|reflexivity].
  - intros old b I. unfold ex_read_byte, as_int64. unfold int64 in I. replace ((- 2 ^ 63 <=? b)%Z && (b <? 2 ^ 63)%Z) with true; auto. symmetry. lia.
  - split; [discriminate|]. split; [intros j [q|] E; [discriminate|destruct j; discriminate]|].
    intros [q|] _; cbn [ex_to_rational]; [|discriminate]. destruct (Qle_bool (inject_Z (2 ^ 1024)) q) eqn:E; [discriminate|]. unfold ex_to_float. rewrite E. discriminate.
Qed.
Definition ex_meta (v : string) : RunMetadata F := {| m_Verdict := v; m_ExitStatus := 0; m_Time := Some (1 # 4); m_SystemTime := Some 0; m_WallTime := Some (1 # 2); m_Memory := 4096; m_Signal := Some "SIGSEGV"; m_Syscall := None |}.
Definition ex_case : CaseResult F (option Q) :=
  {| c_Verdict := "RTE"; c_Name := "1.a"; c_Score := Some 0; c_ContestScore := Some 0; c_MaxScore := Some (1 # 3); c_Meta := ex_meta "RTE";
     c_IndividualMeta := Some [("Main", ex_meta "RTE"); ("child", ex_meta "OK")] |}.
Definition ex_result : RunResult F (option Q) :=
  {| r_Verdict := "RTE"; r_CompileError := Some (String (ascii_of_nat 233) "rror"); r_CompileMeta := Some [("Main", ex_meta "OK")]; r_Score := Some (2 # 3); r_ContestScore := Some (2 # 3); r_MaxScore := Some 1;
     r_Time := Some (1 # 4); r_WallTime := Some (1 # 2); r_Memory := 4096; r_JudgedBy := "";
     r_Groups := Some [{| g_Group := "1"; g_Score := Some 0; g_ContestScore := Some 0; g_MaxScore := Some (1 # 3); g_Cases := Some [ex_case] |}] |}.
Lemma valid_ascii s : Forall (fun x => (x < 128)%N) (bytes_of s) -> valid s.
Proof.
  intros FA. exists (bytes_of s). split.
  - eapply Forall_impl; [|exact FA]. intros x L. left. cbn in L. lia.
  - induction FA as [|x l L FA IH]; [reflexivity|]. cbn [map concat]. rewrite <- IH. unfold utf8. apply N.ltb_lt in L. change 128%N with 0x80%N in L. rewrite L. reflexivity.
Qed.
Example ex_result_arrives : result_ok ex_result /\ exists j r', enc_result F ex_show JInt ex_to_float ex_result = Ok j /\
  dec_result F (Some 0) ex_read ex_read_byte ex_to_rational String.eqb (result0 F (Some 0)) j = Some r' /\
  r_Verdict r' = "RTE" /\ r_Score r' = Some (2 # 3) /\ r_CompileError r' <> r_CompileError ex_result /\
  option_map (map (fun g => option_map (map (fun c => (c_Name c, c_IndividualMeta c))) (g_Cases g))) (r_Groups r') =
    Some [Some [("1.a", Some [("Main", ex_meta "RTE"); ("child", ex_meta "OK")])]].
Proof.
  split.
  - assert (V : valid "Main" /\ valid "child") by (split; apply valid_ascii; repeat constructor).
    assert (MO : forall v, meta_ok (ex_meta v)) by (split; cbn; unfold int64; lia).
    split; [cbn; unfold int64; lia|]. split.
    + intros l [= <-]. split; [repeat constructor; cbn; tauto|]. intros k x [[= <- <-]|[]]. split; [apply V|apply MO].
    + constructor; [|constructor]. constructor; [|constructor]. split; [apply MO|]. intros l [= <-]. split; [repeat constructor; cbn; intuition discriminate|].
      intros k x [[= <- <-]|[[= <- <-]|[]]]; split; try apply V; apply MO.
  - eexists _, _. split; [vm_compute; reflexivity|]. split; [vm_compute; reflexivity|]. cbn. repeat split; try reflexivity. discriminate.
Qed.

(* ==== C72: runs ==== *)
Theorem C72_round_trip : forall flt zero show read to_float to_rational equal_fold, @floats_round_trip flt show read ->
  forall r j, (0 <= n_AttemptID r < 2 ^ 64)%Z -> enc_run flt show to_float r = Ok j ->
  exists r', dec_run flt zero read to_rational equal_fold run0 j = Some r' /\ run_arrives to_float to_rational r r'.
Proof. intros. eapply run_round_trip; eauto. Qed.
(* So the runner has exactly the program that was submitted if and only if that is valid UTF-8. *)
Theorem C72_source : forall flt zero show read to_float to_rational equal_fold, @floats_round_trip flt show read ->
  forall r j r', (0 <= n_AttemptID r < 2 ^ 64)%Z -> enc_run flt show to_float r = Ok j ->
  dec_run flt zero read to_rational equal_fold run0 j = Some r' -> (n_Source r' = n_Source r <-> valid (n_Source r)).
Proof.
  intros flt zero show read to_float to_rational equal_fold FR r j r' I E D.
  destruct (run_round_trip zero show read to_float to_rational equal_fold FR r j I E) as (r1 & D1 & _ & T & _). rewrite D in D1. injection D1 as <-.
  split; [intros S; rewrite S in T; apply text_same, T|]. intros V. rewrite (text_clean _ _ T). apply clean_valid, V.
Qed.
Theorem C72_sent : forall flt show to_float r, (exists j, enc_run flt show to_float r = Ok j) <-> exists x, n_MaxScore r = Some x /\ show (to_float x) <> None.
Proof.
  intros. unfold enc_run. destruct (n_MaxScore r) as [x|]; cbn; [|split; [intros (? & E); discriminate|intros (? & E & _); discriminate]].
  unfold enc_float. destruct (show (to_float x)) eqn:E; cbn; split.
  - intros _. exists x. split; congruence.
  - eauto.
  - intros (? & X). discriminate.
  - intros (y & [= <-] & N). congruence.
Qed.
(* "Different programs arrive as different programs" does not hold: in Latin-1, these
   two characters (and anything with them) arrive as the same. *)
Definition latin1 (c : nat) : Run (option Q) :=
  {| n_AttemptID := 7; n_Source := "print '" ++ String (ascii_of_nat c) "'"; n_Language := "py"; n_ProblemName := "sums"; n_InputHash := "0"; n_MaxScore := Some 1; n_Debug := false |}.
Theorem C72_source_refuted : forall flt zero show read to_float to_rational equal_fold, @floats_round_trip flt show read -> show (to_float 1%Q) <> None ->
  exists r1 r2 j1 j2 r', enc_run flt show to_float r1 = Ok j1 /\ enc_run flt show to_float r2 = Ok j2 /\ n_Source r1 <> n_Source r2 /\
    dec_run flt zero read to_rational equal_fold run0 j1 = Some r' /\ dec_run flt zero read to_rational equal_fold run0 j2 = Some r' /\ n_Source r' <> n_Source r1.
Proof.
  intros flt zero show read to_float to_rational equal_fold FR S. exists (latin1 233), (latin1 232).
  destruct (show (to_float 1%Q)) as [j|] eqn:E; [|congruence].
  assert (C : clean (n_Source (latin1 233)) = clean (n_Source (latin1 232))) by reflexivity.
  assert (E1 : forall c, exists j', enc_run flt show to_float (latin1 c) = Ok j' /\ 
    dec_run flt zero read to_rational equal_fold run0 j' = Some {| n_AttemptID := 7; n_Source := clean (n_Source (latin1 c)); n_Language := "py"; n_ProblemName := "sums"; n_InputHash := "0"; n_MaxScore := Some (to_rational (to_float 1)); n_Debug := false |}).
  { intros c. unfold enc_run, enc_float. cbn [n_MaxScore latin1 RationalToFloat bind]. rewrite E. eexists. split; [reflexivity|].
    cbn [dec_run bind enc_str n_AttemptID n_Source n_Language n_ProblemName n_InputHash n_Debug latin1]. destruct (FR _ _ E) as [N R]. cbn - [clean append as_uint64 Z.pow].
    assert (A : as_float flt read zero j = Some (to_float 1%Q)) by (unfold as_float; destruct j; auto; congruence). rewrite A. reflexivity. }
  destruct (E1 233%nat) as (j1 & A1 & B1). destruct (E1 232%nat) as (j2 & A2 & B2). rewrite C in B1. exists j1, j2. eexists.
  split; [exact A1|]. split; [exact A2|]. split; [discriminate|]. split; [exact B1|]. split; [exact B2|]. discriminate.
Qed.
Print Assumptions C72_round_trip.
Print Assumptions C72_source.
Print Assumptions C72_sent.
Print Assumptions C72_source_refuted.

(* ==== C73: the no-op sandbox ==== *)
Lemma each_spec {A} (f : A -> option A) l : (forall l', each f l = Some l' <-> Forall2 (fun a a' => f a = Some a') l l') /\ (each f l = None <-> exists a, In a l /\ f a = None).
Proof.
  induction l as [|a l [IH1 IH2]]; cbn.
  - split; [|split; [discriminate|intros (? & [] & _)]]. intros l'. split; [intros [= <-]; constructor|intros H; inversion H; auto].
  - destruct (f a) as [b|] eqn:E; cbn.
    + destruct (each f l) as [m|] eqn:M; cbn.
      * split; [|split; [discriminate|intros (x & [->|I] & X); [congruence|]; destruct IH2 as [_ IH2]; discriminate IH2; eauto]].
        intros l'. split; [intros [= <-]; constructor; auto; apply IH1; auto|]. intros H. inversion H as [|? y ? m' Ey Fm]; subst. apply IH1 in Fm. congruence.
      * split; [|split; [intros _; destruct IH2 as [IH2 _]; destruct (IH2 eq_refl) as (x & I & X); eauto|auto]].
        intros l'. split; [discriminate|]. intros H. inversion H as [|? y ? m' Ey Fm]; subst. apply IH1 in Fm. discriminate.
    + split; [|split; [eauto|auto]]. intros l'. split; [discriminate|]. intros H. inversion H; subst. congruence.
Qed.
(* The verdict is AC, scores are the maxima, nothing else changes. *)
Definition full {flt} (M : Q) (c c' : CaseResult flt (option Q)) : Prop :=
  c_Verdict c' = "AC" /\ c_Name c' = c_Name c /\ c_MaxScore c' = c_MaxScore c /\ c_Meta c' = c_Meta c /\ c_IndividualMeta c' = c_IndividualMeta c /\
  exists m s cs, c_MaxScore c = Some m /\ c_Score c' = Some s /\ c_ContestScore c' = Some cs /\ (s == m)%Q /\ (cs == m * M)%Q.
Definition full_group {flt} (M : Q) (g g' : GroupResult flt (option Q)) : Prop :=
  g_Group g' = g_Group g /\ g_MaxScore g' = g_MaxScore g /\ both (Forall2 (full M)) (g_Cases g) (g_Cases g') /\
  exists m s cs, g_MaxScore g = Some m /\ g_Score g' = Some s /\ g_ContestScore g' = Some cs /\ (s == m)%Q /\ (cs == m * M)%Q.
Lemma fixup_case_full {flt} M (c c' : CaseResult flt (option Q)) : fixup_case flt M c = Some c' -> full M c c'.
Proof.
  unfold fixup_case. intros E. apply obind_some in E. destruct E as (m & Em & [= <-]). unfold full. cbn. repeat (split; [reflexivity|]).
  exists m, (0 + m)%Q, (m * M)%Q. repeat split; auto; ring.
Qed.
Lemma each_of_both {A} (f : A -> option A) (R : A -> A -> Prop) l l' : (forall a a', f a = Some a' -> R a a') -> each_of f l = Some l' -> both (Forall2 R) l l'.
Proof.
  intros H E. destruct l as [l|]; cbn in E; [|injection E as <-; exact Logic.I]. apply obind_some in E. destruct E as (m & Em & [= <-]).
  apply (proj1 (each_spec f l)) in Em. cbn. induction Em; constructor; auto.
Qed.
Lemma fixup_group_full {flt} M (c c' : GroupResult flt (option Q)) : fixup_group flt M c = Some c' -> full_group M c c'.
Proof.
  unfold fixup_group. intros E. apply obind_some in E. destruct E as (m & Em & E). apply obind_some in E. destruct E as (l & El & [= <-]). unfold full_group. cbn. repeat (split; [reflexivity|]).
  split; [eapply each_of_both; [|exact El]; apply fixup_case_full|].
  exists m, (0 + m)%Q, (m * M)%Q. repeat split; auto; ring.
Qed.
Theorem C73_accepted : forall flt (r r' : RunResult flt (option Q)), NoopSandboxFixupResult flt r = Some r' ->
  exists M cs, r_MaxScore r = Some M /\ r_Verdict r' = "AC" /\ r_Score r' = Some 1%Q /\ r_ContestScore r' = Some cs /\ (cs == M)%Q /\ r_MaxScore r' = r_MaxScore r /\
    both (Forall2 (full_group cs)) (r_Groups r) (r_Groups r') /\
    r_CompileError r' = r_CompileError r /\ r_CompileMeta r' = r_CompileMeta r /\ r_Time r' = r_Time r /\ r_WallTime r' = r_WallTime r /\ r_Memory r' = r_Memory r /\ r_JudgedBy r' = r_JudgedBy r.
Proof.
  unfold NoopSandboxFixupResult. intros flt r r' E. apply obind_some in E. destruct E as (M & EM & E). apply obind_some in E. destruct E as (l & El & [= <-]). cbn.
  exists M, (1 * M)%Q. repeat (split; [solve [auto | ring]|]). split; [|auto 10]. eapply each_of_both; [|exact El]. apply fixup_group_full.
Qed.
(* It panics exactly if a maximum is missing. *)
Definition maxima {flt} (r : RunResult flt (option Q)) : list (option Q) :=
  r_MaxScore r :: flat_map (fun g => g_MaxScore g :: map c_MaxScore (elements (g_Cases g))) (elements (r_Groups r)).
Lemma each_of_none {A} (f : A -> option A) l : each_of f l = None <-> exists a, In a (elements l) /\ f a = None.
Proof.
  destruct l as [l|]; cbn; [|split; [discriminate|intros (? & [] & _)]]. rewrite <- (proj2 (each_spec f l)). destruct (each f l); cbn; split; congruence.
Qed.
Theorem C73_panics : forall flt (r : RunResult flt (option Q)), NoopSandboxFixupResult flt r = None <-> In None (maxima r).
Proof.
  intros flt r. unfold NoopSandboxFixupResult, maxima. destruct (r_MaxScore r) as [M|] eqn:EM; cbn [obind In]; [|tauto].
  assert (G : forall C g, fixup_group flt C g = None <-> In None (g_MaxScore g :: map c_MaxScore (elements (g_Cases g)))).
  { intros C g. unfold fixup_group. destruct (g_MaxScore g) as [m|] eqn:Eg; cbn [obind In]; [|tauto].
    assert (K : each_of (fixup_case flt C) (g_Cases g) = None <-> In None (map c_MaxScore (elements (g_Cases g)))).
    { rewrite each_of_none, in_map_iff. split; intros (c & A & B); exists c; [split; [|auto]|split; [auto|]]; unfold fixup_case in *; [destruct (c_MaxScore c); [discriminate|auto]|rewrite A; reflexivity]. }
    rewrite <- K. destruct (each_of (fixup_case flt C) (g_Cases g)); cbn; split; intros H; try discriminate; auto. destruct H; discriminate. }
  assert (K : each_of (fixup_group flt (1 * M)) (r_Groups r) = None <-> In None (flat_map (fun g => g_MaxScore g :: map c_MaxScore (elements (g_Cases g))) (elements (r_Groups r)))).
  { rewrite each_of_none, in_flat_map. split; intros (g & A & B); exists g; (split; [auto|]); apply (G (1 * M)%Q g); auto. }
  rewrite <- K. destruct (each_of (fixup_group flt (1 * M)) (r_Groups r)); cbn; split; intros H; try discriminate; auto. destruct H; discriminate.
Qed.
(* "The contest scores of the groups add up to that of the run" does not hold if the
   run's maximum is not 0 or 1: they add up to its square. *)
Definition points (q : option Q) : Q := match q with Some q => q | None => 0 end.
Definition sum (l : list Q) : Q := fold_right Qplus 0 l.
Theorem C73_contest_scores : forall flt (r r' : RunResult flt (option Q)) M, NoopSandboxFixupResult flt r = Some r' -> r_MaxScore r = Some M ->
  (sum (map (fun g => points (g_MaxScore g)) (elements (r_Groups r))) == M)%Q ->
  (sum (map (fun g => points (g_ContestScore g)) (elements (r_Groups r'))) == M * M)%Q.
Proof.
  intros flt r r' M E EM S. destruct (C73_accepted flt r r' E) as (M' & cs & EM' & _ & _ & _ & CE & _ & B & _). rewrite EM in EM'. injection EM' as <-.
  destruct (r_Groups r) as [l|], (r_Groups r') as [l'|]; cbn in B; try tauto; cbn [elements] in *.
  - rewrite <- S at 1. clear S E EM. induction B as [|g g' l l' (_ & _ & _ & m & s & c & E1 & _ & E3 & _ & E5) B IH]; cbn; [ring|].
    rewrite E1, E3. cbn. fold (sum (map (fun g => points (g_MaxScore g)) l)). fold (sum (map (fun g => points (g_ContestScore g)) l')). rewrite IH, E5, CE. ring.
  - cbn in *. rewrite <- S. ring.
Qed.
Definition noop_result : RunResult Q (option Q) :=
  {| r_Verdict := "WA"; r_CompileError := None; r_CompileMeta := None; r_Score := Some 0; r_ContestScore := Some 0; r_MaxScore := Some 100; r_Time := 0; r_WallTime := 0; r_Memory := 0; r_JudgedBy := "";
     r_Groups := Some [{| g_Group := "1"; g_Score := Some 0; g_ContestScore := Some 0; g_MaxScore := Some 50; g_Cases := Some [] |};
                       {| g_Group := "2"; g_Score := Some 0; g_ContestScore := Some 0; g_MaxScore := Some 50; g_Cases := None |}] |}.
Theorem C73_contest_scores_refuted : exists r r' : RunResult Q (option Q), NoopSandboxFixupResult Q r = Some r' /\
  (sum (map (fun g => points (g_MaxScore g)) (elements (r_Groups r))) == points (r_MaxScore r))%Q /\
  ~ (sum (map (fun g => points (g_ContestScore g)) (elements (r_Groups r'))) == points (r_ContestScore r'))%Q.
Proof. exists noop_result. eexists. split; [reflexivity|]. split; [reflexivity|]. intros E. vm_compute in E. discriminate. Qed.
(* Without the no-op sandbox, a run that could not be judged is reported as JE, with no points ... *)
Theorem C73_errors : forall flt zero run, exists r, sent_result flt zero false None run = Some r /\ r_Verdict r = "JE" /\ r_ContestScore r = Some 0%Q /\ r_Groups r = None.
Proof. intros. eexists. split; [reflexivity|]. auto. Qed.
(* ... but with it, it is accepted with all points. *)
Theorem C73_errors_refuted : forall flt zero run M, n_MaxScore run = Some M ->
  exists r cs, sent_result flt zero true None run = Some r /\ r_Verdict r = "AC" /\ r_ContestScore r = Some cs /\ (cs == M)%Q.
Proof.
  intros flt zero run M E. unfold sent_result, NewRunResult, NoopSandboxFixupResult. rewrite E. cbn. eexists _, _. split; [reflexivity|]. cbn. repeat split. ring.
Qed.
Print Assumptions C73_accepted.
Print Assumptions C73_panics.
Print Assumptions C73_contest_scores.
Print Assumptions C73_contest_scores_refuted.
Print Assumptions C73_errors.
Print Assumptions C73_errors_refuted.

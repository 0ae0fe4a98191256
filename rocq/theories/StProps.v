(* C79: problem settings between those who write them and those who read them. *)
From Coq Require Import String Ascii List Arith NArith ZArith QArith Bool Lia Permutation.
From Verif Require Import TrcModel Utf8Spec RrModel RrSpec RrProofs StModel StSpec StProofs.
From Verif Require RrProps LitModel LitSpec LitProofs LitProps GradeModel GradeProps.
Import ListNotations.
Local Open Scope string_scope.

Theorem C79_round_trip : forall flt zero show read show_dur read_dur show_byte read_byte to_float to_rational equal_fold,
  @floats_round_trip flt show read -> bytes_round_trip show_dur read_dur -> bytes_round_trip show_byte read_byte ->
  forall s j, settings_ok s -> enc_settings flt show show_dur show_byte to_float s = Ok j ->
  exists s', dec_settings flt zero read read_dur read_byte to_rational equal_fold (settings0 flt) j = Some s' /\ settings_arrives to_float to_rational s s'.
Proof. intros. eapply settings_round_trip; eauto. Qed.

Theorem C79_sent : forall flt show show_dur show_byte to_float s,
  (exists j, enc_settings flt show show_dur show_byte to_float s = Ok j) <->
  (forall q, In q (weights s) -> exists x, q = Some x /\ show (to_float x) <> None) /\ (forall t, w_Tolerance (s_Validator s) = Some t -> show t <> None).
Proof. intros. pose proof (good_settings show show_dur show_byte to_float s) as G. rewrite !Forall_forall in G. exact G. Qed.

Theorem C79_panics : forall flt show show_dur show_byte to_float s,
  enc_settings flt show show_dur show_byte to_float s = Crash -> In None (weights s).
Proof. intros until s. apply crash_settings. Qed.

(* What was decoded can be graded (there is a sum of its weights, and it is the sum)
   exactly if no weight is nil; and none is, unless there is null in an array. *)
Theorem C79_gradable : forall flt (s : Settings flt),
  (graded_weight s = None <-> In None (weights s)) /\ (forall t, graded_weight s = Some t -> sum_of (weights s) t).
Proof.
  intros flt s. split; [apply add_groups_none|]. intros t E. apply add_groups_sum in E. destruct E as (u & S & X). eapply sum_of_eq; [exact S|]. rewrite X. ring.
Qed.
Theorem C79_decoded_gradable : forall flt zero read read_dur read_byte to_rational equal_fold j s,
  dec_settings flt zero read read_dur read_byte to_rational equal_fold (settings0 flt) j = Some s -> ~ null_elements j ->
  exists t, graded_weight s = Some t /\ sum_of (weights s) t.
Proof.
  intros until s. intros E N. pose proof (dec_settings_weighed zero read read_dur read_byte to_rational equal_fold j s N E) as W. destruct (C79_gradable flt s) as [A B].
  destruct (graded_weight s) as [t|] eqn:G; [|elim W; apply A; auto]. exists t. auto.
Qed.
(* With null among the cases there is a nil weight, and grading any program panics. *)
Theorem C79_decoded_gradable_refuted : forall flt zero read read_dur read_byte to_rational equal_fold, exists j s,
  dec_settings flt zero read read_dur read_byte to_rational equal_fold (settings0 flt) j = Some s /\ graded_weight s = None.
Proof. intros. exists (JObj [("Cases", JArr [JObj [("Cases", JArr [JNull])]])]). eexists. split; reflexivity. Qed.
(* With no cases at all, also `null` or `{}`, every program that compiles is accepted. *)
Theorem C79_no_cases_refuted : forall flt zero read read_dur read_byte to_rational equal_fold,
  dec_settings flt zero read read_dur read_byte to_rational equal_fold (settings0 flt) (JObj []) = Some (settings0 flt) /\
  graded_weight (settings0 flt) = Some 0 /\ weights (settings0 flt) = [] /\
  forall fold_eq num_eq parse maxTok bins validator max_score wall_limit, Forall GradeProps.compiles bins -> exists r tr,
    GradeModel.Grade fold_eq num_eq parse maxTok (GradeModel.SReady bins) validator max_score wall_limit [] = (r, false, tr) /\
    GradeModel.rr_verdict r = GradeModel.AC /\ GradeModel.rr_score r = 1%Q /\ (GradeModel.rr_contest r == max_score)%Q.
Proof.
  intros. split; [reflexivity|]. split; [reflexivity|]. split; [reflexivity|]. intros until wall_limit. intros C.
  unfold GradeModel.Grade. pose proof (GradeProps.compile_all_ok bins [] C) as E. rewrite app_nil_r in E. rewrite E. cbn.
  eexists _, _. split; [reflexivity|]. cbn. split; [reflexivity|]. split; [reflexivity|]. ring.
Qed.
Lemma member_silent {A} ef fields l f (put : A -> json -> option A) a : silent ef l f -> put a JNull = Some a -> RrModel.member ef fields l f put a = Some a.
Proof.
  intros S N. induction l as [|[k j] l IH]; [reflexivity|]. cbn [RrModel.member].
  assert (R : RrModel.member ef fields l f put a = Some a) by (apply IH; intros k' j' M; apply (S k' j'); right; exact M).
  destruct (RrModel.is_for ef fields k f) eqn:E; [|exact R]. assert (j = JNull) as ->; [|rewrite N; exact R].
  apply (S k j); [left; reflexivity|]. unfold RrModel.is_for, RrModel.field_of in E.
  destruct (find (fun g => String.eqb g k) fields) as [g|] eqn:F1.
  - apply find_some in F1. destruct F1 as [_ F1]. apply String.eqb_eq in F1, E. left. congruence.
  - destruct (find (fun g => ef g k) fields) as [g|] eqn:F2; [|discriminate]. apply find_some in F2. destruct F2 as [_ F2]. apply String.eqb_eq in E. right. congruence.
Qed.
(* What settings do not say (or say is null) is empty, or zero. *)
Theorem C79_unsaid : forall flt zero read read_dur read_byte to_rational equal_fold l s,
  dec_settings flt zero read read_dur read_byte to_rational equal_fold (settings0 flt) (JObj l) = Some s ->
  (silent equal_fold l "Cases" -> s_Cases s = None) /\ (silent equal_fold l "Interactive" -> s_Interactive s = None) /\
  (silent equal_fold l "Slow" -> s_Slow s = false) /\
  (silent equal_fold l "Validator" -> w_Lang (s_Validator s) = None /\ w_Name (s_Validator s) = "" /\ w_Tolerance (s_Validator s) = None /\ w_Limits (s_Validator s) = None) /\
  (silent equal_fold l "Limits" -> LitModel.ExtraWallTime (s_Limits s) = 0%Z /\ LitModel.MemoryLimit (s_Limits s) = 0%Z /\ LitModel.OutputLimit (s_Limits s) = 0%Z /\
                                   LitModel.OverallWallTimeLimit (s_Limits s) = 0%Z /\ LitModel.TimeLimit (s_Limits s) = 0%Z).
Proof.
  intros until s. intros D. cbn [dec_settings] in D.
  repeat match type of D with obind ?x _ = _ => let E := fresh "E" in destruct x eqn:E; [cbn [obind] in D|discriminate D] end.
  injection D as <-. cbn [s_Cases s_Interactive s_Slow s_Validator s_Limits].
  assert (K : forall A f (put : A -> json -> option A) a v, RrModel.member equal_fold settings_fields l f put a = Some v -> silent equal_fold l f -> put a JNull = Some a -> v = a).
  { intros A f put a0 v9 X S N. rewrite member_silent in X by assumption. injection X as <-. reflexivity. }
  split; [intros S; exact (K _ _ _ _ _ E S eq_refl)|]. split; [intros S; exact (K _ _ _ _ _ E0 S eq_refl)|]. split; [intros S; exact (K _ _ _ _ _ E2 S eq_refl)|].
  split; intros S; [rewrite (K _ _ _ _ _ E3 S eq_refl)|rewrite (K _ _ _ _ _ E1 S eq_refl)]; cbn; auto 6.
Qed.
(* The same within the limits. *)
Theorem C79_unsaid_limits : forall flt zero read read_dur read_byte to_rational equal_fold l s,
  dec_settings flt zero read read_dur read_byte to_rational equal_fold (settings0 flt) (JObj [("Limits", JObj l)]) = Some s ->
  read_dur 0%Z JNull = Some 0%Z -> read_byte 0%Z JNull = Some 0%Z ->
  (silent equal_fold l "ExtraWallTime" -> LitModel.ExtraWallTime (s_Limits s) = 0%Z) /\ (silent equal_fold l "MemoryLimit" -> LitModel.MemoryLimit (s_Limits s) = 0%Z) /\
  (silent equal_fold l "OutputLimit" -> LitModel.OutputLimit (s_Limits s) = 0%Z) /\ (silent equal_fold l "OverallWallTimeLimit" -> LitModel.OverallWallTimeLimit (s_Limits s) = 0%Z) /\
  (silent equal_fold l "TimeLimit" -> LitModel.TimeLimit (s_Limits s) = 0%Z).
Proof.
  intros until s. intros D RD RB.
  change (obind (match dec_limits read_dur read_byte equal_fold limits0 (JObj l) with Some a => Some a | None => None end)
    (fun m => Some {| s_Cases := None; s_Interactive := None; s_Limits := m; s_Slow := false; s_Validator := validator0 flt |}) = Some s) in D.
  destruct (dec_limits read_dur read_byte equal_fold limits0 (JObj l)) as [m|] eqn:L; [|discriminate D]. cbn [obind] in D.
  { assert (SM : s_Limits s = m) by (injection D as <-; reflexivity).
    unfold dec_limits in L.
    rewrite SM. clear D SM.
    repeat match type of L with obind ?x _ = _ => let E := fresh "E" in destruct x eqn:E; [cbn [obind] in L|discriminate L] end.
    injection L as <-.
    assert (K : forall f (put : Z -> json -> option Z) v, RrModel.member equal_fold limits_fields l f put 0%Z = Some v -> silent equal_fold l f -> put 0%Z JNull = Some 0%Z -> v = 0%Z).
    { intros f put v9 X S N. rewrite member_silent in X by assumption. injection X as <-. reflexivity. }
    cbn [LitModel.ExtraWallTime LitModel.MemoryLimit LitModel.OutputLimit LitModel.OverallWallTimeLimit LitModel.TimeLimit].
    split; [intros S; exact (K _ _ _ E S RD)|]. split; [intros S; exact (K _ _ _ E0 S RB)|]. split; [intros S; exact (K _ _ _ E1 S RB)|].
    split; [intros S; exact (K _ _ _ E2 S RD)|intros S; exact (K _ _ _ E3 S RD)]. }
Qed.
Example C79_unsaid_met : silent String.eqb [("Slow", JBool true); ("Limits", JNull)] "Limits" /\ silent String.eqb [("Slow", JBool true); ("Limits", JNull)] "Cases".
Proof. split; intros k j [X|[X|[]]] H; injection X as <- <-; auto; destruct H as [H|H]; discriminate H. Qed.
Print Assumptions C79_unsaid.
Print Assumptions C79_unsaid_limits.
Print Assumptions C79_round_trip.
Print Assumptions C79_sent.
Print Assumptions C79_panics.
Print Assumptions C79_gradable.
Print Assumptions C79_decoded_gradable.
Print Assumptions C79_decoded_gradable_refuted.
Print Assumptions C79_no_cases_refuted.

(* ---- a literal input, from the request to what the runner reads ---- *)
Fixpoint until (x : N) (b : list N) : list N := match b with [] => [] | y :: b => if (y =? x)%N then [] else y :: until x b end.
Lemma bytes_before_dot s : bytes_of (LitModel.before_dot s) = until 46 (bytes_of s).
Proof.
  induction s as [|c s IH]; [reflexivity|]. cbn [LitModel.before_dot]. change (bytes_of (String c s)) with (N_of_ascii c :: bytes_of s). cbn [until].
  destruct (Ascii.eqb_spec c ".") as [->|N]; [reflexivity|]. destruct (N.eqb_spec (N_of_ascii c) 46) as [E|E].
  - elim N. rewrite <- (ascii_N_embedding c), E. reflexivity.
  - rewrite <- IH. reflexivity.
Qed.
Lemma until_skip x a b : ~ In x a -> until x (a ++ b) = (a ++ until x b)%list.
Proof. induction a as [|y a IH]; cbn; intros N; [auto|]. destruct (N.eqb_spec y x); [tauto|]. rewrite IH; auto. Qed.
Lemma utf8_dot r : scalar r -> r <> 46%N -> ~ In 46%N (utf8 r).
Proof.
  intros S D. unfold scalar in S. unfold utf8.
  destruct (N.ltb_spec r 0x80); [|destruct (N.ltb_spec r 0x800); [|destruct (N.ltb_spec r 0x10000)]]; cbn - [N.div N.modulo N.add]; intros I;
  repeat (destruct I as [I|I]; [revert I; zify; Z.to_euclidean_division_equations; lia|]); exact I.
Qed.
Lemma valid_group s : valid s -> valid (LitModel.before_dot s).
Proof.
  intros (rs & F & E). unfold valid. rewrite bytes_before_dot, E. clear E. induction F as [|r rs S F (rs' & F' & E')]; [exists []; split; [constructor|reflexivity]|]. cbn [map concat].
  destruct (N.eqb_spec r 46) as [->|N].
  - exists []. split; [constructor|reflexivity].
  - exists (r :: rs'). split; [auto|]. rewrite until_skip by (apply utf8_dot; auto). cbn. f_equal. auto.
Qed.
Lemma before_dot_app g rest : ~ GoStr.contains "." g -> (rest = "" \/ exists r, rest = String "." r) -> LitModel.before_dot (g ++ rest) = g.
Proof.
  intros N R. induction g as [|c g IH].
  - destruct R as [->|(r & ->)]; reflexivity.
  - cbn. destruct (Ascii.eqb_spec c ".") as [->|D]; [elim N; left; auto|]. f_equal. apply IH. intros C. apply N. right. auto.
Qed.
Lemma group_before_dot name g : LitSpec.group_of name g -> g = LitModel.before_dot name.
Proof.
  intros (N & H). destruct H as [->|(r & ->)]; symmetry.
  - pose proof (before_dot_app g "" N (or_introl eq_refl)) as K. assert (X : (g ++ "")%string = g) by (clear; induction g; cbn; congruence). rewrite X in K. exact K.
  - apply before_dot_app; eauto.
Qed.
Lemma text_valid s s' : valid s -> text s s' -> s' = s.
Proof. intros V T. rewrite (text_clean _ _ T). apply clean_valid, V. Qed.
Lemma min_int64 a b : int64 a -> int64 b -> int64 (Z.min a b). Proof. unfold int64. lia. Qed.
Lemma built_limits_ok l : (forall x, l = Some x -> limits_ok x) -> limits_ok (LitModel.build_limits l).
Proof.
  intros O. assert (D : limits_ok LitModel.DefaultLiteralLimitSettings) by (vm_compute; intuition discriminate).
  destruct l as [l|]; [|exact D]. destruct (O l eq_refl) as (A & B & C & E & F). destruct D as (A' & B' & C' & E' & F').
  repeat split; cbn [LitModel.build_limits LitModel.ExtraWallTime LitModel.MemoryLimit LitModel.OutputLimit LitModel.OverallWallTimeLimit LitModel.TimeLimit]; apply min_int64; auto.
Qed.
Theorem C79_literal_arrives : forall flt zero show read show_dur read_dur show_byte read_byte to_float to_rational equal_fold float_of interactive_of (print : json -> string),
  @floats_round_trip flt show read -> bytes_round_trip show_dur read_dur -> bytes_round_trip show_byte read_byte ->
  (forall x, interactive_ok (interactive_of x)) ->
  forall make_tar sha1 libinteractive o input f,
  LitSpec.any_order o -> NoDup (map fst (LitModel.Cases input)) ->
  (forall name x, In (name, x) (LitModel.Cases input) -> valid name) -> (forall l, LitModel.Limits input = Some l -> limits_ok l) ->
  LitModel.NewLiteralInputFactory (write_settings flt float_of interactive_of print show show_dur show_byte to_float) make_tar sha1 libinteractive o input = LitModel.Accepted f ->
  let S := LitModel.f_settings f in
  exists j s, In ("settings.json", print j) (LitModel.f_files f) /\
    dec_settings flt zero read read_dur read_byte to_rational equal_fold (settings0 flt) j = Some s /\
    s_Cases s = Some (map (fun g => {| o_Name := LitModel.g_Name g; o_Cases := Some (map (fun c =>
      {| k_Name := LitModel.c_Name c; k_Weight := Some (to_rational (to_float (LitModel.c_Weight c))) |}) (LitModel.g_Cases g)) |}) (LitModel.s_Cases S)) /\
    s_Limits s = LitModel.s_Limits S /\ s_Slow s = true /\
    w_Name (s_Validator s) = LitModel.v_Name (LitModel.s_Validator S) /\ both text (LitModel.v_Lang (LitModel.s_Validator S)) (w_Lang (s_Validator s)) /\
    w_Tolerance (s_Validator s) = option_map float_of (LitModel.v_Tolerance (LitModel.s_Validator S)) /\
    both interactive_arrives (option_map interactive_of (LitModel.s_Interactive S)) (s_Interactive s).
Proof.
  intros until print. intros FR DR BR IO make_tar sha1 lib o input f HO ND VN VL E S.
  destruct (LitProps.C36_files _ _ _ _ _ _ _ HO ND E) as (contents & EM & HF & _).
  pose proof (LitProps.C36_settings _ _ _ _ _ _ _ HO ND E) as (CS & _ & _ & SL). fold S in CS, SL, EM.
  destruct (LitProps.accepted_inv _ _ _ _ _ _ _ HO ND E) as (v & m & m1 & i & m2 & json & G & t & EV & EI & T & HG & S1 & M1 & ES & _). fold S in ES.
  unfold write_settings in EM. destruct (enc_settings flt show show_dur show_byte to_float _) as [j| |] eqn:EE; try discriminate. injection EM as <-.
  assert (VV : LitModel.v_Limits (LitModel.s_Validator S) = None /\ valid (LitModel.v_Name (LitModel.s_Validator S))).
  { rewrite ES. cbn [LitModel.s_Validator]. clear - EV. unfold LitModel.build_validator in EV.
    set (w := match LitModel.Validator input with Some v => v | None => LitModel.DefaultLiteralValidatorSettings end) in *. 
    destruct (String.eqb_spec (LitModel.Name w) "custom") as [N|_].
    - destruct (LitModel.CustomValidator w); [|discriminate]. injection EV as <- _. cbn. rewrite N. split; [auto|]. apply RrProps.valid_ascii. repeat constructor.
    - destruct (existsb _ _) eqn:X.
      + injection EV as <- _. cbn. split; [auto|]. apply existsb_exists in X. destruct X as (y & I & X). apply String.eqb_eq in X. rewrite X. apply RrProps.valid_ascii.
        destruct I as [<-|[<-|[<-|[]]]]; repeat constructor.
      + destruct (String.eqb_spec (LitModel.Name w) "token-numeric") as [N|_]; [|discriminate]. injection EV as <- _. cbn. rewrite N. split; [auto|]. apply RrProps.valid_ascii. repeat constructor. }
  assert (OK : settings_ok (wire_settings flt float_of interactive_of S)).
  { split; [|split].
    - cbn. rewrite ES. cbn [LitModel.s_Limits]. apply built_limits_ok, VL.
    - cbn. destruct VV as [-> _]. discriminate.
    - cbn. destruct (LitModel.s_Interactive S); cbn; [|discriminate]. intros ? [= <-]. apply IO. }
  destruct (C79_round_trip flt zero show read show_dur read_dur show_byte read_byte to_float to_rational equal_fold FR DR BR _ _ OK EE) as (s & D & (AC & AI & AL & AS & (AV1 & AV2 & AV3 & _))).
  exists j, s. split; [apply HF; constructor|]. split; [exact D|].
  split; [|cbn in *; split; [exact AL|]; split; [congruence|]; split; [apply text_valid; [apply VV|exact AV2]|auto]].
  cbn in AC. destruct (s_Cases s) as [gs|]; [|destruct AC]. cbn in AC. f_equal.
  assert (VG : forall g, In g (LitModel.s_Cases S) -> valid (LitModel.g_Name g) /\ forall c, In c (LitModel.g_Cases g) -> valid (LitModel.c_Name c)).
  { pose proof (LitProps.C36_settings _ _ _ _ _ _ _ HO ND E) as (_ & NE & _). fold S in NE.
    assert (K : forall g c, In g (LitModel.s_Cases S) -> In c (LitModel.g_Cases g) -> valid (LitModel.c_Name c) /\ valid (LitModel.g_Name g)).
    { intros g c I IC. destruct (proj1 (CS (LitModel.g_Name g) c)) as (lc & w & (HI & _) & GO & _). { exists (LitModel.g_Cases g). destruct g. auto. }
      pose proof (VN _ _ HI) as V. split; [auto|]. rewrite (group_before_dot _ _ GO). apply valid_group, V. }
    intros g I. split; [|intros c IC; apply (K g c I IC)]. destruct (NE g I) as [N _]. destruct (LitModel.g_Cases g) as [|c cs] eqn:EG; [congruence|]. apply (K g c I). rewrite EG. left. auto. }
  clear - AC VG. remember (LitModel.s_Cases S) as L. clear HeqL. revert gs AC. induction L as [|g L IH]; intros gs AC; inversion AC as [|? g' ? gs' A AC']; subst; [reflexivity|]. cbn. f_equal.
  - destruct (VG g (or_introl eq_refl)) as [V1 V2]. destruct A as [A1 A2]. destruct g' as [cs' n']. cbn in A1, A2. f_equal; [|apply text_valid; auto].
    destruct cs' as [cs'|]; [|destruct A2]. f_equal. clear - A2 V2. revert cs' A2. induction (LitModel.g_Cases g) as [|c cs IH]; intros cs' A2; inversion A2 as [|? c' ? cs'' A A3]; subst; [reflexivity|]. cbn. f_equal.
    + destruct A as [B1 (x & B2 & B3)]. destruct c' as [n w]. cbn in *. f_equal; [apply text_valid; auto|]. injection B2 as <-. auto.
    + apply IH; auto. intros ? I. apply V2. right. auto.
  - apply IH; auto. intros ? I. apply VG. right. auto.
Qed.
Print Assumptions C79_literal_arrives.

(* ---- examples ---- *)
Definition st_show (z : Z) : json := JInt z.
Definition st_rule : Rule := {| l_Targets := Some ["Main"]; l_Requisites := Some ["Main.cpp"; "sums_entry.cpp"]; l_Compiler := "g++"; l_Params := "-O2"; l_Debug := false |}.
Definition st_interface : Interface := {| i_MakefileRules := Some [st_rule]; i_Args := Some []; i_Env := None; i_Files := Some [("Main_entry.cpp", "int main(){}"); ("sums.h", "")] |}.
Definition st_interactive : Interactive :=
  {| t_Interfaces := Some [("Main", Some [("cpp", Some st_interface)]); ("sums", Some [("py", Some st_interface); ("kp", None)])]; t_Templates := None;
     t_Main := "Main"; t_ModuleName := "sums"; t_ParentLang := "cpp"; t_LibinteractiveVersion := "2.0" |}.
Definition st_settings : Settings RrProps.F :=
  {| s_Cases := Some [{| o_Cases := Some [{| k_Name := "1.a"; k_Weight := Some (1 # 3) |}; {| k_Name := "1.b"; k_Weight := Some (1 # 3) |}]; o_Name := "1" |};
                      {| o_Cases := None; o_Name := "empty" |}; {| o_Cases := Some [{| k_Name := "2"; k_Weight := Some (1 # 3) |}]; o_Name := "2" |}];
     s_Interactive := Some st_interactive; s_Limits := LitModel.DefaultLiteralLimitSettings; s_Slow := true;
     s_Validator := {| w_Lang := Some "py3"; w_Name := "custom"; w_Tolerance := Some (Some (1 # 1000)); w_Limits := Some LitModel.DefaultLiteralLimitSettings |} |}.
Lemma st_defaults : limits_ok LitModel.DefaultLiteralLimitSettings. Proof. apply (built_limits_ok None). discriminate. Qed.
Lemma st_names (A : Type) (l : list (string * A)) (ok : A -> Prop) : NoDup (map fst l) -> Forall (fun x => Forall (fun b => (b < 128)%N) (bytes_of (fst x)) /\ ok (snd x)) l -> mapping_ok ok (Some l).
Proof. intros ND F l' [= <-]. split; [auto|]. intros k x I. rewrite Forall_forall in F. destruct (F _ I). split; [apply RrProps.valid_ascii|]; auto. Qed.
Lemma st_ok : interactive_ok st_interactive.
Proof.
  assert (I : interface_ok st_interface).
  { split; cbn; [intros ? [=]|]. apply st_names; [repeat constructor; cbn; intuition discriminate|]. repeat (constructor; [split; [repeat constructor|exact Logic.I]|]). constructor. }
  split; cbn; [|intros ? [=]]. apply st_names; [repeat constructor; cbn; intuition discriminate|]. constructor; [|constructor; [|constructor]]; (split; [repeat constructor|]); cbn;
    (apply st_names; [repeat constructor; cbn; intuition discriminate|]).
  - constructor; [|constructor]. split; [repeat constructor|]. intros x [= <-]. exact I.
  - constructor; [|constructor; [|constructor]]; (split; [repeat constructor|]); intros x [=]; subst; exact I.
Qed.
Lemma st_floats : floats_round_trip RrProps.ex_show RrProps.ex_read.
Proof. intros [q|] j; [|discriminate]. intros [= <-]. split; [discriminate|reflexivity]. Qed.
Lemma st_bytes : bytes_round_trip st_show RrProps.ex_read_byte.
Proof. intros old b I. unfold RrProps.ex_read_byte, st_show. apply as_int64_ok; auto. Qed.
(* A check that a concrete value has no null element. *)
Fixpoint has_null (j : json) : bool :=
  match j with
  | JArr l => (fix go l := match l with [] => false | x :: t => match x with JNull => true | _ => false end || has_null x || go t end) l
  | JObj l => (fix go l := match l with [] => false | (_, x) :: t => has_null x || go t end) l
  | _ => false
  end.
Lemma has_null_sound j : has_null j = false -> ~ null_elements j.
Proof.
  intros H (l & P & I). remember (JArr l) as a eqn:Ea. revert H. induction P as [j|x j l' I' P IH|k x j l' I' P IH]; intros H.
  - subst j. cbn in H. revert I H. generalize l as m. induction m as [|y m IHm]; intros Z H; [destruct Z|].
    apply orb_false_iff in H. destruct H as [A B]. destruct Z as [->|Z]; [discriminate|]. exact (IHm Z B).
  - specialize (IH Ea). apply IH. cbn in H. clear - I' H. revert I' H. induction l' as [|y m IHm]; intros Z H; [destruct Z|].
    apply orb_false_iff in H. destruct H as [A B]. destruct Z as [->|Z]; [apply orb_false_iff in A; apply A|exact (IHm Z B)].
  - specialize (IH Ea). apply IH. cbn in H. clear - I' H. revert I' H. induction l' as [|[k' y] m IHm]; intros Z H; [destruct Z|].
    apply orb_false_iff in H. destruct H as [A B]. destruct Z as [E|Z]; [injection E as -> ->; exact A|exact (IHm Z B)].
Qed.
Example st_round_trip : settings_ok st_settings /\ exists j s', enc_settings RrProps.F RrProps.ex_show st_show st_show RrProps.ex_to_float st_settings = Ok j /\ ~ null_elements (JArr [j]) /\
  dec_settings RrProps.F (Some 0) RrProps.ex_read RrProps.ex_read_byte RrProps.ex_read_byte RrProps.ex_to_rational String.eqb (settings0 RrProps.F) j = Some s' /\
  s' = st_settings /\ exists t, graded_weight s' = Some t /\ (t == 1)%Q.
Proof.
  split; [split; [apply st_defaults|]; split; [intros l [= <-]; apply st_defaults|intros t [= <-]; apply st_ok]|].
  eexists _, _. split; [vm_compute; reflexivity|]. split.
  - apply has_null_sound. vm_compute. reflexivity.
  - split; [vm_compute; reflexivity|]. split; [reflexivity|]. exists (0 + (1 # 3) + (1 # 3) + (1 # 3))%Q. split; reflexivity.
Qed.
Definition st_literal : LitModel.literal_input :=
  {| LitModel.Cases := [("2", Some {| LitModel.Input := "1 2"; LitModel.ExpectedOutput := "3"; LitModel.Weight := Some 3 |});
                        ("1.b", Some {| LitModel.Input := "0 0"; LitModel.ExpectedOutput := "0"; LitModel.Weight := Some 1 |});
                        ("1.a", Some {| LitModel.Input := "0 1"; LitModel.ExpectedOutput := "1"; LitModel.Weight := Some 2 |})];
     LitModel.Limits := None; LitModel.Validator := Some {| LitModel.Name := "token-numeric"; LitModel.Tolerance := None; LitModel.CustomValidator := None |}; LitModel.Interactive := None |}.
Example st_literal_arrives : exists f, 
  LitModel.NewLiteralInputFactory (write_settings RrProps.F (@Some Q) (fun _ => interactive0) (fun _ => "{}") RrProps.ex_show st_show st_show RrProps.ex_to_float)
    (fun _ => Some "tar") (fun s => s) (fun _ _ _ => None) LitProps.turn st_literal = LitModel.Accepted f /\
  map (fun g => (LitModel.g_Name g, map LitModel.c_Name (LitModel.g_Cases g))) (LitModel.s_Cases (LitModel.f_settings f)) = [("1", ["1.a"; "1.b"]); ("2", ["2"])].
Proof. eexists. split; [vm_compute; reflexivity|]. reflexivity. Qed.

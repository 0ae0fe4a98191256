From Coq Require Import String Ascii List Arith NArith ZArith QArith Bool Lia.
From Verif Require Import TrcModel TrcProofs RrModel RrSpec RrProofs StModel StSpec.
From Verif Require LitModel.
Import ListNotations.
Local Arguments as_bool : simpl never.
Local Arguments as_float : simpl never.
Local Arguments clean : simpl never.

(* ---- maps, slices and pointers ---- *)
Lemma entries_round_trip {A} (enc : A -> outcome json) put (a0 : A) (ok : A -> Prop) (R : A -> A -> Prop) :
  (forall a j, ok a -> enc a = Ok j -> exists a', put a0 j = Some a' /\ R a a') ->
  forall l, NoDup (map fst l) -> (forall k x, In (k, x) l -> valid k /\ ok x) -> forall j, enc_entries enc l = Ok j ->
  forall m0, exists l', dec_entries put a0 m0 j = Some l' /\
  (forall k, get l k = None -> get l' k = get m0 k) /\ (forall k x, get l k = Some x -> exists x', get l' k = Some x' /\ R x x').
Proof.
  intros H. induction l as [|[k x] l IH]; intros ND OK j E m0.
  - cbn in E. injection E as <-. exists m0. cbn. split; [auto|]. split; [auto|]. discriminate.
  - cbn [enc_entries] in E. oks. cbn in ND. inversion ND as [|? ? NI ND']; subst.
    destruct (OK k x (or_introl eq_refl)) as [V MO]. destruct (H x a MO E0) as (x' & D & A1).
    destruct (IH ND' (fun k x I => OK k x (or_intror I)) _ E1 (set m0 (clean k) x')) as (l' & D' & A2 & A3).
    exists l'. cbn [dec_entries]. rewrite D. split; [exact D'|]. rewrite (clean_valid k V) in *. cbn [get]. split.
    + intros k'. destruct (String.eqb_spec k k') as [->|N]; [discriminate|]. intros G. rewrite A2 by auto. rewrite get_set.
      destruct (String.eqb_spec k k'); congruence.
    + intros k' y. destruct (String.eqb_spec k k') as [->|N]; [|apply A3]. intros [= <-]. exists x'. split; [|auto].
      rewrite A2; [rewrite get_set, String.eqb_refl; auto|]. destruct (get l k') eqn:G; [|auto]. exfalso. apply NI.
      clear - G. induction l as [|[k y] l IH]; cbn in *; [discriminate|]. destruct (String.eqb_spec k k'); auto.
Qed.
Lemma mapping_round_trip {A} (enc : A -> outcome json) put (a0 : A) (ok : A -> Prop) (R : A -> A -> Prop) :
  (forall a j, ok a -> enc a = Ok j -> exists a', put a0 j = Some a' /\ R a a') ->
  forall m j, mapping_ok ok m -> enc_mapping enc m = Ok j -> exists m', as_mapping put a0 None j = Some m' /\ mapping_arrives R m m'.
Proof.
  intros H m j OK E. destruct m as [l|]; cbn in E; oks.
  - destruct (OK l eq_refl) as [ND O]. destruct (entries_round_trip enc put a0 ok R H l ND O _ E0 []) as (l' & D & A1 & A2). exists (Some l'). cbn. rewrite D. split; [auto|].
    intros k. destruct (get l k) as [x|] eqn:G.
    + destruct (A2 k x G) as (x' & -> & A3). exact A3.
    + rewrite A1 by auto. exact Logic.I.
  - exists None. cbn. auto.
Qed.
Lemma text_round_trip s j : any s -> enc_text s = Ok j -> exists s', as_string ""%string j = Some s' /\ text s s'.
Proof. intros _ [= <-]. exists (clean s). split; [reflexivity|apply clean_text]. Qed.
Lemma texts_round_trip l j : enc_slice enc_text l = Ok j -> exists l', as_slice as_string ""%string None j = Some l' /\ texts l l'.
Proof. apply (slice_round_trip _ _ ""%string any text text_round_trip). apply Forall_forall. intros. exact Logic.I. Qed.
Lemma text_map_round_trip l j : mapping_ok any l -> enc_mapping enc_text l = Ok j -> exists l', as_mapping as_string ""%string None j = Some l' /\ mapping_arrives text l l'.
Proof. apply (mapping_round_trip _ _ ""%string any text text_round_trip). Qed.

Section Wire.
Context {flt : Type} (zero : flt) (show : flt -> option json) (read : json -> option flt)
  (show_dur : Z -> json) (read_dur : Z -> json -> option Z) (show_byte : Z -> json) (read_byte : Z -> json -> option Z)
  (to_float : Q -> flt) (to_rational : flt -> Q) (equal_fold : string -> string -> bool).
Notation enc_float := (RrModel.enc_float flt show).
Notation enc_limits := (StModel.enc_limits show_dur show_byte).
Notation dec_limits := (StModel.dec_limits read_dur read_byte equal_fold).
Notation enc_case := (StModel.enc_case flt show to_float).
Notation dec_case := (StModel.dec_case flt zero read to_rational equal_fold).
Notation enc_group := (StModel.enc_group flt show to_float).
Notation dec_group := (StModel.dec_group flt zero read to_rational equal_fold).
Notation dec_rule := (StModel.dec_rule equal_fold).
Notation dec_interface := (StModel.dec_interface equal_fold).
Notation dec_interactive := (StModel.dec_interactive equal_fold).
Notation enc_validator := (StModel.enc_validator flt show show_dur show_byte).
Notation dec_validator := (StModel.dec_validator flt zero read read_dur read_byte equal_fold).
Notation enc_settings := (StModel.enc_settings flt show show_dur show_byte to_float).
Notation dec_settings := (StModel.dec_settings flt zero read read_dur read_byte to_rational equal_fold).
Notation settings0 := (StModel.settings0 flt).
Notation validator0 := (StModel.validator0 flt).

Section RoundTrip.
Hypothesis FR : floats_round_trip show read.
Hypothesis DR : bytes_round_trip show_dur read_dur.
Hypothesis BR : bytes_round_trip show_byte read_byte.
Lemma limits_round_trip l old : limits_ok l -> dec_limits old (enc_limits l) = Some l.
Proof.
  intros (A & B & C & D & E). destruct l as [e m o w t]. cbn in A, B, C, D, E. cbn. repeat (first [rewrite DR by auto | rewrite BR by auto]; cbn). reflexivity.
Qed.
Lemma rule_round_trip r j : any r -> enc_rule r = Ok j -> exists r', dec_rule rule0 j = Some r' /\ rule_arrives r r'.
Proof.
  intros _ E. unfold enc_rule in E. oks. destruct (texts_round_trip _ _ E0) as (t & D1 & A1). destruct (texts_round_trip _ _ E1) as (q & D2 & A2).
  cbn. rewrite D1. cbn. rewrite D2. cbn. eexists. split; [reflexivity|]. unfold rule_arrives. cbn. auto using clean_text.
Qed.
Lemma interface_round_trip i j : (forall x, i = Some x -> interface_ok x) -> enc_interface i = Ok j ->
  exists i', as_pointer dec_interface interface0 None j = Some i' /\ both interface_arrives i i'.
Proof.
  intros O E. destruct i as [i|]; cbn [enc_interface] in E; [|injection E as <-; exists None; cbn; auto]. destruct (O i eq_refl) as [OE OF]. oks.
  assert (FA : Forall any (elements (i_MakefileRules i))) by (apply Forall_forall; intros; exact Logic.I).
  destruct (slice_round_trip _ _ rule0 any rule_arrives rule_round_trip _ _ FA E0) as (m & D1 & A1).
  destruct (texts_round_trip _ _ E1) as (q & D2 & A2). destruct (text_map_round_trip _ _ OE E2) as (e & D3 & A3). destruct (text_map_round_trip _ _ OF E3) as (f & D4 & A4).
  cbn. rewrite D1. cbn. rewrite D2. cbn. rewrite D3. cbn. rewrite D4. cbn. eexists. split; [reflexivity|]. cbn. unfold interface_arrives. auto.
Qed.
Lemma interactive_round_trip t j : interactive_ok t -> enc_interactive t = Ok j -> exists t', dec_interactive interactive0 j = Some t' /\ interactive_arrives t t'.
Proof.
  intros [O1 O2] E. unfold enc_interactive in E. oks.
  assert (X : exists i, as_mapping (as_mapping (as_pointer dec_interface interface0) None) None None a = Some i /\ mapping_arrives (mapping_arrives (both interface_arrives)) (t_Interfaces t) i).
  { revert O1 E0. apply (mapping_round_trip (enc_mapping enc_interface) _ None (mapping_ok (fun i => forall x, i = Some x -> interface_ok x))).
    apply (mapping_round_trip enc_interface _ None (fun i => forall x, i = Some x -> interface_ok x)). apply interface_round_trip. }
  destruct X as (i & D1 & A1). destruct (text_map_round_trip _ _ O2 E1) as (m & D2 & A2).
  cbn. rewrite D1. cbn. rewrite D2. cbn. eexists. split; [reflexivity|]. unfold interactive_arrives. cbn. auto 10 using clean_text.
Qed.
Lemma case_round_trip c j : any c -> enc_case c = Ok j -> exists c', dec_case case0 j = Some c' /\ case_arrives to_float to_rational c c'.
Proof.
  intros _ E. unfold StModel.enc_case in E. oks. cbn. erewrite (as_float_show (flt := flt)) by eassumption. cbn. eexists. split; [reflexivity|].
  split; cbn; [apply clean_text|]. eapply score_round_trip; eauto.
Qed.
Lemma group_round_trip g j : any g -> enc_group g = Ok j -> exists g', dec_group group0 j = Some g' /\ group_arrives to_float to_rational g g'.
Proof.
  intros _ E. unfold StModel.enc_group in E. oks.
  assert (FA : Forall any (elements (o_Cases g))) by (apply Forall_forall; intros; exact Logic.I).
  destruct (slice_round_trip _ _ case0 any _ case_round_trip _ _ FA E0) as (l & D & A). cbn. rewrite D. cbn. eexists. split; [reflexivity|]. split; cbn; auto using clean_text.
Qed.
Lemma limits_pointer l : limits_ok l -> as_pointer dec_limits limits0 None (enc_limits l) = Some (Some l).
Proof. intros O. pose proof (limits_round_trip l limits0 O) as D. unfold as_pointer. unfold StModel.enc_limits in *. rewrite D. reflexivity. Qed.
Lemma validator_round_trip v j : (forall l, w_Limits v = Some l -> limits_ok l) -> enc_validator v = Ok j -> exists v', dec_validator validator0 j = Some v' /\ validator_arrives v v'.
Proof.
  intros O E. unfold StModel.enc_validator in E. apply bind_ok in E. destruct E as (t & E0 & E). injection E as <-.
  assert (T : w_Tolerance v = None /\ t = [] \/ exists f x, w_Tolerance v = Some f /\ t = [("Tolerance"%string, x)] /\ as_pointer (as_float flt read) zero None x = Some (Some f)).
  { destruct (w_Tolerance v) as [f|]; [|injection E0 as <-; auto]. oks. right. exists f, a. split; [auto|]. split; [auto|].
    unfold as_pointer. pose proof E as E'. unfold RrModel.enc_float in E'. destruct (show f) eqn:S; [|discriminate]. injection E' as ->. destruct (FR _ _ S) as [N _].
    rewrite (as_float_show (flt := flt) show read FR f a zero E). destruct a; auto. congruence. }
  assert (L : match w_Limits v with Some l => as_pointer dec_limits limits0 None (enc_limits l) = Some (Some l) | None => True end).
  { destruct (w_Limits v); auto using limits_pointer. }
  destruct (w_Lang v) as [g|] eqn:G; destruct T as [[TE ->]|(f & x & TE & -> & TD)]; destruct (w_Limits v) as [l|] eqn:WL;
    unfold StModel.enc_limits in *; cbn [omit_nil app StModel.dec_validator]; cbn - [as_pointer StModel.dec_limits limits0]; rewrite ?TD; cbn - [as_pointer StModel.dec_limits limits0]; rewrite ?L; eexists; (split; [reflexivity|]);
    unfold validator_arrives; cbn; rewrite ?G, ?TE, ?WL; cbn; auto using clean_text.
Qed.
Lemma settings_round_trip s j : settings_ok s -> enc_settings s = Ok j -> exists s', dec_settings settings0 j = Some s' /\ settings_arrives to_float to_rational s s'.
Proof.
  intros (O1 & O2 & O3) E. unfold StModel.enc_settings in E. apply bind_ok in E. destruct E as (c & E0 & E). apply bind_ok in E. destruct E as (i & E1 & E).
  apply bind_ok in E. destruct E as (v & E2 & E). injection E as <-.
  assert (FA : Forall any (elements (s_Cases s))) by (apply Forall_forall; intros; exact Logic.I).
  destruct (slice_round_trip _ _ group0 any _ group_round_trip _ _ FA E0) as (c' & D1 & A1).
  destruct (validator_round_trip _ _ O2 E2) as (v' & D2 & A2).
  pose proof (limits_round_trip (s_Limits s) limits0 O1) as D3.
  assert (T : s_Interactive s = None /\ i = [] \/ exists t x t', s_Interactive s = Some t /\ i = [("Interactive"%string, x)] /\ as_pointer dec_interactive interactive0 None x = Some (Some t') /\ interactive_arrives t t').
  { destruct (s_Interactive s) as [t|]; [|injection E1 as <-; auto]. apply bind_ok in E1. destruct E1 as (x & E3 & E1). injection E1 as <-. right.
    destruct (interactive_round_trip t x (O3 t eq_refl) E3) as (t' & D4 & A4). exists t, x, t'. split; [auto|]. split; [auto|]. split; [|auto].
    unfold enc_interactive in E3. oks. unfold as_pointer. rewrite D4. reflexivity. }
  destruct T as [[TE ->]|(t & x & t' & TE & -> & D4 & A4)]; cbn - [as_pointer StModel.dec_limits limits0 StModel.dec_validator StModel.dec_interactive as_slice StModel.enc_limits];
    rewrite D1; cbn - [as_pointer StModel.dec_limits limits0 StModel.dec_validator StModel.dec_interactive as_slice StModel.enc_limits]; rewrite ?D4;
    cbn - [as_pointer StModel.dec_limits limits0 StModel.dec_validator StModel.dec_interactive as_slice StModel.enc_limits]; rewrite D3;
    cbn - [as_pointer StModel.dec_limits limits0 StModel.dec_validator StModel.dec_interactive as_slice StModel.enc_limits]; rewrite D2; cbn; eexists; (split; [reflexivity|]);
    unfold settings_arrives; cbn; rewrite TE; cbn; auto.
Qed.
End RoundTrip.

End Wire.

Section Write.
Context {flt : Type} (show : flt -> option json) (show_dur : Z -> json) (show_byte : Z -> json) (to_float : Q -> flt).
Notation enc_float := (RrModel.enc_float flt show).
Notation enc_case := (StModel.enc_case flt show to_float).
Notation enc_group := (StModel.enc_group flt show to_float).
Notation enc_validator := (StModel.enc_validator flt show show_dur show_byte).
Notation enc_settings := (StModel.enc_settings flt show show_dur show_byte to_float).
(* ---- what can be written ---- *)
Notation can := (can show to_float).
Lemma good_texts l : good (enc_slice enc_text l).
Proof. apply (good_slice enc_text any). { intros a. unfold any, enc_text. apply good_ok. } apply Forall_forall. intros. exact Logic.I. Qed.
Lemma good_entries {A} (enc : A -> outcome json) l : (forall k a, In (k, a) l -> good (enc a)) -> good (enc_entries enc l).
Proof.
  induction l as [|[k a] l IH]; cbn [enc_entries]; intros H; [apply good_ok; auto|]. apply good_bind. destruct (H k a (or_introl eq_refl)) as (x & X). exists x. split; [auto|].
  apply good_bind. destruct IH as (y & Y). { intros. eapply H. right. eauto. } exists y. split; [auto|]. apply good_ok. auto.
Qed.
Lemma good_mapping {A} (enc : A -> outcome json) m : (forall a, good (enc a)) -> good (enc_mapping enc m).
Proof.
  intros H. destruct m as [l|]; cbn [enc_mapping]; [|apply good_ok; auto]. apply good_bind. destruct (good_entries enc l) as (x & X); [intros; apply H|]. exists x. split; [auto|apply good_ok; auto].
Qed.
Ltac go := apply good_bind; match goal with |- exists a, ?x = Ok a /\ _ => let G := fresh in assert (G : good x); [|let y := fresh in let Y := fresh in destruct G as (y & Y); exists y; split; [exact Y|]] end.
Lemma good_rule r : good (enc_rule r). Proof. unfold enc_rule. go; [apply good_texts|]. go; [apply good_texts|]. apply good_ok; auto. Qed.
Lemma good_enc_text s : good (enc_text s). Proof. apply good_ok. auto. Qed.
Lemma good_interface i : good (enc_interface i).
Proof.
  destruct i as [i|]; cbn [enc_interface]; [|apply good_ok; auto]. go. { apply (good_slice enc_rule any). { intros a. split; [intros; exact Logic.I|intros; apply good_rule]. } apply Forall_forall. intros. exact Logic.I. }
  go; [apply good_texts|]. go; [apply good_mapping, good_enc_text|]. go; [apply good_mapping, good_enc_text|]. apply good_ok; auto.
Qed.
Lemma good_interactive t : good (enc_interactive t).
Proof.
  unfold enc_interactive. go; [apply good_mapping; intros; apply good_mapping, good_interface|]. go; [apply good_mapping, good_enc_text|]. apply good_ok; auto.
Qed.
Lemma good_case c : good (enc_case c) <-> can (k_Weight c).
Proof.
  unfold StModel.enc_case. rewrite (good_score to_float (k_Weight c) _ (fun x => good (enc_float (to_float x)))).
  - rewrite can_iff. reflexivity.
  - intros x _. erewrite good_then; [|intros; apply good_ok]. tauto.
Qed.
Lemma good_group g : good (enc_group g) <-> Forall can (map k_Weight (elements (o_Cases g))).
Proof.
  unfold StModel.enc_group. erewrite good_then; [|intros; apply good_ok]. rewrite (good_slice _ _ _ good_case), Forall_map. tauto.
Qed.
Definition tolerance_fin (s : Settings flt) : Prop := forall t, w_Tolerance (s_Validator s) = Some t -> show t <> None.
Lemma good_validator v : good (enc_validator v) <-> forall t, w_Tolerance v = Some t -> show t <> None.
Proof.
  unfold StModel.enc_validator. erewrite good_then; [|intros; apply good_ok]. destruct (w_Tolerance v) as [t|].
  - erewrite good_then; [|intros; apply good_ok]. rewrite good_float. unfold fin. split; [intros [[H _] _] ? [= <-]; auto|intros H; auto].
  - rewrite good_ok. split; [discriminate|auto].
Qed.
Lemma good_settings s : good (enc_settings s) <-> Forall can (weights s) /\ tolerance_fin s.
Proof.
  unfold StModel.enc_settings, weights. rewrite Forall_flat_map.
  rewrite (good_then _ _ (good (enc_validator (s_Validator s)))).
  - rewrite (good_slice _ _ _ good_group), good_validator. unfold tolerance_fin. tauto.
  - intros c. rewrite (good_then _ _ (good (enc_validator (s_Validator s)))).
    + split; [tauto|]. intros G. split; [|auto]. destruct (s_Interactive s) as [t|]; [|apply good_ok; auto]. go; [apply good_interactive|]. apply good_ok; auto.
    + intros i. erewrite good_then; [|intros; apply good_ok]. tauto.
Qed.
(* A panic is always about a nil weight. *)
Lemma crash_float f : enc_float f <> Crash. Proof. unfold RrModel.enc_float. destruct (show f); discriminate. Qed.
Lemma good_no_crash {A} (x : outcome A) : good x -> x <> Crash. Proof. intros (a & ->). discriminate. Qed.
Lemma crash_settings s : enc_settings s = Crash -> In None (weights s).
Proof.
  unfold StModel.enc_settings. intros C. apply bind_crash in C as [C|(? & _ & C)].
  - apply crash_slice in C. destruct C as (g & I & C). unfold StModel.enc_group in C. apply bind_crash in C as [C|(? & _ & C)]; [|discriminate].
    apply crash_slice in C. destruct C as (c & I' & C). unfold StModel.enc_case in C. unfold weights. apply in_flat_map. exists g. split; [auto|]. apply in_map_iff. exists c. split; [|auto].
    apply bind_crash in C as [C|(? & _ & C)]; [destruct (k_Weight c); [discriminate|auto]|]. apply bind_crash in C as [C|(? & _ & C)]; [elim (crash_float _ C)|discriminate].
  - exfalso. apply bind_crash in C as [C|(? & _ & C)].
    + destruct (s_Interactive s) as [t|]; [|discriminate]. apply bind_crash in C as [C|(? & _ & C)]; [|discriminate]. elim (good_no_crash _ (good_interactive t) C).
    + apply bind_crash in C as [C|(? & _ & C)]; [|discriminate]. unfold StModel.enc_validator in C. apply bind_crash in C as [C|(? & _ & C)]; [|discriminate].
      destruct (w_Tolerance _); [|discriminate]. apply bind_crash in C as [C|(? & _ & C)]; [elim (crash_float _ C)|discriminate].
Qed.

End Write.

(* ---- the sum of the weights ---- *)
Lemma sum_of_eq l : forall t t', sum_of l t -> (t == t')%Q -> sum_of l t'.
Proof. destruct l as [|q l]; cbn; intros t t' S E; [rewrite <- E; auto|]. destruct S as (w & u & Q & S & X). exists w, u. rewrite <- E. auto. Qed.
Lemma sum_of_app l l' : forall t t', sum_of l t -> sum_of l' t' -> sum_of (l ++ l') (t + t').
Proof.
  induction l as [|q l IH]; cbn; intros t t' S S'; [eapply sum_of_eq; [exact S'|]; rewrite S; ring|]. destruct S as (w & u & Q & S & E). exists w, (u + t')%Q. split; [auto|]. split; [auto|].
  rewrite E. ring.
Qed.
Lemma add_weights_sum l : forall t t', add_weights l t = Some t' -> exists u, sum_of (map k_Weight l) u /\ (t' == t + u)%Q.
Proof.
  induction l as [|c l IH]; cbn; intros t t' E; [injection E as <-; exists 0%Q; split; [reflexivity|ring]|]. destruct (k_Weight c) as [w|]; [|discriminate].
  destruct (IH _ _ E) as (u & S & X). exists (w + u)%Q. split; [exists w, u; split; [auto|]; split; [auto|reflexivity]|]. rewrite X. ring.
Qed.
Lemma add_weights_none l : forall t, add_weights l t = None <-> In None (map k_Weight l).
Proof.
  induction l as [|c l IH]; cbn; intros t; [split; [discriminate|tauto]|]. destruct (k_Weight c) as [w|]; [rewrite IH; split; [auto|intros [E|E]; [discriminate|auto]]|tauto].
Qed.
Lemma add_groups_sum l : forall t t', add_groups l t = Some t' -> exists u, sum_of (flat_map (fun g => map k_Weight (elements (o_Cases g))) l) u /\ (t' == t + u)%Q.
Proof.
  induction l as [|g l IH]; cbn [add_groups flat_map]; intros t t' E; [injection E as <-; exists 0%Q; split; [reflexivity|ring]|].
  destruct (add_weights _ t) as [t1|] eqn:A; [|discriminate]. apply add_weights_sum in A. destruct A as (u & S & X). destruct (IH _ _ E) as (v & S' & X'). exists (u + v)%Q. split; [apply sum_of_app; auto|].
  rewrite X', X. ring.
Qed.
Lemma add_groups_none l : forall t, add_groups l t = None <-> In None (flat_map (fun g => map k_Weight (elements (o_Cases g))) l).
Proof.
  induction l as [|g l IH]; cbn [add_groups flat_map]; intros t; [split; [discriminate|intros []]|]. rewrite in_app_iff. destruct (add_weights _ t) as [t1|] eqn:A.
  - rewrite IH. split; [auto|]. intros [I|I]; [|auto]. apply (add_weights_none _ t) in I. unfold elements in I. congruence.
  - split; [|auto]. intros _. left. apply add_weights_none in A. exact A.
Qed.

Section Read.
Context {flt : Type} (zero : flt) (read : json -> option flt) (read_dur : Z -> json -> option Z) (read_byte : Z -> json -> option Z)
  (to_rational : flt -> Q) (equal_fold : string -> string -> bool).
Notation dec_case := (StModel.dec_case flt zero read to_rational equal_fold).
Notation dec_group := (StModel.dec_group flt zero read to_rational equal_fold).
Notation dec_settings := (StModel.dec_settings flt zero read read_dur read_byte to_rational equal_fold).
Notation settings0 := (StModel.settings0 flt).
(* ---- what is decoded can be graded ---- *)
Definition weighed (c : Case) : Prop := k_Weight c <> None.
Lemma dec_case_weighed old j c : j <> JNull -> dec_case old j = Some c -> weighed c.
Proof. intros N E. destruct j; cbn [StModel.dec_case] in E; try discriminate; [congruence|]. somes. unfold weighed. cbn. discriminate. Qed.
Definition group_weighed (g : Group) : Prop := Forall weighed (elements (o_Cases g)).
Lemma dec_group_weighed old j g : group_weighed old -> ~ null_elements j -> dec_group old j = Some g -> group_weighed g.
Proof.
  intros O N E. destruct j; cbn [StModel.dec_group] in E; try discriminate; [congruence|]. somes. unfold group_weighed. cbn. revert E0.
  apply (member_inv equal_fold _ _ _ _ (fun m => Forall weighed (elements m))); [|exact O]. intros k j o o' I P. apply as_slice_fresh; auto.
  intros x -> a1 y b IY. apply dec_case_weighed. apply (null_elements_element x y); auto. eapply null_elements_member; eauto.
Qed.
(* As slices reuse the elements that were there, these must be fine as well. *)
Lemma as_slice_inv {A} (put : A -> json -> option A) a0 (P : A -> Prop) old j l : P a0 ->
  (forall x, j = JArr x -> forall a y b, P a -> In y x -> put a y = Some b -> P b) -> 
  Forall P (elements old) -> as_slice put a0 old j = Some l -> Forall P (elements l).
Proof.
  intros P0 H O E. destruct j as [| | | | |x|]; cbn in E; try discriminate; [injection E as <-; constructor|].
  destruct (dec_list _ _ _ x) as [r|] eqn:D; [|discriminate]. injection E as <-. cbn. specialize (H x eq_refl). unfold elements in O. revert O r D H.
  generalize (match old with Some o => o | None => [] end). induction x as [|y x IH]; cbn; intros o O r D H; [injection D as <-; constructor|].
  destruct (put (hd a0 o) y) as [b|] eqn:B; [|discriminate]. destruct (dec_list put a0 (tl o) x) as [r'|] eqn:D'; [|discriminate]. injection D as <-.
  assert (O1 : P (hd a0 o)) by (destruct O; auto). assert (O2 : Forall P (tl o)) by (destruct O; [constructor|auto]).
  constructor; [exact (H _ _ _ O1 (or_introl eq_refl) B)|]. apply (IH _ O2 _ D'). intros; eapply H; eauto.
Qed.
Lemma dec_settings_weighed j s : ~ null_elements j -> dec_settings settings0 j = Some s -> ~ In None (weights s).
Proof.
  intros N E. assert (G : Forall group_weighed (elements (s_Cases s))).
  { destruct j; cbn [StModel.dec_settings] in E; try discriminate; [injection E as <-; constructor|]. somes. cbn. revert E0.
    apply (member_inv equal_fold _ _ _ _ (fun m => Forall group_weighed (elements m))); [|constructor]. intros k j o o' I P. apply as_slice_inv; [constructor| |auto].
    intros x -> a4 y b PA IY. apply dec_group_weighed; auto. apply (null_elements_element x y); auto. eapply null_elements_member; eauto. }
  unfold weights. intros I. apply in_flat_map in I. destruct I as (g & I & I'). apply in_map_iff in I'. destruct I' as (c & E' & I').
  rewrite Forall_forall in G. specialize (G _ I). unfold group_weighed in G. rewrite Forall_forall in G. apply (G _ I' E').
Qed.
End Read.

From Coq Require Import String Ascii List Arith NArith ZArith QArith Bool Lia.
From Verif Require Import TrcModel TrcSpec.
Import ListNotations.
Local Open Scope string_scope.
Local Open Scope Z_scope.

(* ---- rounding ---- *)
Lemma round53_near z : float_near z (inject_Z (round53 z)).
Proof.
  unfold float_near, round53. set (a := Z.abs z). split.
  - intros H. destruct (Z.leb_spec a (2 ^ 53)); [reflexivity|lia].
  - eexists. split; [reflexivity|]. destruct (Z.leb_spec a (2 ^ 53)) as [L|L]; [rewrite Z.sub_diag; cbn; lia|].
    set (e := Z.log2 a - 52).
    assert (A0 : 0 < a) by (change (2 ^ 53) with 9007199254740992 in L; lia).
    destruct (Z.log2_spec a A0) as [S1 S2].
    assert (E53 : 53 <= Z.log2 a). { change 53 with (Z.log2 (2 ^ 53)). apply Z.log2_le_mono. lia. }
    assert (E1 : 1 <= e) by (unfold e; lia).
    assert (P : 0 < 2 ^ e) by (apply Z.pow_pos_nonneg; lia).
    assert (H2 : 2 ^ e = 2 * 2 ^ (e - 1)) by (rewrite <- Z.pow_succ_r by lia; f_equal; lia).
    set (h := 2 ^ (e - 1)) in *. set (q := a / 2 ^ e). set (r := a mod 2 ^ e).
    assert (D : a = 2 ^ e * q + r) by (apply Z.div_mod; lia).
    assert (R : 0 <= r < 2 ^ e) by (apply Z.mod_pos_bound; lia).
    set (q' := if h <? r then q + 1 else if r <? h then q else if Z.even q then q else q + 1).
    assert (N : Z.abs (q' * 2 ^ e - a) <= h).
    { unfold q'. destruct (Z.ltb_spec h r); [lia|]. destruct (Z.ltb_spec r h); [lia|]. destruct (Z.even q); lia. }
    assert (ZS : z = Z.sgn z * a) by (unfold a; rewrite Z.mul_comm; symmetry; apply Z.abs_sgn).
    assert (X : Z.abs (Z.sgn z * (q' * 2 ^ e) - z) = Z.abs (q' * 2 ^ e - a)).
    { rewrite ZS at 2. rewrite <- Z.mul_sub_distr_l, Z.abs_mul. replace (Z.abs (Z.sgn z)) with 1; [lia|].
      unfold a in A0. destruct (Z.sgn_spec z) as [[? ->]|[[? ->]|[? ->]]]; lia. }
    rewrite X. assert (h * 2 ^ 53 = 2 ^ Z.log2 a). { unfold h. rewrite <- Z.pow_add_r by lia. f_equal. unfold e. lia. }
    nia.
Qed.
Lemma round53_small z : Z.abs z <= 2 ^ 53 -> round53 z = z.
Proof. intros H. unfold round53. destruct (Z.leb_spec (Z.abs z) (2 ^ 53)); [auto|lia]. Qed.
Lemma round53_bound z : Z.abs z <= 2 ^ 64 -> Z.abs (round53 z) <= 2 ^ 65.
Proof.
  intros H. destruct (round53_near z) as [_ (z' & E & N)]. apply (f_equal Qnum) in E. cbn in E. subst z'.
  assert (Z.abs (round53 z - z) <= 2 ^ 64). { assert (0 <= Z.abs (round53 z - z)) by lia. change (2 ^ 53) with 9007199254740992 in N. change (2 ^ 64) with 18446744073709551616 in *. nia. }
  change (2 ^ 65) with (2 * 2 ^ 64). lia.
Qed.
Lemma round53_pos z : 0 <= z -> 0 <= round53 z.
Proof.
  intros H. destruct (round53_near z) as [_ (z' & E & N)]. apply (f_equal Qnum) in E. cbn in E. subst z'.
  change (2 ^ 53) with 9007199254740992 in N. nia.
Qed.
Lemma float_of_int_near z : - 2 ^ 63 <= z < 2 ^ 64 -> float_of_int z = Some (inject_Z (round53 z)).
Proof.
  intros H. unfold float_of_int. destruct (Z.leb_spec (2 ^ 1024) (Z.abs (round53 z))) as [L|L]; auto. exfalso.
  assert (B : Z.abs (round53 z) <= 2 ^ 65) by (apply round53_bound; lia).
  assert (2 ^ 65 < 2 ^ 1024) by (apply Z.pow_lt_mono_r; lia). lia.
Qed.

(* ---- maps ---- *)
Lemma get_set {A} (m : list (string * A)) k v k' : get (set m k v) k' = if String.eqb k k' then Some v else get m k'.
Proof.
  induction m as [|[k0 v0] m IH]; cbn; [destruct (String.eqb_spec k k'); auto|].
  destruct (String.eqb_spec k0 k) as [->|N]; cbn.
  - destruct (String.eqb_spec k k'); auto.
  - destruct (String.eqb_spec k0 k') as [->|N'].
    + destruct (String.eqb_spec k k'); [congruence|auto].
    + exact IH.
Qed.
Lemma set_new {A} (m : list (string * A)) k v : ~ In k (map fst m) -> set m k v = (m ++ [(k, v)])%list.
Proof.
  induction m as [|[k0 v0] m IH]; cbn; intros H; auto. destruct (String.eqb_spec k0 k); [tauto|]. rewrite IH; tauto.
Qed.
Lemma set_keys {A} (m : list (string * A)) k v x : In x (map fst (set m k v)) <-> x = k \/ In x (map fst m).
Proof.
  induction m as [|[k0 v0] m IH]; cbn; [intuition|].
  destruct (String.eqb_spec k0 k) as [->|N]; cbn; [|rewrite IH]; intuition.
Qed.
Lemma set_nodup {A} (m : list (string * A)) k v : NoDup (map fst m) -> NoDup (map fst (set m k v)).
Proof.
  induction m as [|[k0 v0] m IH]; cbn; intros H; [constructor; [tauto|constructor]|].
  inversion H as [|? ? H1 H2]; subst. destruct (String.eqb_spec k0 k) as [->|N]; cbn; [constructor; auto|].
  constructor; auto. rewrite set_keys. intros [X|X]; congruence.
Qed.
Lemma set_forall {A} (P : string * A -> Prop) (m : list (string * A)) k v : Forall P m -> P (k, v) -> Forall P (set m k v).
Proof.
  induction 1 as [|[k0 v0] m H1 H IH]; cbn; intros X; [constructor; auto|].
  destruct (String.eqb_spec k0 k) as [->|N]; constructor; auto.
Qed.
Lemma fold_set_nodup {A} (l : list (string * A)) m : NoDup (map fst m) -> NoDup (map fst (fold_left (fun m a => set m (fst a) (snd a)) l m)).
Proof. revert m. induction l as [|a l IH]; intros m H; cbn; auto. apply IH, set_nodup, H. Qed.
Lemma fold_set_forall {A} (P : string * A -> Prop) (l : list (string * A)) m : Forall P l -> Forall P m -> Forall P (fold_left (fun m a => set m (fst a) (snd a)) l m).
Proof. intros H. revert m. induction H as [|[k v] l H1 H IH]; intros m X; cbn; auto. apply IH, set_forall; auto. Qed.

(* ---- values ---- *)
Section V.
Variable P : value -> Prop.
Variables (H0 : P VNull) (H1 : forall b, P (VBool b)) (H2 : forall z, P (VInt z)) (H3 : forall q, P (VFloat q)) (H4 : forall s, P (VStr s)).
Variable H5 : forall l, Forall P l -> P (VArr l).
Variable H6 : forall l, Forall (fun kv => P (snd kv)) l -> P (VObj l).
Fixpoint value_ind2 (v : value) : P v :=
  match v with
  | VNull => H0 | VBool b => H1 b | VInt z => H2 z | VFloat q => H3 q | VStr s => H4 s
  | VArr l => H5 l ((fix go l := match l return Forall P l with [] => Forall_nil _ | x :: r => Forall_cons _ (value_ind2 x) (go r) end) l)
  | VObj l => H6 l ((fix go l := match l return Forall (fun kv => P (snd kv)) l with [] => Forall_nil _ | x :: r => Forall_cons _ (value_ind2 (snd x)) (go r) end) l)
  end.
End V.

Section J.
Variable show : Q -> json.
Variable dec : Q -> option Q.
Hypothesis NUM : json_numbers show dec.
Variable equal_fold : string -> string -> bool.
Variable big : Q -> Z.
Notation enc := (enc show).
Notation dec_value := (dec_value dec).
Notation fill_map := (fill_map dec).
Fixpoint dec_list (l : list json) : option (list value) :=
  match l with [] => Some [] | x :: r => match dec_value x, dec_list r with Some v, Some vs => Some (v :: vs) | _, _ => None end end.
Lemma dec_arr l : dec_value (JArr l) = option_map VArr (dec_list l).
Proof. reflexivity. Qed.
Lemma dec_obj l : dec_value (JObj l) = option_map VObj (fill_map [] l).
Proof. reflexivity. Qed.
Definition pair_ok (a b : string * value) : Prop := fst a = fst b /\ arrives (snd a) (snd b).
Lemma fill_map_enc l : Forall (fun kv => exists w, dec_value (enc (snd kv)) = Some w /\ arrives (snd kv) w) l -> NoDup (map fst l) ->
  forall m, (forall k, In k (map fst m) -> ~ In k (map fst l)) ->
  exists m', fill_map m (map (fun kv => (fst kv, enc (snd kv))) l) = Some (m ++ m')%list /\ Forall2 pair_ok l m'.
Proof.
  induction 1 as [|[k v] l (w & E & A) H IH]; cbn [map fst snd]; intros ND m HM.
  - exists []. rewrite app_nil_r. split; auto.
  - inversion ND as [|? ? N1 N2]; subst. cbn in E, A. cbn [TrcModel.fill_map]. rewrite E.
    rewrite set_new by (intros X; apply (HM _ X); left; auto).
    destruct (IH N2 (m ++ [(k, w)])%list) as (m' & E' & F).
    { intros k' X Y. rewrite map_app, in_app_iff in X. destruct X as [X|[<-|[]]]; [apply (HM _ X); right; auto|contradiction]. }
    exists ((k, w) :: m'). rewrite E', <- app_assoc. split; auto. constructor; auto. split; auto.
Qed.
Lemma dec_enc v : plain v -> exists w, dec_value (enc v) = Some w /\ arrives v w.
Proof.
  induction v as [|b|z|q|s|l IH|l IH] using value_ind2; intros HP; inversion HP; subst; cbn [TrcModel.enc].
  - exists VNull. split; [reflexivity|constructor].
  - eexists. split; [reflexivity|constructor].
  - cbn [TrcModel.dec_value]. rewrite float_of_int_near by auto. eexists. split; [reflexivity|]. constructor. apply round53_near.
  - rewrite NUM. eexists. split; [reflexivity|constructor].
  - eexists. split; [reflexivity|constructor].
  - rewrite dec_arr.
    assert (X : exists l', dec_list (map enc l) = Some l' /\ Forall2 arrives l l').
    { revert H0. clear HP. induction IH as [|v l H1 H IHl]; intros HF; [exists []; split; auto|]. inversion HF; subst.
      destruct (H1 H3) as (w & E & A). destruct (IHl H4) as (l' & E' & A'). exists (w :: l'). cbn. rewrite E, E'. split; auto. }
    destruct X as (l' & -> & A). exists (VArr l'). split; [reflexivity|constructor; auto].
  - rewrite dec_obj. destruct (fill_map_enc l) with (m := @nil (string * value)) as (m' & E & F); auto.
    { rewrite Forall_forall in *. intros x Hx. apply IH; auto. }
    rewrite E. exists (VObj m'). split; [reflexivity|constructor; auto].
Qed.

(* Arguments of events. *)
Definition good_args (a : option (list (string * value))) : Prop :=
  match a with None => True | Some m => NoDup (map fst m) /\ Forall (fun kv => plain (snd kv)) m end.
Lemma get_pairs l m k : Forall2 pair_ok l m -> match get l k, get m k with None, None => True | Some v, Some w => arrives v w | _, _ => False end.
Proof.
  induction 1 as [|[k1 v1] [k2 v2] l m [E A] H IH]; cbn; auto. cbn in E, A. subst k2. destruct (String.eqb k1 k); auto.
Qed.
Lemma fill_args r l rest : r_args r = None -> fill dec equal_fold r (("args", JObj l) :: rest) =
  match fill_map [] l with
  | Some m => fill dec equal_fold {| r_name := r_name r; r_type := r_type r; r_ts := r_ts r; r_pid := r_pid r; r_tid := r_tid r; r_args := Some m; r_dur := r_dur r |} rest
  | None => None
  end.
Proof.
  destruct r as [n t ts p td ra d]. cbn [r_args r_name r_type r_ts r_pid r_tid r_dur]. intros ->. cbn [fill].
  change (field_of equal_fold "args") with (Some "args"). unfold set_field. cbn [String.eqb Ascii.eqb Bool.eqb as_map].
  destruct (fill_map [] l); reflexivity.
Qed.
Lemma args_enc a r rest : good_args a -> r_args r = None ->
  exists a', fill dec equal_fold r (enc_args show a ++ rest) = fill dec equal_fold {| r_name := r_name r; r_type := r_type r; r_ts := r_ts r; r_pid := r_pid r; r_tid := r_tid r; r_args := a'; r_dur := r_dur r |} rest
    /\ same_args (fun _ => False) a a'.
Proof.
  intros G R. destruct r as [n t ts p td ra d]. cbn in R. subst ra. destruct a as [[|kv m]|]; cbn [enc_args].
  - exists None. split; [reflexivity|]. intros k _. exact Logic.I.
  - destruct G as [G1 G2]. destruct (fill_map_enc (kv :: m)) with (m := @nil (string * value)) as (m' & E & F); auto.
    { eapply Forall_impl; [|exact G2]. intros a. apply dec_enc. }
    exists (Some m'). split.
    + cbn [app]. rewrite fill_args by reflexivity. rewrite E. reflexivity.
    + intros k _. apply get_pairs. auto.
  - exists None. split; [reflexivity|]. intros k _. exact Logic.I.
Qed.
Definition in64 (z : Z) : Prop := - 2 ^ 63 <= z < 2 ^ 63.
Lemma as_int64_ok o z : in64 z -> as_int64 o (JInt z) = Some z.
Proof. intros [A B]. unfold as_int64. destruct (Z.leb_spec (- 2 ^ 63) z); [|lia]. destruct (Z.ltb_spec z (2 ^ 63)); [|lia]. reflexivity. Qed.
Definition good (n : NormalEvent) : Prop := in64 (Timestamp n) /\ in64 (PID n) /\ in64 (TID n) /\ good_args (Args n).
Lemma normal_enc n rest : good n ->
  exists a', fill dec equal_fold raw0 (enc_normal show n ++ rest) =
     fill dec equal_fold {| r_name := Name n; r_type := Type_ n; r_ts := Timestamp n; r_pid := PID n; r_tid := TID n; r_args := a'; r_dur := None |} rest /\ same_args (fun _ => False) (Args n) a'.
Proof.
  intros (G1 & G2 & G3 & G4). unfold enc_normal. rewrite <- app_assoc. cbn [app].
  set (r1 := {| r_name := Name n; r_type := Type_ n; r_ts := Timestamp n; r_pid := PID n; r_tid := TID n; r_args := None; r_dur := None |}).
  destruct (args_enc (Args n) r1 rest G4 eq_refl) as (a' & E & S). exists a'. split; [|auto]. etransitivity; [|exact E]. clear E.
  cbn [fill]. change (field_of equal_fold "name") with (Some "name"). change (field_of equal_fold "ph") with (Some "ph").
  change (field_of equal_fold "ts") with (Some "ts"). change (field_of equal_fold "pid") with (Some "pid"). change (field_of equal_fold "tid") with (Some "tid").
  unfold set_field, raw0. cbn [String.eqb Ascii.eqb Bool.eqb as_string option_map].
  do 3 (rewrite as_int64_ok by auto; cbn [option_map]). reflexivity.
Qed.

Lemma fnv_bound s : 0 <= fnv32a s < 2 ^ 32.
Proof.
  unfold fnv32a. assert (X : forall l h, 0 <= h < 2 ^ 32 -> 0 <= fold_left (fun h c => (Z.lxor h (Z.of_N (N_of_ascii c)) * 16777619) mod 2 ^ 32) l h < 2 ^ 32).
  { induction l as [|c l IH]; intros h H; cbn [fold_left]; auto. apply IH. apply Z.mod_pos_bound. lia. }
  apply X. lia.
Qed.
(* What a finalized event looks like. *)
Inductive shape : event -> Prop :=
| sh_normal n : good n -> Type_ n <> "X" -> Type_ n <> "c" -> shape (Normal n)
| sh_complete n d : good n -> Type_ n = "X" -> in64 d -> shape (Complete n d)
| sh_issuer n s ts : good n -> Type_ n = "c" -> 0 <= s < 2 ^ 63 -> args_get (Args n) "sync_id" = Some (VInt s) -> args_get (Args n) "issue_ts" = Some ts -> shape (Issuer n s)
| sh_receiver n s : good n -> Type_ n = "c" -> 0 <= s < 2 ^ 63 -> args_get (Args n) "sync_id" = Some (VInt s) -> args_get (Args n) "issue_ts" = None -> shape (Normal n).
Lemma in64_fnv s : in64 (fnv32a s).
Proof. pose proof (fnv_bound s). unfold in64. lia. Qed.
Lemma in64_clock t : clock t -> in64 t.
Proof. unfold clock, in64. lia. Qed.
Lemma new_args args : Forall (fun a => plain (snd a)) args -> good_args (match args with [] => None | _ => Some (fold_left (fun m a => set m (fst a) (snd a)) args []) end).
Proof.
  intros H. destruct args as [|a args]; [exact Logic.I|]. split; [apply fold_set_nodup; constructor|].
  apply fold_set_forall; auto.
Qed.
Lemma collected_shape e : collected e -> shape e.
Proof.
  intros (e0 & now & M & C & F). destruct M.
  - cbn in F. injection F as <-. apply sh_normal; [|assumption|assumption]. split; [apply in64_clock; auto|]. split; [apply in64_fnv|]. split; [apply in64_fnv|]. apply new_args. auto.
  - cbn in F. injection F as <-. apply sh_complete; [|reflexivity|cbn; unfold clock, in64 in *; lia].
    split; [apply in64_clock; auto|]. split; [apply in64_fnv|]. split; [apply in64_fnv|]. apply new_args. auto.
  - cbn in F. injection F as <-. eapply sh_issuer; [|reflexivity|auto|reflexivity|reflexivity].
    split; [apply in64_clock; auto|]. split; [apply in64_fnv|]. split; [apply in64_fnv|]. cbn.
    split; [repeat constructor; cbn; intuition discriminate|]. repeat constructor; cbn; try lia; unfold clock in *; lia.
  - cbn in F. injection F as <-. eapply sh_receiver; [|reflexivity|eauto|reflexivity|reflexivity].
    split; [apply in64_clock; auto|]. split; [apply in64_fnv|]. split; [apply in64_fnv|]. cbn.
    split; [repeat constructor; cbn; intuition|]. repeat constructor; cbn; lia.
Qed.
Lemma uint64_near s : 0 <= s < 2 ^ 53 -> uint64_of big (inject_Z (round53 s)) = s.
Proof.
  intros H. rewrite round53_small by lia. unfold uint64_of, inject_Z. cbn [Qnum Qden]. rewrite Z.quot_1_r.
  destruct (Z.leb_spec 0 s); [|lia]. destruct (Z.ltb_spec s (2 ^ 64)); [|lia]. reflexivity.
Qed.
Lemma uint64_int z : 0 <= z < 2 ^ 64 -> uint64_of big (inject_Z z) = z.
Proof.
  intros H. unfold uint64_of, inject_Z. cbn [Qnum Qden]. rewrite Z.quot_1_r.
  destruct (Z.leb_spec 0 z); [|lia]. destruct (Z.ltb_spec z (2 ^ 64)); [|lia]. reflexivity.
Qed.
(* The arrival of one event. *)
Definition arrive (e : event) : option event := match dec_raw dec equal_fold (enc_event show e) with None => None | Some r => event_of big r end.
Lemma same_args_get a b k v : same_args (fun _ => False) a b -> args_get a k = Some v -> exists w, args_get b k = Some w /\ arrives v w.
Proof. intros H E. specialize (H k (fun x => x)). rewrite E in H. destruct (args_get b k) as [w|]; [eauto|contradiction]. Qed.
Lemma same_args_none a b k : same_args (fun _ => False) a b -> args_get a k = None -> args_get b k = None.
Proof. intros H E. specialize (H k (fun x => x)). rewrite E in H. destruct (args_get b k) as [w|]; [contradiction|auto]. Qed.
Lemma round53_lt64 s : 0 <= s < 2 ^ 63 -> 0 <= round53 s < 2 ^ 64.
Proof.
  intros H. split; [apply round53_pos; lia|]. destruct (round53_near s) as [_ (z' & E & N)]. apply (f_equal Qnum) in E. cbn in E. subst z'.
  change (2 ^ 53) with 9007199254740992 in N. change (2 ^ 63) with 9223372036854775808 in H. change (2 ^ 64) with 18446744073709551616. nia.
Qed.
Lemma arrives_int z w : arrives (VInt z) w -> exists q, w = VFloat q.
Proof. intros H. inversion H; subst. eauto. Qed.
Lemma arrive_ok e : shape e -> exists r e', dec_raw dec equal_fold (enc_event show e) = Some r /\ event_of big r = Some e' /\ same_event e e'.
Proof.
  intros S. destruct S as [n G T1 T2|n d G T D|n s ts G T S E1 E2|n s G T S E1 E2].
  - destruct (normal_enc n [] G) as (a' & E & A). rewrite app_nil_r in E. cbn [fill] in E.
    eexists _, _. split; [exact E|]. unfold event_of, EventComplete, EventClockSync. cbn [r_type r_dur r_args r_name r_ts r_pid r_tid].
    destruct (String.eqb_spec (Type_ n) "X"); [contradiction|]. destruct (String.eqb_spec (Type_ n) "c"); [contradiction|].
    split; [reflexivity|]. apply se_normal; auto. repeat split.
  - destruct (normal_enc n [("dur", JInt d)] G) as (a' & E & A).
    eexists _, _. split; [cbn [enc_event dec_raw]; rewrite E|].
    { cbn [fill]. change (field_of equal_fold "dur") with (Some "dur"). unfold set_field. cbn [String.eqb Ascii.eqb Bool.eqb as_pointer].
      rewrite as_int64_ok by auto. cbn [option_map]. reflexivity. }
    unfold event_of, EventComplete. cbn [r_type r_dur r_args r_name r_ts r_pid r_tid]. rewrite T. cbn [String.eqb Ascii.eqb Bool.eqb option_map].
    split; [reflexivity|]. apply se_complete; [|exact A]. repeat split; auto.
  - destruct (normal_enc n [] G) as (a' & E & A). rewrite app_nil_r in E. cbn [fill] in E.
    destruct (same_args_get _ _ _ _ A E1) as (w & Ew & Aw). destruct (arrives_int _ _ Aw) as (q & ->).
    destruct (same_args_get _ _ _ _ A E2) as (w2 & Ew2 & _).
    eexists _, _. split; [exact E|]. unfold event_of, EventComplete, EventClockSync. cbn [r_type r_dur r_args r_name r_ts r_pid r_tid]. rewrite T. cbn [String.eqb Ascii.eqb Bool.eqb]. rewrite Ew.
    rewrite Ew2. split; [reflexivity|].
    inversion Aw as [| |? ? FN| | | |]; subst. destruct FN as [F1 (z' & -> & F2)].
    assert (B : 0 <= z' < 2 ^ 64).
    { change (2 ^ 53) with 9007199254740992 in F2. change (2 ^ 63) with 9223372036854775808 in S. change (2 ^ 64) with 18446744073709551616. nia. }
    rewrite uint64_int by auto. apply se_issuer; [repeat split; auto|exact A|]. split; [auto|eauto].
  - destruct (normal_enc n [] G) as (a' & E & A). rewrite app_nil_r in E. cbn [fill] in E.
    destruct (same_args_get _ _ _ _ A E1) as (w & Ew & Aw). destruct (arrives_int _ _ Aw) as (q & ->).
    eexists _, _. split; [exact E|]. unfold event_of, EventComplete, EventClockSync. cbn [r_type r_dur r_args r_name r_ts r_pid r_tid]. rewrite T. cbn [String.eqb Ascii.eqb Bool.eqb]. rewrite Ew.
    rewrite (same_args_none _ _ _ A E2). split; [reflexivity|].
    inversion Aw as [| |? ? FN| | | |]; subst. destruct FN as [F1 (z' & -> & F2)].
    assert (B : 0 <= z' < 2 ^ 64).
    { change (2 ^ 53) with 9007199254740992 in F2. change (2 ^ 63) with 9223372036854775808 in S. change (2 ^ 64) with 18446744073709551616. nia. }
    rewrite uint64_int by auto. destruct a' as [m|]; [|discriminate Ew]. cbn [option_map].
    eapply se_receiver; [auto|repeat split; auto| |exact E1|cbn; rewrite get_set, String.eqb_refl; reflexivity|split; [auto|eauto]].
    intros k K. cbn [Args args_get]. rewrite get_set. destruct (String.eqb_spec "sync_id" k) as [<-|N]; [elim K; auto|]. apply (A k (fun x => x)).
Qed.
Lemma arrive_all es : Forall shape es -> exists rs es', dec_raws dec equal_fold (map (enc_event show) es) = Some rs /\ events_of big rs = Some es' /\ Forall2 same_event es es'.
Proof.
  induction 1 as [|e es H HF IH]; [exists [], []; repeat split; auto|].
  destruct (arrive_ok e H) as (r & e' & E1 & E2 & S). destruct IH as (rs & es' & I1 & I2 & I3).
  exists (r :: rs), (e' :: es'). cbn [map dec_raws events_of]. rewrite E1, I1, E2, I2. repeat split; auto.
Qed.
End J.

(* ---- what an upload can do ---- *)
Lemma events_of_none big rs : events_of big rs = None <-> exists r, In r rs /\ event_of big r = None.
Proof.
  induction rs as [|r rs IH]; cbn; [split; [discriminate|intros (? & [] & _)]|].
  destruct (event_of big r) eqn:E.
  - destruct (events_of big rs) eqn:E2.
    + split; [discriminate|]. intros (x & [->|X] & Y); [congruence|]. assert (Some l = None) by (apply IH; eauto). discriminate.
    + split; [|auto]. intros _. destruct (proj1 IH eq_refl) as (x & X & Y). eauto.
  - split; eauto.
Qed.
Lemma event_of_none big r : event_of big r = None <->
  (r_type r = "X" /\ r_dur r = None) \/ (r_type r = "c" /\ forall q, args_get (r_args r) "sync_id" <> Some (VFloat q)).
Proof.
  unfold event_of, EventComplete, EventClockSync. destruct (String.eqb_spec (r_type r) "X") as [->|N].
  - destruct (r_dur r); cbn; split; intros H; try discriminate; auto; destruct H as [[_ H]|[H _]]; discriminate.
  - destruct (String.eqb_spec (r_type r) "c") as [->|N2].
    + destruct (args_get (r_args r) "sync_id") as [[]|] eqn:E; cbn;
        try (split; [intros _; right; split; [auto|intros ? X; discriminate]|auto]; fail).
      split; [destruct (args_get (r_args r) "issue_ts"); discriminate|]. intros [[? _]|[_ H]]; [discriminate|]. exfalso. eapply H. reflexivity.
    + split; [discriminate|]. intros [[? _]|[? _]]; contradiction.
Qed.
Definition final (e : event) : Prop := forall now, Finalize now e = Some e.
Lemma finalize_final now e e' : Finalize now e = Some e' -> final e'.
Proof.
  destruct e as [n|n d|n s]; cbn.
  - intros [= <-] x. destruct n; reflexivity.
  - destruct (finalized n) eqn:E; intros [= <-] x; cbn; [rewrite E|]; reflexivity.
  - destruct (finalized n) eqn:E; [intros [= <-] x; cbn; rewrite E; reflexivity|]. destruct (Args n); [|discriminate]. intros [= <-] x. reflexivity.
Qed.
Lemma event_of_final big r e : event_of big r = Some e -> final e.
Proof.
  unfold event_of. destruct (r_type r =? EventComplete)%string; [destruct (r_dur r); [|discriminate]; intros [= <-] x; reflexivity|].
  destruct (r_type r =? EventClockSync)%string; [|intros [= <-] x; reflexivity].
  destruct (args_get (r_args r) "sync_id") as [[]|]; try discriminate.
  destruct (args_get (r_args r) "issue_ts"); intros [= <-] x; reflexivity.
Qed.
Lemma events_of_final big rs es : events_of big rs = Some es -> Forall final es.
Proof.
  revert es. induction rs as [|r rs IH]; cbn; intros es; [intros [= <-]; constructor|].
  destruct (event_of big r) eqn:E; [|discriminate]. destruct (events_of big rs); [|discriminate]. intros [= <-]. constructor; eauto using event_of_final.
Qed.

(* ---- collectors ---- *)
Lemma NoDup_app_snoc_aux {A} (l : list A) x : NoDup l -> ~ In x l -> NoDup (l ++ [x]).
Proof.
  induction 1 as [|y l N H IH]; cbn; intros X; [constructor; [auto|constructor]|].
  constructor; [|apply IH; tauto]. rewrite in_app_iff. cbn. intros [Y|[Y|[]]]; [auto|]. apply X. auto.
Qed.
Section C.
Variable kind : nat -> collector.
Variable text : event -> string.
Notation step := (step kind text).
Notation exec := (exec kind text).
Lemma set_nat_eq {A} (f : nat -> A) i x : set_nat f i x i = x.
Proof. unfold set_nat. rewrite Nat.eqb_refl. auto. Qed.
Lemma set_nat_ne {A} (f : nat -> A) i x j : j <> i -> set_nat f i x j = f j.
Proof. unfold set_nat. intros H. destruct (Nat.eqb_spec j i); [contradiction|auto]. Qed.
Definition wf (ls : list label) : Prop := forall i k e x, In (Adds i k e x) ls -> NoDup (collectors x).
Lemma str_app_assoc (a b c : string) : ((a ++ b) ++ c = a ++ (b ++ c))%string.
Proof. induction a as [|x a IH]; cbn; [auto|]. f_equal. auto. Qed.
Lemma str_app_nil (a : string) : (a ++ "" = a)%string.
Proof. induction a as [|x a IH]; cbn; [auto|]. f_equal. auto. Qed.
Lemma lines_app l m : lines text (l ++ m) = (lines text l ++ lines text m)%string.
Proof. induction l as [|[[i k] e] l IH]; cbn [app lines]; [reflexivity|]. rewrite IH, !str_app_assoc. reflexivity. Qed.

(* What is known of the Add of event (i, k), started as e0 in context x and now e, that
   is done with the collectors d. *)
Definition track (ls : list label) (s : state) (i k : nat) (e : event) (d r : list nat) : Prop :=
  exists e0 x, In (Adds i k e0 x) ls /\ collectors x = (d ++ r)%list
    /\ (e = e0 \/ exists now, Finalize now e0 = Some e)
    /\ (forall c, In c d -> kind c <> Null -> In (i, k, e) (log s c))
    /\ (forall c e', In (i, k, e') (log s c) -> In c d /\ e' = e /\ exists now, Finalize now e0 = Some e).
Record inv (ls : list label) (s : state) : Prop := {
  iv_now : forall i k e cs ph, adding s i = Some (k, e, cs, ph) -> S k = added s i /\ exists d, track ls s i k e d cs;
  iv_phase : forall i k e cs ph, adding s i = Some (k, e, cs, ph) -> ph <> Between -> exists c cs', cs = c :: cs' /\ kind c = Writer /\ lock s c = Some i /\ final e /\ exists e0 x now, In (Adds i k e0 x) ls /\ Finalize now e0 = Some e;
  iv_lock : forall c i, lock s c = Some i -> exists k e cs ph, adding s i = Some (k, e, c :: cs, ph) /\ ph <> Between;
  iv_adds : forall i k e x, In (Adds i k e x) ls -> (k < added s i)%nat;
  iv_uniq : forall i k e x e' x', In (Adds i k e x) ls -> In (Adds i k e' x') ls -> e = e' /\ x = x';
  iv_log : forall c i k e, In (i, k, e) (log s c) -> exists e0 x, In (Adds i k e0 x) ls;
  iv_done : forall i k e x, In (Adds i k e x) ls -> (exists e' cs ph, adding s i = Some (k, e', cs, ph)) \/ exists ok, In (Returns i k ok) ls;
  iv_ret : forall i k ok, In (Returns i k ok) ls -> (k < added s i)%nat /\ (forall e cs ph, adding s i <> Some (k, e, cs, ph))
     /\ exists e d r, track ls s i k e d r /\ (ok = true -> r = []) /\ (ok = false -> exists c cs, r = c :: cs /\ kind c = Writer)
}.
Lemma track_mono ls l s s' i k e d r :
  (forall c e', In (i, k, e') (log s' c) <-> In (i, k, e') (log s c)) ->
  track ls s i k e d r -> track (ls ++ [l]) s' i k e d r.
Proof.
  intros L (e0 & x & H1 & H2 & H3 & H4 & H5). exists e0, x. split; [apply in_or_app; auto|]. split; [auto|]. split; [auto|]. split.
  - intros c A B. apply L. auto.
  - intros c e' A. apply L in A. auto.
Qed.

Definition fin_of (ls : list label) (i k : nat) (e : event) : Prop := exists e0 x now, In (Adds i k e0 x) ls /\ Finalize now e0 = Some e.
Lemma track_fin ls s i k e d r now e' : track ls s i k e d r -> Finalize now e = Some e' -> track ls s i k e' d r /\ fin_of ls i k e'.
Proof.
  intros (e0 & x & H1 & H2 & H3 & H4 & H5) F.
  assert (F0 : exists now, Finalize now e0 = Some e').
  { destruct H3 as [->|(n0 & F0)]; [eauto|]. pose proof (finalize_final _ _ _ F0 now). exists n0. congruence. }
  assert (SAME : (exists n, Finalize n e0 = Some e) -> e' = e).
  { intros (n0 & F1). pose proof (finalize_final _ _ _ F1 now). congruence. }
  split; [|destruct F0 as (n & F0); exists e0, x, n; auto].
  exists e0, x. split; [auto|]. split; [auto|]. split; [auto|]. split.
  - intros c A B. specialize (H4 c A B). rewrite SAME; auto. apply (H5 _ _ H4).
  - intros c e1 A. destruct (H5 _ _ A) as (B1 & B2 & B3). split; [auto|]. rewrite (SAME B3). auto.
Qed.
Lemma track_null ls s i k e d c r : kind c = Null -> track ls s i k e d (c :: r) -> track ls s i k e (d ++ [c]) r.
Proof.
  intros N (e0 & x & H1 & H2 & H3 & H4 & H5). exists e0, x. split; [auto|]. split; [rewrite <- app_assoc; auto|]. split; [auto|]. split.
  - intros c' A B. apply in_app_iff in A as [A|[<-|[]]]; [auto|contradiction].
  - intros c' e' A. destruct (H5 _ _ A) as (X & Y). split; [apply in_or_app; auto|auto].
Qed.
Lemma track_log ls s s' i k e d c r :
  (forall i k e x e' x', In (Adds i k e x) ls -> In (Adds i k e' x') ls -> e = e' /\ x = x') ->
  fin_of ls i k e -> log s' = set_nat (log s) c (log s c ++ [(i, k, e)])%list -> track ls s i k e d (c :: r) -> track ls s' i k e (d ++ [c]) r.
Proof.
  intros U (e1 & x1 & now & F1 & F2) L (e0 & x & H1 & H2 & H3 & H4 & H5).
  destruct (U _ _ _ _ _ _ H1 F1) as [-> ->]. exists e1, x1. split; [auto|]. split; [rewrite <- app_assoc; auto|]. split; [auto|]. split.
  - intros c' A B. rewrite L. unfold set_nat. destruct (Nat.eqb_spec c' c) as [->|N].
    + apply in_or_app. right. left. auto.
    + apply in_app_iff in A as [A|[<-|[]]]; [auto|contradiction].
  - intros c' e' A. rewrite L in A. unfold set_nat in A. destruct (Nat.eqb_spec c' c) as [->|N].
    + apply in_app_iff in A as [A|[A|[]]].
      * destruct (H5 _ _ A) as (X & Y). split; [apply in_or_app; auto|auto].
      * injection A as <-. split; [apply in_or_app; right; left; auto|]. eauto.
    + destruct (H5 _ _ A) as (X & Y). split; [apply in_or_app; auto|auto].
Qed.
Lemma track_ls ls l s i k e d r : track ls s i k e d r -> track (ls ++ [l]) s i k e d r.
Proof. apply track_mono. intros; reflexivity. Qed.
Lemma fin_of_ls ls l i k e : fin_of ls i k e -> fin_of (ls ++ [l]) i k e.
Proof. intros (e0 & x & n & A & B). exists e0, x, n. split; [apply in_or_app; auto|auto]. Qed.
Definition not_adds (l : label) : Prop := match l with Adds _ _ _ _ => False | _ => True end.
Lemma in_snoc {A} (x : A) l y : In x (l ++ [y]) <-> In x l \/ x = y.
Proof. rewrite in_app_iff. cbn. intuition. Qed.

Lemma inv_move ls s l s' i k e cs ph a' :
  inv ls s -> adding s i = Some (k, e, cs, ph) ->
  adding s' = set_nat (adding s) i a' -> added s' = added s ->
  (forall j k' c e', (j, k') <> (i, k) -> In (j, k', e') (log s' c) <-> In (j, k', e') (log s c)) ->
  (forall c j, j <> i -> lock s' c = Some j <-> lock s c = Some j) ->
  (forall c, lock s' c = Some i -> exists k e cs ph, a' = Some (k, e, c :: cs, ph) /\ ph <> Between) ->
  ((l = Tau /\ exists e1 cs1 ph1 d, a' = Some (k, e1, cs1, ph1) /\ track ls s' i k e1 d cs1
      /\ (ph1 <> Between -> exists c cs', cs1 = c :: cs' /\ kind c = Writer /\ lock s' c = Some i /\ fin_of ls i k e1))
   \/ (exists ok e1 d r, l = Returns i k ok /\ a' = None /\ track ls s' i k e1 d r
      /\ (ok = true -> r = []) /\ (ok = false -> exists c cs, r = c :: cs /\ kind c = Writer))) ->
  inv (ls ++ [l]) s'.
Proof.
  intros I A EA ED EL EK1 EK2 EE.
  assert (NA : not_adds l) by (destruct EE as [(-> & _)|(? & ? & ? & ? & -> & _)]; exact Logic.I).
  assert (IA : forall j k' e0 x, In (Adds j k' e0 x) (ls ++ [l]) <-> In (Adds j k' e0 x) ls).
  { intros. rewrite in_snoc. split; [intros [X|X]; [auto|subst; contradiction]|auto]. }
  assert (EL2 : forall j k', (j, k') <> (i, k) -> forall c e', In (j, k', e') (log s' c) <-> In (j, k', e') (log s c)) by auto.
  destruct (iv_now _ _ I _ _ _ _ _ A) as (SK & d0 & T0).
  split.
  - intros j k' e' cs' ph' H. rewrite EA in H. destruct (Nat.eqb_spec j i) as [->|N].
    + rewrite set_nat_eq in H. subst a'. destruct EE as [(-> & e1 & cs1 & ph1 & d & E1 & T & _)|(? & ? & ? & ? & _ & E1 & _)]; [|discriminate].
      injection E1 as -> -> -> ->. rewrite ED. split; [auto|]. exists d. apply track_ls, T.
    + rewrite set_nat_ne in H by auto. destruct (iv_now _ _ I _ _ _ _ _ H) as (X & d & T). rewrite ED. split; [auto|]. exists d.
      eapply track_mono; [|exact T]. intros c e2. apply EL. congruence.
  - intros j k' e' cs' ph' H NB. rewrite EA in H. destruct (Nat.eqb_spec j i) as [->|N].
    + rewrite set_nat_eq in H. subst a'. destruct EE as [(-> & e1 & cs1 & ph1 & d & E1 & T & F)|(? & ? & ? & ? & _ & E1 & _)]; [|discriminate].
      injection E1 as -> -> -> ->. destruct (F NB) as (c & cs' & F1 & F2 & F3 & F4). exists c, cs'. split; [auto|]. split; [auto|]. split; [auto|].
      split; [destruct F4 as (? & ? & ? & _ & F4); eapply finalize_final, F4|]. apply fin_of_ls. auto.
    + rewrite set_nat_ne in H by auto. destruct (iv_phase _ _ I _ _ _ _ _ H NB) as (c & cs0 & F1 & F2 & F3 & F4 & F5). exists c, cs0. split; [auto|]. split; [auto|].
      split; [apply EK1; auto|]. split; [auto|]. apply fin_of_ls. exact F5.
  - intros c j H. destruct (Nat.eqb_spec j i) as [->|N].
    + destruct (EK2 _ H) as (k1 & e1 & cs1 & ph1 & -> & X). exists k1, e1, cs1, ph1. rewrite EA, set_nat_eq. auto.
    + apply EK1 in H; [|auto]. destruct (iv_lock _ _ I _ _ H) as (k1 & e1 & cs1 & ph1 & X). exists k1, e1, cs1, ph1. rewrite EA, set_nat_ne by auto. auto.
  - intros j k' e0 x H. rewrite ED. apply IA in H. eapply iv_adds; eauto.
  - intros j k' e0 x e0' x' H H'. apply IA in H, H'. eapply iv_uniq; eauto.
  - intros c j k' e' H. destruct (Nat.eq_dec j i) as [->|N]; [destruct (Nat.eq_dec k' k) as [->|N]|].
    + destruct T0 as (e0 & x & X & _). exists e0, x. apply IA. auto.
    + apply EL in H; [|congruence]. destruct (iv_log _ _ I _ _ _ _ H) as (e0 & x & X). exists e0, x. apply IA. auto.
    + apply EL in H; [|congruence]. destruct (iv_log _ _ I _ _ _ _ H) as (e0 & x & X). exists e0, x. apply IA. auto.
  - intros j k' e0 x H. apply IA in H. destruct (iv_done _ _ I _ _ _ _ H) as [(e' & cs' & ph' & X)|(ok & X)]; [|right; exists ok; apply in_snoc; auto].
    destruct (Nat.eqb_spec j i) as [->|N].
    + rewrite A in X. injection X as <- <- <- <-. destruct EE as [(-> & e1 & cs1 & ph1 & d & -> & _)|(ok & ? & ? & ? & -> & _)].
      * left. exists e1, cs1, ph1. rewrite EA, set_nat_eq. auto.
      * right. exists ok. apply in_snoc. auto.
    + left. exists e', cs', ph'. rewrite EA, set_nat_ne; auto.
  - intros j k' ok H. apply in_snoc in H as [H|H].
    + destruct (iv_ret _ _ I _ _ _ H) as (R1 & R2 & e1 & d & r & R3 & R4). rewrite ED. split; [auto|].
      assert (NE : (j, k') <> (i, k)) by (intros X; injection X as -> ->; eapply R2; eauto).
      split; [|exists e1, d, r; split; [eapply track_mono; [|exact R3]; intros; apply EL; auto|auto]].
      intros e2 cs2 ph2 X. rewrite EA in X. destruct (Nat.eqb_spec j i) as [->|N].
      * rewrite set_nat_eq in X. subst a'. destruct EE as [(_ & e3 & cs3 & ph3 & d3 & E3 & _)|(? & ? & ? & ? & _ & E3 & _)]; [|discriminate]. injection E3 as -> -> -> ->. apply NE. auto.
      * rewrite set_nat_ne in X by auto. eapply R2; eauto.
    + subst l. destruct EE as [(X & _)|(ok1 & e1 & d & r & X & EN & T & R)]; [discriminate|]. injection X as -> -> ->. rewrite ED. split; [lia|].
      split; [intros e2 cs2 ph2 Y; rewrite EA, set_nat_eq in Y; congruence|]. exists e1, d, r. split; [apply track_ls, T|exact R].
Qed.
Lemma inv_adds ls s i e x : inv ls s -> adding s i = None ->
  inv (ls ++ [Adds i (added s i) e x]) (with_added (with_adding s i (Some (added s i, e, collectors x, Between))) i (S (added s i))).
Proof.
  intros I A. assert (FRESH : forall e' c, ~ In (i, added s i, e') (log s c)).
  { intros e' c H. destruct (iv_log _ _ I _ _ _ _ H) as (e0 & y & X). apply (iv_adds _ _ I) in X. lia. }
  split; cbn [adding added log lock with_added with_adding].
  - intros j k' e' cs' ph' H. destruct (Nat.eqb_spec j i) as [->|N].
    + rewrite set_nat_eq in H. injection H as <- <- <- <-. rewrite set_nat_eq. split; [auto|]. exists [], e, x. split; [apply in_snoc; auto|]. split; [auto|]. split; [auto|].
      split; [intros c []|]. intros c e' H. exfalso. eapply FRESH, H.
    + rewrite set_nat_ne in H by auto. rewrite set_nat_ne by auto. destruct (iv_now _ _ I _ _ _ _ _ H) as (X & d & T). split; [auto|]. exists d. eapply track_mono; [|exact T]. intros; reflexivity.
  - intros j k' e' cs' ph' H NB. destruct (Nat.eqb_spec j i) as [->|N].
    + rewrite set_nat_eq in H. injection H as <- <- <- <-. congruence.
    + rewrite set_nat_ne in H by auto. destruct (iv_phase _ _ I _ _ _ _ _ H NB) as (c & cs0 & F1 & F2 & F3 & F4 & F5). exists c, cs0. repeat (split; [auto|]). apply fin_of_ls, F5.
  - intros c j H. destruct (iv_lock _ _ I _ _ H) as (k1 & e1 & cs1 & ph1 & X & Y). assert (j <> i) by congruence. exists k1, e1, cs1, ph1. rewrite set_nat_ne by auto. auto.
  - intros j k' e0 y H. apply in_snoc in H as [H|H].
    + apply (iv_adds _ _ I) in H. unfold set_nat. destruct (Nat.eqb_spec j i); subst; lia.
    + injection H as -> -> _ _. rewrite set_nat_eq. lia.
  - intros j k' e0 y e0' y' H H'. apply in_snoc in H, H'. destruct H as [H|H], H' as [H'|H'].
    + eapply iv_uniq; eauto.
    + injection H' as -> -> _ _. apply (iv_adds _ _ I) in H. lia.
    + injection H as -> -> _ _. apply (iv_adds _ _ I) in H'. lia.
    + injection H as -> -> -> ->. injection H' as -> ->. auto.
  - intros c j k' e' H. destruct (iv_log _ _ I _ _ _ _ H) as (e0 & y & X). exists e0, y. apply in_snoc. auto.
  - intros j k' e0 y H. apply in_snoc in H as [H|H].
    + destruct (iv_done _ _ I _ _ _ _ H) as [(e' & cs' & ph' & X)|(ok & X)]; [|right; exists ok; apply in_snoc; auto].
      left. exists e', cs', ph'. rewrite set_nat_ne; [auto|congruence].
    + injection H as -> -> -> ->. left. exists e, (collectors x), Between. rewrite set_nat_eq. auto.
  - intros j k' ok H. apply in_snoc in H as [H|H]; [|discriminate].
    destruct (iv_ret _ _ I _ _ _ H) as (R1 & R2 & e1 & d & r & R3 & R4).
    split; [unfold set_nat; destruct (Nat.eqb_spec j i); subst; lia|].
    split; [|exists e1, d, r; split; [eapply track_mono; [|exact R3]; intros; reflexivity|auto]].
    intros e2 cs2 ph2 X. destruct (Nat.eqb_spec j i) as [->|N]; [rewrite set_nat_eq in X; injection X as <- _ _ _; lia|]. rewrite set_nat_ne in X by auto. eapply R2; eauto.
Qed.
Lemma log_other (f : nat -> list (nat * nat * event)) c i k e j k' c' e' : (j, k') <> (i, k) ->
  In (j, k', e') (set_nat f c (f c ++ [(i, k, e)])%list c') <-> In (j, k', e') (f c').
Proof.
  intros N. unfold set_nat. destruct (Nat.eqb_spec c' c) as [->|]; [|reflexivity]. rewrite in_snoc. split; [|auto]. intros [X|X]; [auto|]. exfalso. apply N. congruence.
Qed.
(* Nobody else holds what i holds; i holds one lock. *)
Lemma held ls s i k e c cs ph : inv ls s -> adding s i = Some (k, e, c :: cs, ph) -> ph <> Between ->
  lock s c = Some i /\ forall c', lock s c' = Some i -> c' = c.
Proof.
  intros I A N. destruct (iv_phase _ _ I _ _ _ _ _ A N) as (c0 & cs0 & X & _ & L & _). injection X as <- <-. split; [auto|].
  intros c' L'. destruct (iv_lock _ _ I _ _ L') as (k1 & e1 & cs1 & ph1 & Y & _). congruence.
Qed.
Lemma unheld ls s i k e cs c : inv ls s -> adding s i = Some (k, e, cs, Between) -> lock s c <> Some i.
Proof. intros I A L. destruct (iv_lock _ _ I _ _ L) as (k1 & e1 & cs1 & ph1 & Y & N). congruence. Qed.
Lemma inv_step ls s l s' : inv ls s -> step s l s' -> inv (ls ++ [l]) s'.
Proof.
  intros I S. destruct S as [i e x A|i k e c cs A K|i k e c cs now e' A K F|i k e c cs now e' A K F LK|i k e c cs A|i k e c cs A|i k e c cs p r A T|i k e c cs p r A T|i k e A].
  - apply inv_adds; auto.
  - destruct (iv_now _ _ I _ _ _ _ _ A) as (_ & d & T).
    eapply inv_move; [exact I|exact A|reflexivity|reflexivity|intros; reflexivity|intros; reflexivity|intros c' L; exfalso; eapply unheld; eauto|].
    left. split; [auto|]. exists e, cs, Between, (d ++ [c])%list. split; [auto|]. split; [apply track_null; auto|congruence].
  - destruct (iv_now _ _ I _ _ _ _ _ A) as (_ & d & T). destruct (track_fin _ _ _ _ _ _ _ _ _ T F) as (T' & FO).
    eapply inv_move; [exact I|exact A|reflexivity|reflexivity|intros; apply log_other; auto|intros; reflexivity|intros c' L; exfalso; eapply unheld; eauto|].
    left. split; [auto|]. exists e', cs, Between, (d ++ [c])%list. split; [auto|]. split; [|congruence].
    eapply track_log; [intros; eapply iv_uniq; eauto|exact FO|reflexivity|exact T'].
  - destruct (iv_now _ _ I _ _ _ _ _ A) as (_ & d & T). destruct (track_fin _ _ _ _ _ _ _ _ _ T F) as (T' & FO).
    eapply inv_move; [exact I|exact A|reflexivity|reflexivity|intros; reflexivity| | |].
    + intros c' j N. cbn [lock with_lock with_adding]. unfold set_nat. destruct (Nat.eqb_spec c' c) as [->|]; [|reflexivity]. rewrite LK. split; congruence.
    + intros c' L. cbn [lock with_lock with_adding] in L. unfold set_nat in L. destruct (Nat.eqb_spec c' c) as [E|N].
      * subst c'. exists k, e', cs, Locked. split; [auto|discriminate].
      * exfalso. eapply unheld; eauto.
    + left. split; [auto|]. exists e', (c :: cs), Locked, d. split; [auto|]. split; [exact T'|]. intros _. exists c, cs. split; [auto|]. split; [auto|].
      split; [cbn; apply set_nat_eq|exact FO].
  - destruct (iv_now _ _ I _ _ _ _ _ A) as (_ & d & T). destruct (held _ _ _ _ _ _ _ _ I A) as (HL & HO); [discriminate|].
    eapply inv_move; [exact I|exact A|reflexivity|reflexivity|intros; reflexivity|intros; reflexivity| |].
    + intros c' L. apply HO in L. subst c'. exists k, e, cs, Half. split; [auto|discriminate].
    + left. split; [auto|]. exists e, (c :: cs), Half, d. split; [auto|]. split; [exact T|]. intros _. exists c, cs. split; [auto|].
      destruct (iv_phase _ _ I _ _ _ _ _ A) as (c0 & cs0 & X & X2 & X3 & _ & X4); [discriminate|]. injection X as <- <-. split; [auto|]. split; [auto|exact X4].
  - destruct (iv_now _ _ I _ _ _ _ _ A) as (_ & d & T). destruct (held _ _ _ _ _ _ _ _ I A) as (HL & HO); [discriminate|].
    destruct (iv_phase _ _ I _ _ _ _ _ A) as (c0 & cs0 & X & X2 & X3 & _ & X4); [discriminate|]. injection X as <- <-.
    eapply inv_move; [exact I|exact A|reflexivity|reflexivity|intros; apply log_other; auto| | |].
    + intros c' j N. cbn [lock with_lock with_adding with_log with_file]. unfold set_nat. destruct (Nat.eqb_spec c' c) as [->|]; [|reflexivity]. rewrite HL. split; congruence.
    + intros c' L. cbn [lock with_lock with_adding with_log with_file] in L. unfold set_nat in L. destruct (Nat.eqb_spec c' c) as [E|N]; [discriminate|]. apply HO in L. contradiction.
    + left. split; [auto|]. exists e, cs, Between, (d ++ [c])%list. split; [auto|]. split; [|congruence].
      eapply track_log; [intros; eapply iv_uniq; eauto|exact X4|reflexivity|]. destruct T as (e0 & x & T1 & T2 & T3 & T4 & T5). exists e0, x. auto.
  - destruct (iv_now _ _ I _ _ _ _ _ A) as (_ & d & TR). destruct (held _ _ _ _ _ _ _ _ I A) as (HL & HO); [discriminate|].
    destruct (iv_phase _ _ I _ _ _ _ _ A) as (c0 & cs0 & X & X2 & X3 & _ & X4); [discriminate|]. injection X as <- <-.
    eapply inv_move; [exact I|exact A|reflexivity|reflexivity|intros; reflexivity| | |].
    + intros c' j N. cbn [lock with_lock with_adding with_log with_file]. unfold set_nat. destruct (Nat.eqb_spec c' c) as [->|]; [|reflexivity]. rewrite HL. split; congruence.
    + intros c' L. cbn [lock with_lock with_adding with_log with_file] in L. unfold set_nat in L. destruct (Nat.eqb_spec c' c) as [E|N]; [discriminate|]. apply HO in L. contradiction.
    + right. exists false, e, d, (c :: cs). split; [auto|]. split; [auto|]. split; [exact TR|]. split; [discriminate|]. eauto.
  - destruct (iv_now _ _ I _ _ _ _ _ A) as (_ & d & TR). destruct (held _ _ _ _ _ _ _ _ I A) as (HL & HO); [discriminate|].
    destruct (iv_phase _ _ I _ _ _ _ _ A) as (c0 & cs0 & X & X2 & X3 & _ & X4); [discriminate|]. injection X as <- <-.
    eapply inv_move; [exact I|exact A|reflexivity|reflexivity|intros; reflexivity| | |].
    + intros c' j N. cbn [lock with_lock with_adding with_log with_file]. unfold set_nat. destruct (Nat.eqb_spec c' c) as [->|]; [|reflexivity]. rewrite HL. split; congruence.
    + intros c' L. cbn [lock with_lock with_adding with_log with_file] in L. unfold set_nat in L. destruct (Nat.eqb_spec c' c) as [E|N]; [discriminate|]. apply HO in L. contradiction.
    + right. exists false, e, d, (c :: cs). split; [auto|]. split; [auto|]. split; [exact TR|]. split; [discriminate|]. eauto.
  - destruct (iv_now _ _ I _ _ _ _ _ A) as (_ & d & T).
    eapply inv_move; [exact I|exact A|reflexivity|reflexivity|intros; reflexivity|intros; reflexivity|intros c' L; exfalso; eapply unheld; eauto|].
    right. exists true, e, d, []. split; [auto|]. split; [auto|]. split; [exact T|]. split; [auto|discriminate].
Qed.
Lemma inv_exec ls s : exec ls s -> inv ls s.
Proof.
  induction 1 as [|ls s l s' E IH S]; [|eapply inv_step; eauto].
  split; cbn; intros; try discriminate; try contradiction.
Qed.

(* Each event once. *)
Lemma once_step ls s l s' : inv ls s -> wf (ls ++ [l]) -> step s l s' -> (forall c, NoDup (map fst (log s c))) -> forall c, NoDup (map fst (log s' c)).
Proof.
  intros I W S H c'.
  assert (X : forall i k e c cs ph, adding s i = Some (k, e, c :: cs, ph) -> forall e', ~ In (i, k, e') (log s c)).
  { intros i k e c cs ph A e' B. destruct (iv_now _ _ I _ _ _ _ _ A) as (_ & d & e0 & x & T1 & T2 & T3 & T4 & T5).
    destruct (T5 _ _ B) as (D & _). assert (ND : NoDup (collectors x)) by (eapply W; apply in_snoc; left; eauto). rewrite T2 in ND. apply NoDup_remove_2 in ND. apply ND, in_or_app. auto. }
  assert (Y : forall i k c e', (forall e', ~ In (i, k, e') (log s c)) -> NoDup (map fst (set_nat (log s) c (log s c ++ [(i, k, e')])%list c'))).
  { intros i k c e' N. unfold set_nat. destruct (Nat.eqb_spec c' c) as [->|]; [|apply H]. rewrite map_app. cbn. apply NoDup_app_snoc_aux; auto.
    intros B. apply in_map_iff in B as ([[i1 k1] e1] & E & B). cbn in E. injection E as -> ->. eapply N, B. }
  destruct S; cbn [log with_lock with_file with_adding with_added with_log]; try apply H; apply Y; eapply X; eauto.
Qed.

Lemma once_exec ls s : exec ls s -> wf ls -> forall c, NoDup (map fst (log s c)).
Proof.
  induction 1 as [|ls s l s' E IH S]; intros W; [intros c; constructor|].
  eapply once_step; [apply inv_exec, E|exact W|exact S|]. apply IH. intros i k e x H. eapply W. apply in_snoc. eauto.
Qed.
(* Logs grow. *)
Lemma log_step s l s' c : step s l s' -> exists m, log s' c = (log s c ++ m)%list.
Proof.
  intros S. destruct S; cbn [log with_lock with_file with_adding with_added with_log]; try (exists []; rewrite app_nil_r; reflexivity).
  all: unfold set_nat; destruct (Nat.eqb_spec c c0) as [->|]; [eexists; reflexivity|exists []; rewrite app_nil_r; reflexivity].
Qed.
Lemma frozen_step ls s l s' i k ok : inv ls s -> step s l s' -> In (Returns i k ok) ls -> forall c e, In (i, k, e) (log s' c) -> In (i, k, e) (log s c).
Proof.
  intros I S R c e H. destruct (iv_ret _ _ I _ _ _ R) as (_ & NA & _).
  destruct S; cbn [log with_lock with_file with_adding with_added with_log] in H; auto.
  all: unfold set_nat in H; destruct (Nat.eqb_spec c c0) as [->|]; auto; apply in_snoc in H as [H|H]; [auto|]; injection H as -> -> ->; exfalso; eapply NA; eauto.
Qed.
Lemma exec_split ls1 ls2 s : exec (ls1 ++ ls2) s -> exists s1, exec ls1 s1 /\ (forall c, exists m, log s c = (log s1 c ++ m)%list)
  /\ forall i k ok c e, In (Returns i k ok) ls1 -> In (i, k, e) (log s c) -> In (i, k, e) (log s1 c).
Proof.
  revert s. induction ls2 as [|l ls2 IH] using rev_ind; intros s E.
  - rewrite app_nil_r in E. exists s. split; [auto|]. split; [|auto]. intros c. exists []. rewrite app_nil_r. auto.
  - rewrite app_assoc in E. inversion E as [Q|l0 s0 l' s' E' S Q]; [destruct (ls1 ++ ls2)%list; discriminate|].
    apply app_inj_tail in Q as [-> ->]. subst s'. destruct (IH _ E') as (s1 & X & Y & Z). exists s1. split; [auto|]. split.
    + intros c. destruct (Y c) as (m & Ym), (log_step _ _ _ c S) as (m2 & Em). exists (m ++ m2)%list. rewrite Em, Ym, app_assoc. auto.
    + intros i k ok c e R H. eapply Z; [exact R|]. eapply frozen_step; [apply inv_exec, E'|exact S| |exact H]. apply in_or_app. eauto.
Qed.
(* Files. *)
Definition tail_of (s : state) (c : nat) : string :=
  match lock s c with
  | Some i => match adding s i with Some (_, e, _, Half) => text e | _ => "" end
  | None => ""
  end.
Definition no_failure (ls : list label) : Prop := forall i k, ~ In (Returns i k false) ls.
Lemma file_step ls s l s' : inv ls s -> no_failure (ls ++ [l]) -> step s l s' ->
  (forall c, kind c = Writer -> file s c = (lines text (log s c) ++ tail_of s c)%string) -> forall c, kind c = Writer -> file s' c = (lines text (log s' c) ++ tail_of s' c)%string.
Proof.
  intros I NF S H0 c' KW. pose proof (H0 c' KW) as H. clear H0.
  assert (NH : forall i a, (forall c, lock s c = Some i -> False) -> tail_of (with_adding s i a) c' = tail_of s c').
  { intros i a U. unfold tail_of. cbn [lock adding with_adding]. destruct (lock s c') as [j|] eqn:L; [|auto].
    rewrite set_nat_ne; [auto|]. intros ->. eapply U, L. }
  destruct S as [i e x A|i k e c cs A K|i k e c cs now e' A K F|i k e c cs now e' A K F LK|i k e c cs A|i k e c cs A|i k e c cs p r A T|i k e c cs p r A T|i k e A].
  - transitivity (lines text (log s c') ++ tail_of s c')%string; [apply H|]. f_equal. symmetry. apply (NH i). intros c L. destruct (iv_lock _ _ I _ _ L) as (? & ? & ? & ? & X & _). congruence.
  - etransitivity; [apply H|]. f_equal. symmetry. apply (NH i). intros c0 L. eapply unheld; eauto.
  - etransitivity; [apply H|]. 
    change (lines text (log s c') ++ tail_of s c' = lines text (set_nat (log s) c (log s c ++ [(i, k, e')])%list c') ++ tail_of (with_adding s i (Some (k, e', cs, Between))) c')%string.
    rewrite NH by (intros c0 L; eapply unheld; eauto). unfold set_nat. destruct (Nat.eqb_spec c' c) as [->|N]; [|auto]. congruence.
  - etransitivity; [apply H|]. f_equal. unfold tail_of. cbn [lock adding with_adding with_lock]. unfold set_nat at 1. destruct (Nat.eqb_spec c' c) as [->|N].
    + rewrite LK, set_nat_eq. auto.
    + destruct (lock s c') as [j|] eqn:L; [|auto]. rewrite set_nat_ne; [auto|]. intros ->. eapply unheld; eauto.
  - destruct (held _ _ _ _ _ _ _ _ I A) as (HL & HO); [discriminate|]. cbn [file log with_file with_adding]. unfold set_nat at 1, tail_of. cbn [lock adding with_file with_adding]. destruct (Nat.eqb_spec c' c) as [->|N].
    + rewrite HL, set_nat_eq, H. unfold tail_of. rewrite HL, A, str_app_nil. auto.
    + rewrite H. f_equal. unfold tail_of. destruct (lock s c') as [j|] eqn:L; [|auto]. rewrite set_nat_ne; [auto|]. intros ->. apply N, HO, L.
  - destruct (held _ _ _ _ _ _ _ _ I A) as (HL & HO); [discriminate|]. cbn [file log with_file with_adding with_lock with_log]. unfold tail_of, set_nat. cbn [lock adding with_file with_adding with_lock with_log]. unfold set_nat. destruct (Nat.eqb_spec c' c) as [->|N].
    + rewrite H. unfold tail_of. rewrite HL, A, lines_app, str_app_nil. cbn [lines]. rewrite !str_app_assoc, str_app_nil. reflexivity.
    + rewrite H. f_equal. unfold tail_of. destruct (lock s c') as [j|] eqn:L; [|auto]. destruct (Nat.eqb_spec j i) as [->|]; [exfalso; apply N, HO, L|auto].
  - exfalso. eapply NF. apply in_snoc. right. reflexivity.
  - exfalso. eapply NF. apply in_snoc. right. reflexivity.
  - etransitivity; [apply H|]. f_equal. symmetry. apply (NH i). intros c0 L. eapply unheld; eauto.
Qed.
Lemma file_exec ls s : exec ls s -> no_failure ls -> forall c, kind c = Writer -> file s c = (lines text (log s c) ++ tail_of s c)%string.
Proof.
  induction 1 as [|ls s l s' E IH S]; intros W; [intros c _; reflexivity|].
  eapply file_step; [apply inv_exec, E|exact W|exact S|]. apply IH. intros i k H. eapply W. apply in_snoc. eauto.
Qed.
End C.

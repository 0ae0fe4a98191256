(* Go's string library functions that the code uses: strings.Split with a
   one-byte separator, strconv.ParseInt(s, 10, 64), and fmt's %d for int64, each
   with its characterisation. *)
From Coq Require Import String Ascii List Arith NArith ZArith Bool Lia Decimal DecimalString DecimalZ DecimalPos DecimalN.
Import ListNotations.
Local Open Scope string_scope.

Definition contains (c : ascii) (s : string) : Prop := In c (list_ascii_of_string s).

(* strings.Split(s, c). *)
Fixpoint split (c : ascii) (s : string) : list string :=
  match s with
  | EmptyString => [""]
  | String a s' =>
    if Ascii.eqb a c then "" :: split c s'
    else match split c s' with h :: t => String a h :: t | [] => [] end
  end.
(* strings.Join(l, c). *)
Fixpoint join (c : ascii) (l : list string) : string :=
  match l with
  | [] => ""
  | [x] => x
  | x :: l' => x ++ String c (join c l')
  end.

Lemma contains_cons c a s : contains c (String a s) <-> c = a \/ contains c s.
Proof. unfold contains. cbn. intuition. Qed.
Lemma contains_nil c : ~ contains c "".
Proof. intros []. Qed.
Lemma contains_app c a b : contains c (a ++ b) <-> contains c a \/ contains c b.
Proof. induction a as [|x a IH]; [unfold contains; cbn; tauto|]. cbn [append]. rewrite !contains_cons, IH. tauto. Qed.
Lemma split_cons c s : exists h t, split c s = h :: t.
Proof. induction s as [|a s (h & t & E)]; cbn; [eauto|]. destruct (Ascii.eqb a c); [eauto|]. rewrite E. eauto. Qed.
Lemma split_parts c s : Forall (fun x => ~ contains c x) (split c s).
Proof.
  induction s as [|a s IH]; cbn; [repeat constructor; apply contains_nil|]. destruct (Ascii.eqb_spec a c) as [->|N]; [constructor; [apply contains_nil|auto]|].
  destruct (split_cons c s) as (h & t & E). rewrite E in *. inversion IH; subst. constructor; [rewrite contains_cons; intuition|auto].
Qed.
Lemma join_split c s : join c (split c s) = s.
Proof.
  induction s as [|a s IH]; cbn [split]; [auto|]. destruct (split_cons c s) as (h & t & E). destruct (Ascii.eqb_spec a c) as [->|N].
  - rewrite E in *. change (join c ("" :: h :: t)) with (String c (join c (h :: t))). rewrite IH. reflexivity.
  - rewrite E in *. destruct t as [|y t]; [cbn in *; rewrite IH; reflexivity|].
    change (join c (String a h :: y :: t)) with (String a (join c (h :: y :: t))). rewrite IH. reflexivity.
Qed.
Lemma split_app c x s : ~ contains c x -> split c (x ++ String c s) = x :: split c s.
Proof.
  induction x as [|a x IH]; intros H; cbn [append split]; [rewrite Ascii.eqb_refl; auto|]. rewrite contains_cons in H.
  destruct (Ascii.eqb_spec a c) as [->|N]; [tauto|]. rewrite IH by tauto. auto.
Qed.
Lemma split_single c x : ~ contains c x -> split c x = [x].
Proof.
  induction x as [|a x IH]; intros H; cbn [split]; [auto|]. rewrite contains_cons in H.
  destruct (Ascii.eqb_spec a c) as [->|N]; [tauto|]. rewrite IH by tauto. auto.
Qed.
Lemma split_join c l : l <> [] -> Forall (fun x => ~ contains c x) l -> split c (join c l) = l.
Proof.
  intros NE H. induction H as [|x l Hx Hl IH]; [congruence|]. destruct l as [|y l]; [apply split_single; auto|].
  cbn [join]. rewrite split_app by auto. f_equal. apply IH. discriminate.
Qed.
Lemma split_spec c s l : split c s = l <-> l <> [] /\ Forall (fun x => ~ contains c x) l /\ s = join c l.
Proof.
  split.
  - intros <-. split; [destruct (split_cons c s) as (h & t & ->); discriminate|]. split; [apply split_parts|symmetry; apply join_split].
  - intros (A & B & ->). apply split_join; auto.
Qed.

(* strconv.ParseInt(s, 10, 64), None for an error. *)
Definition digit_val (c : ascii) : Z := Z.of_N (N_of_ascii c) - 48.
Definition is_digit (c : ascii) : Prop := (48 <= N_of_ascii c <= 57)%N.
Definition is_digitb (c : ascii) : bool := ((48 <=? N_of_ascii c) && (N_of_ascii c <=? 57))%N.
Fixpoint digits (s : string) (acc : Z) : option Z :=
  match s with
  | EmptyString => Some acc
  | String c s' => if is_digitb c then digits s' (10 * acc + digit_val c)%Z else None
  end.
Definition in_int64 (z : Z) : bool := ((- 2 ^ 63 <=? z) && (z <? 2 ^ 63))%Z.
Definition parse_magnitude (neg : bool) (s : string) : option Z :=
  match s with
  | EmptyString => None
  | _ => match digits s 0 with
         | Some z => let v := if neg then (- z)%Z else z in if in_int64 v then Some v else None
         | None => None
         end
  end.
Definition ParseInt (s : string) : option Z :=
  match s with
  | EmptyString => None
  | String c s' => if Ascii.eqb c "-" then parse_magnitude true s' else if Ascii.eqb c "+" then parse_magnitude false s' else parse_magnitude false s
  end.

(* What it should compute: an optional sign and at least one digit. *)
Fixpoint value (l : list ascii) : Z :=
  match l with
  | [] => 0%Z
  | c :: l' => (digit_val c * 10 ^ Z.of_nat (List.length l') + value l')%Z
  end.
Definition numeral (s : string) (z : Z) : Prop :=
  exists l, l <> [] /\ Forall is_digit l /\
  (s = string_of_list_ascii l /\ z = value l \/ s = String "+" (string_of_list_ascii l) /\ z = value l \/
   s = String "-" (string_of_list_ascii l) /\ z = (- value l)%Z).

Lemma is_digitb_spec c : is_digitb c = true <-> is_digit c.
Proof. unfold is_digitb, is_digit. rewrite andb_true_iff, !N.leb_le. tauto. Qed.
Lemma digits_spec s : forall a z, digits s a = Some z <->
  Forall is_digit (list_ascii_of_string s) /\ z = (a * 10 ^ Z.of_nat (String.length s) + value (list_ascii_of_string s))%Z.
Proof.
  induction s as [|c s IH]; intros a z; cbn [digits list_ascii_of_string value String.length].
  - rewrite Z.mul_1_r, Z.add_0_r. split; [intros H; injection H as <-; auto|intros [_ ->]; auto].
  - assert (LEN : List.length (list_ascii_of_string s) = String.length s) by (clear; induction s; cbn; auto).
    rewrite LEN. destruct (is_digitb c) eqn:E.
    + rewrite IH. apply is_digitb_spec in E.
      assert (X : ((10 * a + digit_val c) * 10 ^ Z.of_nat (String.length s) + value (list_ascii_of_string s) =
              a * 10 ^ Z.of_nat (S (String.length s)) + (digit_val c * 10 ^ Z.of_nat (String.length s) + value (list_ascii_of_string s)))%Z).
      { rewrite Nat2Z.inj_succ, Z.pow_succ_r by lia. ring. }
      rewrite X. split; [intros [A B]; split; [constructor; auto|auto]|intros [A B]; inversion A; auto].
    + split; [discriminate|]. intros [A _]. inversion A as [|? ? H]; subst. apply is_digitb_spec in H. congruence.
Qed.
Lemma in_int64_spec z : in_int64 z = true <-> (- 2 ^ 63 <= z < 2 ^ 63)%Z.
Proof. unfold in_int64. rewrite andb_true_iff, Z.leb_le, Z.ltb_lt. tauto. Qed.
Lemma parse_magnitude_spec neg s z : parse_magnitude neg s = Some z <->
  exists l, l <> [] /\ Forall is_digit l /\ s = string_of_list_ascii l /\ z = (if neg then - value l else value l)%Z /\ (- 2 ^ 63 <= z < 2 ^ 63)%Z.
Proof.
  unfold parse_magnitude. destruct s as [|c s].
  { split; [discriminate|]. intros (l & A & _ & B & _). destruct l; [congruence|discriminate B]. }
  destruct (digits (String c s) 0) as [v|] eqn:E.
  - apply digits_spec in E. rewrite Z.mul_0_l, Z.add_0_l in E. destruct E as [E1 E2].
    destruct (in_int64 (if neg then (- v)%Z else v)) eqn:EI.
    + apply in_int64_spec in EI. split.
      * intros H; injection H as <-. exists (list_ascii_of_string (String c s)). split; [discriminate|]. split; [auto|].
        split; [symmetry; apply string_of_list_ascii_of_string|]. rewrite <- E2. auto.
      * intros (l & A & B & C & D & F). rewrite C, list_ascii_of_string_of_list_ascii in E2. subst. auto.
    + split; [discriminate|]. intros (l & A & B & C & D & F). rewrite C, list_ascii_of_string_of_list_ascii in E2. subst.
      apply in_int64_spec in F. congruence.
  - split; [discriminate|]. intros (l & A & B & C & D & F).
    assert (X : digits (String c s) 0 = Some (value l)).
    { apply digits_spec. rewrite C, list_ascii_of_string_of_list_ascii. split; [auto|lia]. }
    congruence.
Qed.
Lemma ParseInt_spec s z : ParseInt s = Some z <-> numeral s z /\ (- 2 ^ 63 <= z < 2 ^ 63)%Z.
Proof.
  unfold numeral. split.
  - unfold ParseInt. destruct s as [|c s]; [discriminate|].
    destruct (Ascii.eqb_spec c "-") as [->|N1]; [|destruct (Ascii.eqb_spec c "+") as [->|N2]]; intros H; apply parse_magnitude_spec in H;
      destruct H as (l & A & B & C & D & F); (split; [|exact F]); exists l; (split; [auto|]); (split; [auto|]); rewrite C; auto.
  - intros [(l & A & B & C) F]. destruct l as [|d l]; [congruence|].
    assert (HD : is_digit d) by (inversion B; auto).
    destruct C as [[-> ->]|[[-> ->]|[-> ->]]]; cbn [string_of_list_ascii ParseInt].
    + destruct (Ascii.eqb_spec d "-") as [->|]; [destruct HD as [HD _]; cbn in HD; lia|].
      destruct (Ascii.eqb_spec d "+") as [->|]; [destruct HD as [HD _]; cbn in HD; lia|].
      apply parse_magnitude_spec. exists (d :: l). auto.
    + change (Ascii.eqb "+" "-") with false. change (Ascii.eqb "+" "+") with true. cbv iota. apply parse_magnitude_spec. exists (d :: l). auto.
    + change (Ascii.eqb "-" "-") with true. cbv iota. apply parse_magnitude_spec. exists (d :: l). auto.
Qed.
Lemma value_nonneg l : Forall is_digit l -> (0 <= value l)%Z.
Proof.
  induction 1 as [|c l [H1 H2] HL IH]; [cbn; lia|]. cbn [value]. assert (0 <= 10 ^ Z.of_nat (List.length l))%Z by (apply Z.pow_nonneg; lia).
  assert (0 <= digit_val c)%Z by (unfold digit_val; lia). nia.
Qed.

(* fmt's %d of an int64. *)
Definition fmt_int (z : Z) : string := NilZero.string_of_int (Z.to_int z).

Lemma digits_uint u : forall a, digits (NilEmpty.string_of_uint u) (Z.pos a) = Some (Z.pos (Pos.of_uint_acc u a)).
Proof.
  induction u as [|u IH|u IH|u IH|u IH|u IH|u IH|u IH|u IH|u IH|u IH]; intros a;
    cbn [NilEmpty.string_of_uint Pos.of_uint_acc]; [reflexivity|..]; unfold digits; fold digits;
    match goal with |- (if is_digitb ?c then _ else _) = _ => change (is_digitb c) with true; let d := eval compute in (digit_val c) in change (digit_val c) with d end; cbv iota.
  all: match goal with |- digits _ (10 * Z.pos ?a + ?d)%Z = Some (Z.pos (Pos.of_uint_acc _ ?r)) => replace (10 * Z.pos a + d)%Z with (Z.pos r) by lia end.
  all: apply IH.
Qed.
Lemma digits_uint0 u : digits (NilEmpty.string_of_uint u) 0 = Some (Z.of_N (Pos.of_uint u)).
Proof.
  induction u as [|u IH|u IH|u IH|u IH|u IH|u IH|u IH|u IH|u IH|u IH]; cbn [NilEmpty.string_of_uint Pos.of_uint]; [reflexivity|..];
    unfold digits; fold digits;
    match goal with |- (if is_digitb ?c then _ else _) = _ => change (is_digitb c) with true; let d := eval compute in (digit_val c) in change (digit_val c) with d end; cbv iota.
  1: apply IH.
  all: match goal with |- digits _ (10 * 0 + ?d)%Z = Some _ => let d' := eval compute in (10 * 0 + d)%Z in change (10 * 0 + d)%Z with d' end; apply digits_uint.
Qed.
Lemma string_of_pos p : exists c s, NilEmpty.string_of_uint (Pos.to_uint p) = String c s /\ is_digit c.
Proof.
  pose proof (DecimalPos.Unsigned.to_uint_nonnil p) as H.
  destruct (Pos.to_uint p); cbn; [congruence|..]; eexists _, _; (split; [reflexivity|]); unfold is_digit; cbn; lia.
Qed.
Lemma ParseInt_fmt z : (- 2 ^ 63 <= z < 2 ^ 63)%Z -> ParseInt (fmt_int z) = Some z.
Proof.
  intros HZ. unfold fmt_int. destruct z as [|p|p]; [reflexivity|..].
  - cbn [Z.to_int]. change (NilZero.string_of_int (Pos (Pos.to_uint p))) with (NilZero.string_of_uint (Pos.to_uint p)).
    assert (E : NilZero.string_of_uint (Pos.to_uint p) = NilEmpty.string_of_uint (Pos.to_uint p)).
    { pose proof (DecimalPos.Unsigned.to_uint_nonnil p). destruct (Pos.to_uint p); [congruence|reflexivity..]. }
    rewrite E. pose proof (digits_uint0 (Pos.to_uint p)) as D. rewrite DecimalPos.Unsigned.of_to in D. cbn in D.
    destruct (string_of_pos p) as (c & s & E2 & HC). rewrite E2 in *. unfold ParseInt.
    destruct (Ascii.eqb_spec c "-") as [->|]; [destruct HC as [HC _]; cbn in HC; lia|].
    destruct (Ascii.eqb_spec c "+") as [->|]; [destruct HC as [HC _]; cbn in HC; lia|].
    unfold parse_magnitude. rewrite D. apply in_int64_spec in HZ. rewrite HZ. reflexivity.
  - cbn [Z.to_int]. change (NilZero.string_of_int (Neg (Pos.to_uint p))) with (String "-" (NilZero.string_of_uint (Pos.to_uint p))).
    assert (E : NilZero.string_of_uint (Pos.to_uint p) = NilEmpty.string_of_uint (Pos.to_uint p)).
    { pose proof (DecimalPos.Unsigned.to_uint_nonnil p). destruct (Pos.to_uint p); [congruence|reflexivity..]. }
    rewrite E. pose proof (digits_uint0 (Pos.to_uint p)) as D. rewrite DecimalPos.Unsigned.of_to in D. cbn in D.
    destruct (string_of_pos p) as (c & s & E2 & HC). rewrite E2 in *. unfold ParseInt. change (Ascii.eqb "-" "-") with true. cbv iota.
    unfold parse_magnitude. rewrite D. cbv iota zeta. apply in_int64_spec in HZ. change (- Z.pos p)%Z with (Z.neg p). rewrite HZ. reflexivity.
Qed.
(* %d writes only digits and a minus sign. *)
Lemma digits_chars u c : contains c (NilEmpty.string_of_uint u) -> is_digit c.
Proof.
  induction u; cbn [NilEmpty.string_of_uint]; [intros []|..]; rewrite contains_cons; intros [->|H]; auto; unfold is_digit; cbn; lia.
Qed.
Lemma fmt_int_chars z c : contains c (fmt_int z) -> is_digit c \/ c = "-"%char.
Proof.
  unfold fmt_int. assert (U : forall u, contains c (NilZero.string_of_uint u) -> is_digit c).
  { intros u H. destruct u; try (eapply digits_chars; exact H). cbn in H. destruct H as [<-|[]]. unfold is_digit. cbn. lia. }
  destruct (Z.to_int z); cbn [NilZero.string_of_int]; [intros H; left; eauto|]. rewrite contains_cons. intros [->|H]; eauto.
Qed.

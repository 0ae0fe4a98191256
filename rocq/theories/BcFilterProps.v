(* C27, C28: filters of the broadcaster. *)
From Coq Require Import String Ascii List ZArith Bool Lia.
From Verif Require Import GoStr BcFilterModel BcFilterSpec.
Import ListNotations.
Local Open Scope string_scope.

(* ---- C28 ---- *)
Lemma plain_lit s : split "/" s = [s] -> plain s.
Proof. intros H. pose proof (split_parts "/" s) as P. rewrite H in P. inversion P; auto. Qed.
Lemma numeral_plain d z : numeral d z -> plain d.
Proof.
  intros (l & _ & H & E) C.
  assert (X : forall l, Forall is_digit l -> ~ contains "/" (string_of_list_ascii l)).
  { clear. intros l H C. unfold contains in C. rewrite list_ascii_of_string_of_list_ascii in C. rewrite Forall_forall in H. apply H in C. destruct C as [C _]. cbn in C. lia. }
  destruct E as [[-> _]|[[-> _]|[-> _]]]; [eapply X; eauto|..]; rewrite contains_cons in C; destruct C as [C|C]; try discriminate C; eapply X; eauto.
Qed.

(* Exactly the strings of the grammar are accepted, with the filter they denote. *)
Theorem C28_grammar : forall s f, NewFilter s = Ok f <-> denotes s f.
Proof.
  intros s f. split.
  - unfold NewFilter. destruct (split "/" s) as [|t0 [|t1 rest]] eqn:E; try discriminate.
    apply split_spec in E. destruct E as (_ & HF & ->).
    destruct (String.eqb_spec t0 "") as [->|]; [|discriminate]. cbn [negb].
    inversion HF as [|? ? _ HF1]; subst. inversion HF1 as [|? ? _ HR]; subst. clear HF HF1.
    destruct (String.eqb_spec t1 "all-events") as [->|N1]; [destruct rest as [|a rest]; [|discriminate]|].
    { intros H; injection H as <-. constructor. }
    destruct (String.eqb_spec t1 "user") as [->|N2]; [destruct rest as [|a [|b rest]]; try discriminate|].
    { intros H; injection H as <-. inversion HR; subst. apply d_user. auto. }
    destruct (String.eqb_spec t1 "problem") as [->|N3]; [destruct rest as [|a [|b rest]]; try discriminate|].
    { intros H; injection H as <-. inversion HR; subst. apply d_problem. auto. }
    destruct (String.eqb_spec t1 "problemset") as [->|N4].
    { destruct rest as [|a rest]; [discriminate|]. destruct (ParseInt a) as [z|] eqn:EP; [|discriminate]. apply ParseInt_spec in EP. destruct EP.
      inversion HR as [|? ? HA HR1]; subst. destruct rest as [|b [|c rest]]; try discriminate; intros H1; injection H1 as <-.
      - apply d_problemset; auto.
      - inversion HR1; subst. apply d_problemset_token; auto. }
    destruct (String.eqb_spec t1 "contest") as [->|N5]; [|discriminate].
    destruct rest as [|a rest]; [discriminate|]. inversion HR as [|? ? HA HR1]; subst.
    destruct rest as [|b [|c rest]]; try discriminate; intros H1; injection H1 as <-.
    + apply d_contest; auto.
    + inversion HR1; subst. apply d_contest_token; auto.
  - assert (P : forall l, l <> [] -> Forall plain l -> split "/" (join "/" l) = l) by (intros; apply split_join; auto).
    assert (L : forall x, split "/" x = [x] -> plain x) by (intros; apply plain_lit; auto).
    intros H. unfold NewFilter. destruct H as [|u HU|p HP|d z HN HZ|d z t HN HZ HT|c HC|c t HC HT].
    + reflexivity.
    + change ("/user/" ++ u) with (join "/" [""; "user"; u]). rewrite P; [reflexivity|discriminate|]. repeat (constructor; auto; try (apply L; reflexivity)).
    + change ("/problem/" ++ p) with (join "/" [""; "problem"; p]). rewrite P; [reflexivity|discriminate|]. repeat (constructor; auto; try (apply L; reflexivity)).
    + change ("/problemset/" ++ d) with (join "/" [""; "problemset"; d]). pose proof (numeral_plain _ _ HN). rewrite P; [|discriminate|repeat (constructor; auto; try (apply L; reflexivity))].
      assert (E : ParseInt d = Some z) by (apply ParseInt_spec; auto). cbn [String.eqb Ascii.eqb Bool.eqb negb]. rewrite E. reflexivity.
    + change ("/problemset/" ++ d ++ "/" ++ t) with (join "/" [""; "problemset"; d; t]). pose proof (numeral_plain _ _ HN). rewrite P; [|discriminate|repeat (constructor; auto; try (apply L; reflexivity))].
      assert (E : ParseInt d = Some z) by (apply ParseInt_spec; auto). cbn [String.eqb Ascii.eqb Bool.eqb negb]. rewrite E. reflexivity.
    + change ("/contest/" ++ c) with (join "/" [""; "contest"; c]). rewrite P; [reflexivity|discriminate|]. repeat (constructor; auto; try (apply L; reflexivity)).
    + change ("/contest/" ++ c ++ "/" ++ t) with (join "/" [""; "contest"; c; t]). rewrite P; [reflexivity|discriminate|]. repeat (constructor; auto; try (apply L; reflexivity)).
Qed.
Print Assumptions C28_grammar.

(* Round trip: printing a parsed filter and parsing it again gives the same. *)
Theorem C28_round_trip : forall s f, NewFilter s = Ok f -> NewFilter ("/" ++ String_ f) = Ok f.
Proof.
  intros s f H. apply C28_grammar in H.
  assert (FI : forall z, (- 2 ^ 63 <= z < 2 ^ 63)%Z -> numeral (fmt_int z) z) by (intros z HZ; apply ParseInt_spec, ParseInt_fmt, HZ).
  apply C28_grammar. destruct H as [|u HU|p HP|d z HN HZ|d z t HN HZ HT|c HC|c t HC HT]; cbn [String_].
  - constructor.
  - apply (d_user u HU).
  - apply (d_problem p HP).
  - apply (d_problemset (fmt_int z) z); auto.
  - destruct (String.eqb_spec t "") as [->|N]; [apply (d_problemset (fmt_int z) z); auto|apply (d_problemset_token (fmt_int z) z t); auto].
  - apply (d_contest c HC).
  - destruct (String.eqb_spec t "") as [->|N]; [apply (d_contest c HC)|apply (d_contest_token c t); auto].
Qed.
Print Assumptions C28_round_trip.

(* False of the code: that every other string is rejected with an error.  One
   string, and no other, makes NewFilter panic. *)
Theorem C28_only_panic : forall s, NewFilter s = Panic <-> s = "/problemset".
Proof.
  intros s. split.
  - unfold NewFilter. destruct (split "/" s) as [|t0 [|t1 rest]] eqn:E; try discriminate.
    apply split_spec in E. destruct E as (_ & HF & ->).
    destruct (String.eqb_spec t0 "") as [->|]; [|discriminate]. cbn [negb].
    destruct (String.eqb_spec t1 "all-events") as [->|N1]; [destruct rest; discriminate|].
    destruct (String.eqb_spec t1 "user") as [->|N2]; [destruct rest as [|a [|b rest]]; discriminate|].
    destruct (String.eqb_spec t1 "problem") as [->|N3]; [destruct rest as [|a [|b rest]]; discriminate|].
    destruct (String.eqb_spec t1 "problemset") as [->|N4].
    { destruct rest as [|a rest]; [auto|]. destruct (ParseInt a); [|discriminate]. destruct rest as [|b [|c rest]]; discriminate. }
    destruct (String.eqb_spec t1 "contest") as [->|N5]; [|discriminate].
    destruct rest as [|a [|b [|c rest]]]; discriminate.
  - intros ->. reflexivity.
Qed.
Print Assumptions C28_only_panic.
Theorem C28_no_panic_refuted : exists s, NewFilter s = Panic.
Proof. exists "/problemset". reflexivity. Qed.
Print Assumptions C28_no_panic_refuted.
Example C28_example : NewFilter "/problemset/+0042/tok" = Ok (Problemset 42 "tok") /\ "/" ++ String_ (Problemset 42 "tok") = "/problemset/42/tok" /\
  NewFilter "/problemset/9223372036854775808" = Err /\ NewFilter "/contest//" = Ok (Contest "" "") /\ NewFilter "/user" = Err.
Proof. repeat split. Qed.

(* ---- C27 ---- *)
Lemma string_in m k : stringMapContains m k = true <-> In k m.
Proof.
  unfold stringMapContains. rewrite existsb_exists. split; [intros (x & H & E); apply String.eqb_eq in E; subst; auto|].
  intros H. exists k. split; [auto|apply String.eqb_refl].
Qed.
Lemma int_in m k : intMapContains m k = true <-> In k m.
Proof.
  unfold intMapContains. rewrite existsb_exists. split; [intros (x & H & E); apply Z.eqb_eq in E; subst; auto|].
  intros H. exists k. split; [auto|apply Z.eqb_refl].
Qed.
Lemma own_spec s m : (negb (s_user s =? "") && (m_user m =? s_user s))%bool = true <-> s_user s <> "" /\ m_user m = s_user s.
Proof. rewrite andb_true_iff, negb_true_iff, String.eqb_neq, String.eqb_eq. tauto. Qed.

(* No subscriber that is logged in, and none without a user filter, is ever sent
   a message it may not see. *)
Theorem C27_confidential : forall s m, matches s m = true ->
  (s_user s <> "" \/ forall f, In f (s_filters s) -> ~ is_user_filter f) -> may_see s m.
Proof.
  intros s m H HA. unfold matches in H. apply existsb_exists in H. destruct H as (f & HI & H). unfold may_see.
  destruct f as [|u|p|z t|c t]; cbn [filter_matches] in H.
  - auto.
  - apply String.eqb_eq in H. destruct HA as [HA|HA]; [auto|]. elim (HA _ HI). exists u. auto.
  - apply andb_true_iff in H. destruct H as [_ H]. rewrite !orb_true_iff, own_spec, string_in in H. tauto.
  - apply andb_true_iff in H. destruct H as [_ H]. rewrite !orb_true_iff, own_spec, int_in in H. tauto.
  - apply andb_true_iff in H. destruct H as [_ H]. rewrite !orb_true_iff, own_spec, string_in in H. tauto.
Qed.
Print Assumptions C27_confidential.

(* A subscriber is sent only what one of its filters asks for (user filters
   apart), and a filter for a problem, contest or problemset gives the messages
   about it that are public, the subscriber's own, or that it administers. *)
Theorem C27_relevant : forall s m, matches s m = true ->
  (exists f, In f (s_filters s) /\ (about f m \/ is_user_filter f /\ m_user m = s_user s)).
Proof.
  intros s m H. unfold matches in H. apply existsb_exists in H. destruct H as (f & HI & H). exists f. split; [auto|].
  destruct f as [|u|p|z t|c t]; cbn [filter_matches about] in *; auto.
  - right. apply String.eqb_eq in H. split; [exists u; auto|auto].
  - apply andb_true_iff in H. rewrite String.eqb_eq in H. tauto.
  - apply andb_true_iff in H. rewrite Z.eqb_eq in H. tauto.
  - apply andb_true_iff in H. rewrite String.eqb_eq in H. tauto.
Qed.
Print Assumptions C27_relevant.
Theorem C27_complete : forall s m f, In f (s_filters s) ->
  match f with
  | AllEvents => s_admin s = true
  | User _ => m_user m = s_user s
  | Problem p => m_problem m = p /\ (s_admin s = true \/ m_public m = true \/ (s_user s <> "" /\ m_user m = s_user s) \/ In p (s_problems s))
  | Problemset z _ => m_problemset m = z /\ (s_admin s = true \/ m_public m = true \/ (s_user s <> "" /\ m_user m = s_user s) \/ In z (s_problemsets s))
  | Contest c _ => m_contest m = c /\ (s_admin s = true \/ m_public m = true \/ (s_user s <> "" /\ m_user m = s_user s) \/ In c (s_contests s))
  end -> matches s m = true.
Proof.
  intros s m f HI H. unfold matches. apply existsb_exists. exists f. split; [auto|]. destruct f as [|u|p|z t|c t]; cbn [filter_matches]; auto.
  - apply String.eqb_eq; auto.
  - destruct H as [<- H]. rewrite String.eqb_refl. cbn [andb]. rewrite !orb_true_iff, own_spec, string_in. tauto.
  - destruct H as [<- H]. rewrite Z.eqb_refl. cbn [andb]. rewrite !orb_true_iff, own_spec, int_in. tauto.
  - destruct H as [<- H]. rewrite String.eqb_refl. cbn [andb]. rewrite !orb_true_iff, own_spec, string_in. tauto.
Qed.
Print Assumptions C27_complete.

(* A subscriber exists only if the frontend confirmed all its filters with status
   200; its rights are those of the answer. *)
Theorem C27_rights_from_frontend : forall fstr reply s, NewSubscriber fstr reply = Ok s <->
  exists v fs, reply = Some (200%Z, Some v) /\
  Forall2 (fun x f => denotes x f) (split "," fstr) fs /\
  s = mkSub (v_user v) (v_admin v) (v_problems v) (v_contests v) (v_problemsets v) fs.
Proof.
  intros fstr reply s. unfold NewSubscriber.
  assert (PF : forall l fs, parse_filters l = Ok fs <-> Forall2 (fun x f => denotes x f) l fs).
  { induction l as [|x l IH]; intros fs; cbn [parse_filters].
    - split; [intros H; injection H as <-; constructor|intros H; inversion H; auto].
    - split.
      + destruct (NewFilter x) as [f| |] eqn:E; try discriminate. destruct (parse_filters l) as [gs| |] eqn:E2; try discriminate.
        intros H; injection H as <-. constructor; [apply C28_grammar; auto|apply IH; auto].
      + intros H; inversion H as [|? f ? gs A B]; subst. apply C28_grammar in A. rewrite A. apply IH in B. rewrite B. auto. }
  split.
  - destruct (parse_filters (split "," fstr)) as [fs| |] eqn:E; try discriminate.
    destruct reply as [[status [v|]]|]; try discriminate. destruct (Z.eqb_spec status 200) as [->|]; [|discriminate].
    intros H; injection H as <-. exists v, fs. split; [auto|]. split; [apply PF; auto|auto].
  - intros (v & fs & -> & H & ->). apply PF in H. rewrite H. reflexivity.
Qed.
Print Assumptions C27_rights_from_frontend.

(* False of the code: confidentiality for anonymous subscribers.  With a user
   filter (for whichever user) they are sent every message that concerns no user,
   public or not. *)
Theorem C27_anonymous_refuted : exists s m, s_user s = "" /\ s_admin s = false /\ s_problems s = [] /\ s_contests s = [] /\ s_problemsets s = [] /\
  s_filters s = [User "alice"] /\ m_public m = false /\ matches s m = true /\ ~ may_see s m.
Proof.
  exists (mkSub "" false [] [] [] [User "alice"]), (mkMsg "contest" 1 "problem" "" false "for administrators").
  repeat split; auto. intros H. destruct H as [H|[H|[[H _]|[H|[H|H]]]]]; try discriminate H; cbn in H; auto.
Qed.
Print Assumptions C27_anonymous_refuted.
(* False of the code: that a user filter selects the messages of that user.  It
   selects those of the subscriber, whatever user it names; an administrator who
   asks for alice's messages gets his own. *)
Theorem C27_user_filter_refuted : exists s m m', s_admin s = true /\ s_filters s = [User "alice"] /\
  matches s m = true /\ ~ about (User "alice") m /\ about (User "alice") m' /\ may_see s m' /\ matches s m' = false.
Proof.
  exists (mkSub "bob" true [] [] [] [User "alice"]), (mkMsg "" 0 "" "bob" false ""), (mkMsg "" 0 "" "alice" false "").
  repeat split; auto; [discriminate|left; auto].
Qed.
Print Assumptions C27_user_filter_refuted.
Example C27_example : let s := mkSub "bob" false ["p"] [] [] [Problem "p"; Contest "c" ""; Problemset 7 ""] in
  matches s (mkMsg "c" 7 "q" "alice" false "") = false /\ matches s (mkMsg "c" 7 "q" "bob" false "") = true /\
  matches s (mkMsg "" 0 "p" "alice" false "") = true /\ matches s (mkMsg "c" 0 "" "" true "") = true /\ s_user s <> "".
Proof. repeat split. discriminate. Qed.

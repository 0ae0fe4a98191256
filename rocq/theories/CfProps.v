(* C82: the configuration file. *)
From Coq Require Import String List ZArith Bool Lia.
From Verif Require Import GoStr TrcModel Utf8Spec RrModel RrSpec RrProofs CfModel CfSpec CfProofs.
Import ListNotations.
Local Open Scope string_scope.
Local Open Scope Z_scope.

Lemma distinct_config : distinct Config.
Proof. apply distinctb_ok. vm_compute. reflexivity. Qed.
Lemma default_typed : of_type Config defaultConfig.
Proof.
  unfold Config, defaultConfig, BroadcasterConfig, InputManagerConfig, GraderConfig, DbConfig, LoggingConfig, MetricsConfig, TracingConfig, RunnerConfig, V1Config,
    GraderEphemeralConfig, GraderCIConfig, TLSConfig, tls, seconds, int_, uint16_.
  repeat (first [apply of_struct | apply Forall2_nil | apply Forall2_cons | split; [reflexivity|] | apply of_bool | apply of_str
                | apply of_int; lia | apply of_dur; vm_compute; split; [intros X; discriminate X|reflexivity]
                | apply of_byte; vm_compute; split; [intros X; discriminate X|reflexivity]]).
Qed.

(* Every accepted file gives a configuration of the right type: ports are ports,
   numbers fit, every setting is there. *)
Theorem C82_typed : forall read_dur read_byte equal_fold, in_range read_dur -> in_range read_byte ->
  forall j c, NewConfig read_dur read_byte equal_fold (Some j) = Some c -> of_type Config c.
Proof. intros rd rb ef Rd Rb j c N. exact (proj1 (decode_spec rd rb ef Rd Rb Config _ j c default_typed N)). Qed.
Print Assumptions C82_typed.

Theorem C82_ports : forall read_dur read_byte equal_fold, in_range read_dur -> in_range read_byte ->
  forall j c, NewConfig read_dur read_byte equal_fold (Some j) = Some c ->
  forall p, In p [["Broadcaster"; "EventsPort"]; ["Broadcaster"; "Port"]; ["Grader"; "Port"]; ["Grader"; "V1"; "Port"]; ["Grader"; "Ephemeral"; "Port"]; ["Metrics"; "Port"]] ->
  exists n, value_at c p = Some (CInt n) /\ 0 <= n <= 65535.
Proof.
  intros rd rb ef Rd Rb j c N p Ip. pose proof (C82_typed rd rb ef Rd Rb j c N) as T.
  assert (S : setting Config p uint16_) by (cbn in Ip; destruct Ip as [<-|[<-|[<-|[<-|[<-|[<-|[]]]]]]]; (split; [reflexivity|exact I])).
  destruct (typed_leaf _ _ T p _ S) as (w & V & Tw). inversion Tw; subst. eauto.
Qed.
Print Assumptions C82_ports.

(* A plain setting is what the file last says it is, and the default if it does not say. *)
Theorem C82_plain : forall read_dur read_byte equal_fold, in_range read_dur -> in_range read_byte ->
  forall j c p s js d, NewConfig read_dur read_byte equal_fold (Some j) = Some c ->
  type_at Config p = Some s -> plain s -> value_at defaultConfig p = Some d -> says equal_fold Config j p js ->
  exists v, value_at c p = Some v /\ ends_as d js v.
Proof.
  intros rd rb ef Rd Rb j c p s js d N Ts P Vd S. assert (L : setting Config p s) by (split; [exact Ts|destruct s; auto]).
  destruct (decode_spec rd rb ef Rd Rb Config _ j c default_typed N) as (_ & H). destruct (H p s L) as (v0 & w & V0 & W & U).
  rewrite Vd in V0. injection V0 as <-. exists w. split; [exact W|]. apply says_mentions in S. subst js.
  destruct (typed_leaf _ _ default_typed p s L) as (d' & Vd' & Td). rewrite Vd in Vd'. injection Vd' as <-.
  eapply puts_plain with (read_dur := rd) (read_byte := rb); eauto.
Qed.
Print Assumptions C82_plain.

(* Lengths of time and sizes: read one after the other, the first one over the default. *)
Theorem C82_lengths : forall read_dur read_byte equal_fold, in_range read_dur -> in_range read_byte ->
  forall j c p js, NewConfig read_dur read_byte equal_fold (Some j) = Some c -> says equal_fold Config j p js ->
  (type_at Config p = Some TDur -> exists d z, value_at defaultConfig p = Some (CDur d) /\ value_at c p = Some (CDur z) /\ read_all read_dur d js = Some z) /\
  (type_at Config p = Some TByte -> exists d z, value_at defaultConfig p = Some (CByte d) /\ value_at c p = Some (CByte z) /\ read_all read_byte d js = Some z).
Proof.
  intros rd rb ef Rd Rb j c p js N S. apply says_mentions in S. subst js.
  destruct (decode_spec rd rb ef Rd Rb Config _ j c default_typed N) as (_ & H). split; intros Ts.
  - assert (L : setting Config p TDur) by (split; [exact Ts|exact I]). destruct (H p _ L) as (v0 & w & V0 & W & U).
    destruct (typed_leaf _ _ default_typed p _ L) as (d' & Vd' & Td). rewrite V0 in Vd'. injection Vd' as <-. inversion Td; subst.
    destruct (puts_dur rd rb _ _ _ U) as (z' & -> & R). eauto.
  - assert (L : setting Config p TByte) by (split; [exact Ts|exact I]). destruct (H p _ L) as (v0 & w & V0 & W & U).
    destruct (typed_leaf _ _ default_typed p _ L) as (d' & Vd' & Td). rewrite V0 in Vd'. injection Vd' as <-. inversion Td; subst.
    destruct (puts_byte rd rb _ _ _ U) as (z' & -> & R). eauto.
Qed.
Print Assumptions C82_lengths.

(* Exactly the files all of whose settings fit are accepted; what they say about names
   that are no settings does not matter. *)
Theorem C82_accepted_iff : forall read_dur read_byte equal_fold, in_range read_dur -> in_range read_byte -> independent read_dur -> independent read_byte ->
  forall f, NewConfig read_dur read_byte equal_fold f <> None <-> exists j, f = Some j /\ fits read_dur read_byte equal_fold Config j.
Proof.
  intros rd rb ef Rd Rb Id Ib [j|]; cbn [NewConfig].
  - rewrite (decode_fits rd rb ef Rd Rb Id Ib Config _ j default_typed). split; [eauto|]. intros (j' & E & F). injection E as ->. exact F.
  - split; [congruence|]. intros (j & E & _). discriminate E.
Qed.
Print Assumptions C82_accepted_iff.
(* For an accepted file, what it says about a setting is always defined. *)
Theorem C82_says : forall read_dur read_byte equal_fold, in_range read_dur -> in_range read_byte -> independent read_dur -> independent read_byte ->
  forall j p s, NewConfig read_dur read_byte equal_fold (Some j) <> None -> setting Config p s ->
  exists js, says equal_fold Config j p js /\ forall js', says equal_fold Config j p js' -> js' = js.
Proof.
  intros rd rb ef Rd Rb Id Ib j p s N [Ts L]. cbn [NewConfig] in N. rewrite (decode_fits rd rb ef Rd Rb Id Ib Config _ j default_typed) in N.
  exists (mentions ef Config j p). split; [|intros js'; apply says_mentions]. apply (mentions_says rd rb ef p Config j s Ts); [|exact N].
  intros fs E. inversion N as [t X| | | | | |gs X|gs l X]; subst; try discriminate; eauto.
Qed.
Print Assumptions C82_says.

(* Two accepted files that say the same about every setting give the same configuration:
   the order of different settings, the case of names, and other names do not matter. *)
Theorem C82_determined : forall read_dur read_byte equal_fold, in_range read_dur -> in_range read_byte ->
  forall j j' c c', NewConfig read_dur read_byte equal_fold (Some j) = Some c -> NewConfig read_dur read_byte equal_fold (Some j') = Some c' ->
  (forall p s, setting Config p s -> exists js, says equal_fold Config j p js /\ says equal_fold Config j' p js) -> c = c'.
Proof.
  intros rd rb ef Rd Rb j j' c c' N N' S.
  destruct (decode_spec rd rb ef Rd Rb Config _ j c default_typed N) as (T & H).
  destruct (decode_spec rd rb ef Rd Rb Config _ j' c' default_typed N') as (T' & H').
  apply (extensional Config distinct_config); auto. intros p s L.
  destruct (S p s L) as (js & S1 & S2). apply says_mentions in S1. apply says_mentions in S2.
  destruct (H p s L) as (v0 & w & V0 & W & U). destruct (H' p s L) as (v0' & w' & V0' & W' & U').
  rewrite V0 in V0'. injection V0' as <-. rewrite <- S1 in U. rewrite <- S2 in U'. rewrite U in U'. injection U' as <-. congruence.
Qed.
Print Assumptions C82_determined.

(* What /debug/vars shows can be read back: a written configuration loads as itself. *)
Theorem C82_round_trip : forall show_dur read_dur show_byte read_byte equal_fold, bytes_round_trip show_dur read_dur -> bytes_round_trip show_byte read_byte ->
  forall c, of_type Config c -> text_ok c -> NewConfig read_dur read_byte equal_fold (Some (encode show_dur show_byte c)) = Some c.
Proof.
  intros sd rd sb rb ef Dd Db c T X. apply (round_trip rd rb ef sd sb Dd Db Config distinct_config _ c default_typed T X).
Qed.
Print Assumptions C82_round_trip.

(* Nothing checks that the settings can be used: a channel of negative length and a
   ticker that does not advance make every event connection panic
   (broadcaster/subscriber.go:91, 242, 336). *)
Definition usable (c : val) : Prop :=
  (exists n, value_at c ["Broadcaster"; "ChannelLength"] = Some (CInt n) /\ 0 <= n) /\
  (exists n, value_at c ["Broadcaster"; "PingPeriod"] = Some (CDur n) /\ 0 < n).
Theorem C82_usable_refuted : forall show_dur read_dur read_byte equal_fold, bytes_round_trip show_dur read_dur ->
  (exists j c, NewConfig read_dur read_byte equal_fold (Some j) = Some c /\ value_at c ["Broadcaster"; "ChannelLength"] = Some (CInt (-1)) /\ ~ usable c) /\
  (exists j c, NewConfig read_dur read_byte equal_fold (Some j) = Some c /\ value_at c ["Broadcaster"; "PingPeriod"] = Some (CDur 0) /\ ~ usable c).
Proof.
  intros sd rd rb ef Dd. split.
  - exists (JObj [("Broadcaster", JObj [("ChannelLength", JInt (-1))])]). eexists. split; [reflexivity|]. split; [reflexivity|].
    intros ((n & E & L) & _). cbn in E. injection E as <-. lia.
  - exists (JObj [("Broadcaster", JObj [("PingPeriod", sd 0)])]).
    assert (R : forall z, rd z (sd 0) = Some 0) by (intros z; apply Dd; split; lia).
    eexists. split; [|split; [|intros (_ & n & E & L)]].
    + unfold NewConfig, Config. unfold defaultConfig. rewrite decode_obj. cbn -[decode]. unfold BroadcasterConfig at 1. rewrite decode_obj. cbn -[decode].
      rewrite decode_leaf by exact I. cbn. rewrite R. reflexivity.
    + reflexivity.
    + cbn in E. injection E as <-. lia.
Qed.
Print Assumptions C82_usable_refuted.

(* A file that does not set the secret of the scoreboard is accepted, and the secret is
   then the one in the source. *)
Theorem C82_secret_refuted : forall read_dur read_byte equal_fold, exists c,
  NewConfig read_dur read_byte equal_fold (Some (JObj [])) = Some c /\ value_at c ["Broadcaster"; "ScoreboardUpdateSecret"] = Some (CStr "secret").
Proof. intros rd rb ef. exists defaultConfig. split; reflexivity. Qed.
Print Assumptions C82_secret_refuted.

(* ---- cases that meet the hypotheses ---- *)
Definition ex_show (z : Z) : json := JInt z.
Definition ex_read (_ : Z) (j : json) : option Z := match j with JInt z => if (- 2 ^ 63 <=? z) && (z <? 2 ^ 63) then Some z else None | _ => None end.
Example ex_range : in_range ex_read.
Proof.
  intros z [| |y| | | |] z'; cbn; intros X; try discriminate X. destruct ((_ <=? y) && (y <? _)) eqn:Q; [|discriminate X]. injection X as <-.
  apply andb_prop in Q as [Q1 Q2]. apply Z.leb_le in Q1. apply Z.ltb_lt in Q2. split; assumption.
Qed.
Example ex_independent : independent ex_read.
Proof. intros z z' j X. exact X. Qed.
Example ex_round : bytes_round_trip ex_show ex_read.
Proof.
  intros z b [L U]. unfold ex_read, ex_show. apply Z.leb_le in L. apply Z.ltb_lt in U. rewrite L, U. reflexivity.
Qed.
(* Names that differ only in case. *)
Definition ex_fold (a b : string) : bool := String.eqb a "Port" && String.eqb b "PORT" || String.eqb a b.
Definition ex_file : json := JObj [
  ("Grader", JObj [("PORT", JInt 80); ("V1", JNull); ("Port", JNull); ("Ephemeral", JObj [("CaseTimeLimit", JInt 7)])]);
  ("Surprise", JArr []);
  ("Broadcaster", JObj [("ScoreboardUpdateSecret", JStr "a"); ("ScoreboardUpdateSecret", JStr "b")]);
  ("Grader", JObj [("ChannelLength", JInt 2)])].
Definition ex_config : val := match NewConfig ex_read ex_read ex_fold (Some ex_file) with Some c => c | None => defaultConfig end.
Example ex_loads : NewConfig ex_read ex_read ex_fold (Some ex_file) = Some ex_config.
Proof. vm_compute. reflexivity. Qed.
Example ex_values : value_at ex_config ["Grader"; "Port"] = Some (CInt 80) /\ value_at ex_config ["Grader"; "ChannelLength"] = Some (CInt 2) /\
  value_at ex_config ["Broadcaster"; "ScoreboardUpdateSecret"] = Some (CStr "b") /\ value_at ex_config ["Grader"; "V1"; "Port"] = Some (CInt 21680) /\
  value_at ex_config ["Grader"; "Ephemeral"; "CaseTimeLimit"] = Some (CDur 7).
Proof. vm_compute. repeat split; reflexivity. Qed.
Example ex_says : says ex_fold Config ex_file ["Grader"; "Port"] [JInt 80; JNull].
Proof. apply (mentions_says ex_read ex_read ex_fold ["Grader"; "Port"] Config ex_file uint16_ eq_refl).
  - intros fs E. right. eexists. reflexivity.
  - apply (decode_fits ex_read ex_read ex_fold ex_range ex_range ex_independent ex_independent Config defaultConfig ex_file default_typed).
    pose proof ex_loads as L. cbn [NewConfig] in L. rewrite L. congruence.
Qed.
Example ex_ends : ends_as (CInt 11302) [JInt 80; JNull] (CInt 80).
Proof. apply (ends_said _ [] (JInt 80) [JNull]); [reflexivity|]. intros j [<-|[]]. reflexivity. Qed.
Example ex_rejected : NewConfig ex_read ex_read ex_fold (Some (JObj [("Metrics", JObj [("Port", JInt 65536)])])) = None.
Proof. vm_compute. reflexivity. Qed.
Lemma ascii_valid s : forallb (fun n => (n <? 128)%N) (bytes_of s) = true -> valid s.
Proof.
  intros H. exists (bytes_of s). rewrite forallb_forall in H. split.
  - apply Forall_forall. intros n I. apply H in I. apply N.ltb_lt in I. unfold scalar. lia.
  - induction (bytes_of s) as [|n l IH]; [reflexivity|]. cbn [map concat]. rewrite <- IH by (intros; apply H; now right).
    unfold utf8. rewrite H by now left. reflexivity.
Qed.
Example ex_text : text_ok defaultConfig.
Proof.
  unfold defaultConfig, tls, seconds.
  repeat (first [apply text_struct | apply Forall_nil | apply Forall_cons; cbn [snd] | apply text_bool | apply text_int | apply text_dur | apply text_byte
                | apply text_str; apply ascii_valid; vm_compute; reflexivity]).
Qed.

(* Without a word in the file, the parts find each other: the runner's grader and the
   grader's broadcaster are at the ports these listen on, and all ports are different. *)
Definition says_str (c : val) (p : list string) (s : string) : Prop := value_at c p = Some (CStr s).
Definition says_int (c : val) (p : list string) (z : Z) : Prop := value_at c p = Some (CInt z).
Theorem C82_parts_meet : forall read_dur read_byte equal_fold c, NewConfig read_dur read_byte equal_fold (Some (JObj [])) = Some c ->
  (exists z, says_str c ["Runner"; "GraderURL"] ("https://omegaup.com:" ++ fmt_int z) /\ says_int c ["Grader"; "Port"] z) /\
  (exists z, says_str c ["Grader"; "BroadcasterURL"] ("https://omegaup.com:" ++ fmt_int z ++ "/broadcast/") /\ says_int c ["Broadcaster"; "Port"] z) /\
  (exists l, Forall2 (says_int c) [["Broadcaster"; "EventsPort"]; ["Broadcaster"; "Port"]; ["Grader"; "Port"]; ["Grader"; "V1"; "Port"]; ["Grader"; "Ephemeral"; "Port"]; ["Metrics"; "Port"]] l /\ NoDup l) /\
  (exists d, says_str c ["Grader"; "RuntimePath"] d /\ says_str c ["Grader"; "V1"; "RuntimePath"] d) /\
  (exists u v, says_str c ["Broadcaster"; "FrontendURL"] u /\ says_str c ["Runner"; "GraderURL"] (u ++ v)).
Proof.
  intros rd rb ef c N. injection N as <-. unfold says_str, says_int. split; [|split; [|split; [|split]]].
  - exists 11302. split; reflexivity.
  - exists 32672. split; reflexivity.
  - exists [22291; 32672; 11302; 21680; 36663; 6060]. split.
    + apply Forall2_cons; [reflexivity|]. apply Forall2_cons; [reflexivity|]. apply Forall2_cons; [reflexivity|]. apply Forall2_cons; [reflexivity|].
      apply Forall2_cons; [reflexivity|]. apply Forall2_cons; [reflexivity|]. apply Forall2_nil.
    + repeat constructor; cbn; intuition discriminate.
  - exists "/var/lib/omegaup/". split; reflexivity.
  - exists "https://omegaup.com", ":11302". split; reflexivity.
Qed.
Print Assumptions C82_parts_meet.

(* Numbers that are no ports fit an int; and every number that fits can be set. *)
Theorem C82_numbers : forall read_dur read_byte equal_fold, in_range read_dur -> in_range read_byte ->
  forall p, In p [["Broadcaster"; "ChannelLength"]; ["Grader"; "ChannelLength"]; ["Grader"; "MaxGradeRetries"]] ->
  (forall j c, NewConfig read_dur read_byte equal_fold (Some j) = Some c -> exists n, value_at c p = Some (CInt n) /\ int64 n) /\
  (forall n, int64 n -> exists c, NewConfig read_dur read_byte equal_fold (Some (only p (JInt n))) = Some c /\ value_at c p = Some (CInt n)).
Proof.
  intros rd rb ef Rd Rb p Ip. split.
  - intros j c N. pose proof (C82_typed rd rb ef Rd Rb j c N) as T.
    assert (S : setting Config p int_) by (cbn in Ip; destruct Ip as [<-|[<-|[<-|[]]]]; (split; [reflexivity|exact I])).
    destruct (typed_leaf _ _ T p _ S) as (w & V & Tw). inversion Tw; subst. exists z. split; [exact V|]. unfold int64. lia.
  - intros n R. assert (E : ((- 2 ^ 63 <=? n) && (n <=? 2 ^ 63 - 1))%Z = true) by (unfold int64 in R; apply andb_true_intro; split; apply Z.leb_le; lia).
    cbn in Ip; destruct Ip as [<-|[<-|[<-|[]]]]; eexists; (split; [unfold NewConfig; cbn -[Z.pow Z.leb]; rewrite E; reflexivity|reflexivity]).
Qed.
Theorem C82_port_numbers : forall read_dur read_byte equal_fold n, 0 <= n <= 65535 ->
  forall p, In p [["Broadcaster"; "EventsPort"]; ["Broadcaster"; "Port"]; ["Grader"; "Port"]; ["Grader"; "V1"; "Port"]; ["Grader"; "Ephemeral"; "Port"]; ["Metrics"; "Port"]] ->
  exists c, NewConfig read_dur read_byte equal_fold (Some (only p (JInt n))) = Some c /\ value_at c p = Some (CInt n).
Proof.
  intros rd rb ef n R p Ip. assert (E : ((0 <=? n) && (n <=? 65535))%Z = true) by (apply andb_true_intro; split; apply Z.leb_le; lia).
  cbn in Ip; destruct Ip as [<-|[<-|[<-|[<-|[<-|[<-|[]]]]]]]; eexists; (split; [unfold NewConfig; cbn -[Z.pow Z.leb]; rewrite E; reflexivity|reflexivity]).
Qed.
Print Assumptions C82_numbers.
Print Assumptions C82_port_numbers.

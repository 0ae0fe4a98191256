From Coq Require Import String Ascii List Bool ZArith Lia.
From Verif Require Import GoStr InModel RhModel RhSpec UlModel UlSpec UlProofs.
From Verif Require RrModel.
Import ListNotations.
Local Open Scope string_scope.

Section Sys.
Variable b : string.
Variable res : Type.
Variable je : res.
Variable fixup : res -> option res.
Variable encode : res -> RrModel.outcome string.
Variable serve : string -> bool -> option Z.
Notation send := (send res je fixup encode).
Notation program := (program b res je fixup encode).
Notation start := (start b res je fixup encode).
Notation net := (net serve).
Notation reach := (reach serve).
Notation upload_of := (upload_of b res je fixup encode serve).

Definition opt (x : option string) : string := match x with Some x => x | None => "" end.
Fixpoint bytes (l : list op) : string := match l with [] => "" | Write x :: l => x ++ bytes l | CloseChannel :: l => bytes l end.
Lemma bytes_app l m : bytes (l ++ m) = bytes l ++ bytes m.
Proof. induction l as [|[x|] l IH]; cbn; rewrite ?IH, ?assoc_s; auto. Qed.
Lemma bytes_writes l : bytes (map Write l) = joined l.
Proof. unfold joined. induction l as [|x l IH]; [auto|]. cbn [map bytes]. rewrite IH. destruct l; cbn; rewrite ?nil_s; auto. Qed.
Definition content (l : list (string * list string)) : list (string * string) := map (fun x => (fst x, joined (snd x))) l.
Lemma bytes_parts l : forall first, bytes (write_parts b first l) ++ finish_body b = written b first (content l).
Proof.
  induction l as [|[n cs] l IH]; intros first; [reflexivity|]. cbn [write_parts bytes content map fst snd written]. rewrite bytes_app, bytes_writes, !assoc_s, IH. auto.
Qed.
Lemma program_bytes g lo tr : bytes (program g lo tr) = written b true (content (fst (send g lo tr))).
Proof. unfold UlModel.program. rewrite bytes_app, <- bytes_parts. cbn [bytes]. rewrite nil_s. auto. Qed.

(* Only Writes, and then the channel is closed. *)
Fixpoint orderly (l : list op) : Prop := match l with [] => False | [CloseChannel] => True | Write _ :: l => orderly l | _ => False end.
Lemma orderly_app l : forall m, orderly m -> (forall x, In x l -> exists s, x = Write s) -> orderly (l ++ m).
Proof. induction l as [|x l IH]; intros m M H; [auto|]. destruct (H x) as (s & ->); [left; auto|]. cbn [app orderly]. assert (X : orderly (l ++ m)) by (apply IH; auto; intros; apply H; right; auto). destruct (l ++ m)%list; auto. Qed.
Lemma writes_only first l x : In x (write_parts b first l) -> exists s, x = Write s.
Proof.
  revert first. induction l as [|[n cs] l IH]; intros first H; [destruct H|]. cbn [write_parts] in H. destruct H as [<-|H]; [eauto|]. apply in_app_or in H. destruct H as [H|H]; [|eauto].
  apply in_map_iff in H. destruct H as (s & <- & _). eauto.
Qed.
Lemma orderly_program g lo tr : orderly (program g lo tr).
Proof. apply orderly_app; [exact Logic.I|]. apply writes_only. Qed.
Lemma orderly_write x l : orderly (Write x :: l) -> orderly l. Proof. cbn. destruct l; auto. Qed.

Definition early (s : state) : Prop := upload s = Starting \/ upload s = Doing.
Record inv (how : ending) (body : string) (s : state) : Prop := {
  i_panic : panicked s = false;
  i_gone : upload s = Gone -> closed s = true;
  i_todo : (orderly (todo s) /\ closed s = false /\ main_at s = Running) \/ (todo s = [] /\ closed s = true /\ stands s = None);
  i_dead : main_at s = Dead -> how = Dies;
  i_wait : main_at s = Waiting -> how = ReturnsNil;
  i_fin : early s -> finished s = [] /\ finished_closed s = false;
  i_fin1 : upload s = Closing_finished -> finished_closed s = false;
  i_fin2 : ~ early s -> main_at s = Running \/ main_at s = Waiting -> finished s <> [];
  i_true : In true (finished s) -> reply s <> None;
  i_ok : main_at s = Returned true -> how = ReturnsNil /\ reply s <> None;
  i_no : main_at s = Returned false -> how = ReturnsErr \/ how = ReturnsNil /\ ~ early s;
  i_reply : forall st, reply s = Some st -> exists d e, handled s = Some (d, e) /\ serve d e = Some st;
  i_off : transport s = Off -> sent s = "" /\ chunk s = None /\ ended s = false /\ handled s = None /\ (early s -> opt (stands s) ++ bytes (todo s) = body);
  i_stream : transport s = Streaming -> handled s = None -> upload s = Doing /\ sent s ++ opt (chunk s) ++ opt (stands s) ++ bytes (todo s) = body;
  i_sent : handled s = None -> Prefix (sent s) body /\ (ended s = true -> sent s = body);
  i_handled : forall d e, handled s = Some (d, e) -> Prefix d body /\ (e = true -> d = body)
}.

Lemma take_drop n s : take n s ++ drop n s = s.
Proof. revert s. induction n as [|n IH]; intros [|c s]; cbn; auto. rewrite IH. auto. Qed.
Lemma take_all n s : n = String.length s -> take n s = s.
Proof. revert n. induction s as [|c s IH]; intros [|n] H; cbn in *; auto; try discriminate. rewrite IH; auto. Qed.

Lemma inv_start g lo tr : inv (snd (send g lo tr)) (bytes (program g lo tr)) (start g lo tr).
Proof.
  constructor; cbn; auto; try discriminate; try (intros; contradiction); try tauto.
  - left. split; [apply orderly_program|auto].
  - intros H. elim H. left. auto.
  - split; [exists (bytes (program g lo tr)); auto|discriminate].
Qed.

Ltac simp := cbn [todo stands closed chunk transport sent ended handled reply upload finished finished_closed main_at panicked to_do moves takes serves panics] in *.
Ltac same H := destruct H; constructor; unfold early in *; simp; auto.

Lemma inv_own how body s s' : inv how body s -> own how s s' -> inv how body s'.
Proof.
  intros H O. destruct O.
  - (* write *) destruct H as [P GO T D W F F1 F2 TR OK NO RE OF ST SE HA]. destruct T as [(T1 & T2 & T3)|(T1 & _)]; [|rewrite H1 in T1; discriminate].
    rewrite H1 in *. apply orderly_write in T1. constructor; unfold early in *; simp; auto.
    + intros K. apply GO in K. congruence.
    + intros X. destruct (OF X) as (A & B & C & E & G). repeat split; auto; intros K; rewrite <- (G K), H2. auto.
    + intros X Y. destruct (ST X Y) as (A & B). split; [auto|]. rewrite <- B, H2. auto.
  - exfalso. destruct H as [P GO T]. destruct T as [(_ & T2 & _)|(T1 & _)]; [congruence|rewrite H1 in T1; discriminate].
  - (* close *) destruct H as [P GO T D W F F1 F2 TR OK NO RE OF ST SE HA]. destruct T as [(T1 & T2 & T3)|(T1 & _)]; [|rewrite H1 in T1; discriminate].
    rewrite H1 in *. assert (t = []) as -> by (destruct t as [|x t]; [auto|destruct x; destruct T1]). constructor; unfold early in *; simp; auto.
    + intros X. destruct (OF X) as (A & B & C & E & G). repeat split; auto; intros K; rewrite <- (G K), H2. auto.
    + intros X Y. destruct (ST X Y) as (A & B). split; [auto|]. rewrite <- B, H2. auto.
  - exfalso. destruct H as [P GO T]. destruct T as [(_ & T2 & _)|(T1 & _)]; [congruence|rewrite H1 in T1; discriminate].
  - (* returns *) destruct H as [P GO T D W F F1 F2 TR OK NO RE OF ST SE HA]. destruct T as [(T1 & _)|T]; [rewrite H1 in T1; destruct T1|].
    constructor; unfold early in *; simp; auto; destruct how; auto; try discriminate; try (intros; destruct (F2 H); auto; fail).
    all: intros _ [K|K]; discriminate K.
  - (* told *) destruct H as [P GO T D W F F1 F2 TR OK NO RE OF ST SE HA]. destruct T as [(_ & _ & T)|T]; [congruence|].
    assert (NE : ~ early s) by (intros K; destruct (F K) as [K1 _]; congruence).
    constructor; unfold early in *; simp; auto; try discriminate; try (intros K; exfalso; tauto).
    + intros _ [K|K]; discriminate K.
    + intros K. apply TR. rewrite H1. right. auto.
    + intros K. injection K as ->. split; [auto|]. apply TR. rewrite H1. left. auto.
  - exfalso. destruct H as [P GO T D W F F1 F2 TR OK NO RE OF ST SE HA].
    assert (NE : ~ early s) by (intros K; destruct (F K) as [_ K1]; congruence). apply F2 in NE; auto.
  - (* no request *) destruct H as [P GO T D W F F1 F2 TR OK NO RE OF ST SE HA].
    assert (ES : early s) by (left; auto). destruct (F ES) as [FA FB].
    constructor; unfold early in *; simp; auto; try discriminate; try (intros [K|K]; discriminate K).
    + intros [K|[]]. discriminate K.
    + intros K. destruct (NO K) as [X|(_ & X)]; [auto|]. elim X. auto.
    + intros X. destruct (OF X) as (A & B & C & E & G). repeat split; auto; intros [K|K]; discriminate K.
    + intros X Y. destruct (ST X Y) as (A & _). congruence.
  - (* does *) destruct H as [P GO T D W F F1 F2 TR OK NO RE OF ST SE HA].
    assert (ES : early s) by (left; auto). destruct (F ES) as [FA FB].
    constructor; unfold early in *; simp; auto; try discriminate; try (intros [K|K]; discriminate K).
    + intros K. destruct (NO K) as [X|(_ & X)]; [auto|]. elim X. auto.
    + intros X. destruct (OF X) as (A & B & C & E & G). repeat split; auto.
    + intros X Y. destruct (ST X Y) as (A & _). congruence.
  - (* close(finished) *) destruct H as [P GO T D W F F1 F2 TR OK NO RE OF ST SE HA].
    assert (NE : ~ early s) by (intros [K|K]; congruence).
    constructor; unfold early in *; simp; auto; try discriminate; try (intros [K|K]; discriminate K).
    + intros K. destruct (NO K) as [X|(X & _)]; [auto|]. right. split; [auto|]. intros [?|?]; discriminate.
    + intros X. destruct (OF X) as (A & B & C & E & G). repeat split; auto; intros [K|K]; discriminate K.
    + intros X Y. destruct (ST X Y) as (A & _). congruence.
  - exfalso. destruct H as [P GO T D W F F1]. apply F1 in H1. congruence.
  - (* drains *) destruct H as [P GO T D W F F1 F2 TR OK NO RE OF ST SE HA].
    assert (NE : ~ early s) by (intros [K|K]; congruence).
    constructor; unfold early in *; simp; auto.
    + destruct T as [T|(_ & _ & T)]; [auto|congruence].
    + intros X. destruct (OF X) as (A & B & C & E & G). repeat split; auto; intros K; tauto.
    + intros X Y. destruct (ST X Y) as (A & _). congruence.
  - (* drained *) destruct H as [P GO T D W F F1 F2 TR OK NO RE OF ST SE HA].
    assert (NE : ~ early s) by (intros [K|K]; congruence).
    constructor; unfold early in *; simp; auto; try discriminate; try (intros [K|K]; discriminate K).
    + intros K. destruct (NO K) as [X|(X & _)]; [auto|]. right. split; [auto|]. intros [?|?]; discriminate.
    + intros X. destruct (OF X) as (A & B & C & E & G). repeat split; auto; intros [K|K]; discriminate K.
    + intros X Y. destruct (ST X Y) as (A & _). congruence.
Qed.
Lemma inv_net how body s s' : inv how body s -> net s s' -> inv how body s'.
Proof.
  intros [P GO T D W F F1 F2 TR OK NO RE OF ST SE HA] N. destruct N.
  - (* starts *) destruct (OF H1) as (A & B & C & E & G). constructor; unfold early in *; simp; auto; try discriminate.
    intros _ _. split; [auto|]. rewrite A, B. apply G. auto.
  - (* receives *) constructor; unfold early in *; simp; auto; try discriminate.
    + destruct T as [T|(_ & _ & T)]; [auto|congruence].
    + intros _ Y. destruct (ST H0 Y) as (A & B). split; [auto|]. rewrite <- B, H1, H2. cbn [opt append]. rewrite ?assoc_s. auto.
  - (* sends *) constructor; unfold early in *; simp; auto; try discriminate.
    + intros _ Y. destruct (ST H0 Y) as (A & B). split; [auto|]. rewrite <- B, H1. cbn [opt]. destruct (Nat.eqb_spec n (String.length c)) as [E|E]; cbn [opt].
      * rewrite (take_all _ _ E), !assoc_s. auto.
      * rewrite !assoc_s. f_equal. rewrite <- (take_drop n c) at 3. rewrite assoc_s. auto.
    + intros Y. destruct (ST H0 Y) as (A & B). destruct (SE Y) as (_ & E). split.
      * exists (drop n c ++ opt (stands s) ++ bytes (todo s)). rewrite <- B, H1. cbn [opt]. rewrite <- (take_drop n c) at 1. rewrite !assoc_s. auto.
      * intros K. specialize (E K). rewrite E in B. rewrite <- (nil_s body) in B at 2. apply inv_s in B. destruct (opt (chunk s)) eqn:X; [|discriminate B]. rewrite H1 in X. cbn in X. subst c. 
        destruct n; cbn; rewrite nil_s; auto.
  - (* ends *) constructor; unfold early in *; simp; auto; try discriminate.
    + destruct T as [T|(T & _)]; auto.
    + intros Y. destruct (ST H0 Y) as (_ & B). destruct (SE Y) as (E & _). split; [auto|]. intros _.
      rewrite <- B, H1, H2. cbn [opt append]. destruct T as [(_ & T & _)|(T & _)]; [congruence|]. rewrite T. cbn. rewrite nil_s. auto.
  - (* stops *) constructor; unfold early in *; simp; auto; try discriminate.
  - (* drains *) constructor; unfold early in *; simp; auto; try discriminate.
    destruct T as [T|(_ & _ & T)]; [auto|congruence].
  - (* drained *) constructor; unfold early in *; simp; auto; try discriminate.
    destruct T as [T|T]; [destruct T as (? & ? & ?); congruence|tauto].
  - (* handles *) constructor; unfold early in *; simp; auto; try discriminate.
    + intros X. destruct (TR X). destruct (reply s) as [st|] eqn:E; [|auto]. destruct (RE st eq_refl) as (d & e' & X1 & _). congruence.
    + intros X. destruct (OK X) as [A B]. split; [auto|]. destruct (reply s) as [st|] eqn:E; [|auto]. destruct (RE st eq_refl) as (d & e' & X1 & _). congruence.
    + intros X. tauto.
    + intros d e' X. injection X as <- <-. destruct (SE H0) as ((y & E1) & E2). split; [exists (z ++ y); rewrite E1, H1, assoc_s; auto|].
      intros K. destruct (H2 K) as [K1 ->]. rewrite <- (E2 K1), H1, nil_s. auto.
  - (* replies *) constructor; unfold early in *; simp; auto; try discriminate.
    + intros X. destruct (OK X) as [A _]. split; [auto|discriminate].
    + intros st' X. injection X as <-. eauto.
  - (* answers *) assert (ES : early s) by (right; auto). destruct (F ES) as [FA FB]. constructor; unfold early in *; simp; auto; try discriminate; try (intros [K|K]; discriminate K).
    + intros _ K. congruence.
    + intros K. destruct (NO K) as [X|(_ & X)]; [auto|]. elim X. auto.
    + intros X. destruct (OF X) as (A & B & C & E & G). repeat split; auto; intros [K|K]; discriminate K.
    + intros X Y. destruct (RE _ H1) as (d & e & R & _). congruence.
  - (* fails *) assert (ES : early s) by (right; auto). destruct (F ES) as [FA FB]. constructor; unfold early in *; simp; auto; try discriminate; try (intros [K|K]; discriminate K).
    + intros [K|[]]. discriminate K.
    + intros K. destruct (NO K) as [X|(_ & X)]; [auto|]. elim X. auto.
    + intros X. destruct H1; congruence.
    + intros X Y. destruct H1; congruence.
Qed.
Lemma inv_reach g lo tr s : upload_of g lo tr s -> inv (snd (send g lo tr)) (written b true (content (fst (send g lo tr)))) s.
Proof. intros R. rewrite <- program_bytes. induction R as [|s s' R IH [O|N]]; [apply inv_start|eapply inv_own; eauto|eapply inv_net; eauto]. Qed.

(* ---- how long ---- *)
Definition size (s : state) : nat :=
  2 * length (todo s) + (match stands s with Some _ => 1 | None => 0 end)
  + (match upload s with Starting => 4 | Doing => 3 | Closing_finished => 2 | Draining => 1 | Gone => 0 end)
  + (match main_at s with Running => 2 | Waiting => 1 | _ => 0 end).
Lemma own_smaller how body s s' : inv how body s -> own how s s' -> size s' < size s.
Proof.
  intros I O. pose proof (inv_own _ _ _ _ I O) as I'. apply i_panic in I'. destruct O; try discriminate I'; clear I'; unfold size; simp; 
    repeat match goal with H : main_at s = _ |- _ => rewrite H in * | H : todo s = _ |- _ => rewrite H in * | H : stands s = _ |- _ => rewrite H in * | H : upload s = _ |- _ => rewrite H in * end;
    cbn [length]; try lia. destruct how; lia.
Qed.
Lemma net_no_larger s s' : net s s' -> size s' <= size s.
Proof.
  intros O. destruct O; unfold size; simp; 
    repeat match goal with H : stands s = _ |- _ => rewrite H in * | H : upload s = _ |- _ => rewrite H in * end; lia.
Qed.
Lemma dead_dec s : {main_at s = Dead} + {main_at s <> Dead}. Proof. destruct (main_at s); auto; right; discriminate. Qed.
Lemma stuck how body s : inv how body s -> (forall s', ~ own how s s') -> main_at s = Dead \/ upload s = Doing \/ (upload s = Gone /\ exists v, main_at s = Returned v).
Proof.
  intros H N. destruct (dead_dec s) as [X|X]; [auto|]. right. pose proof H as [P GO T D W F F1 F2 TR OK NO RE OF ST SE HA].
  destruct (upload s) eqn:U.
  - elim (N _ (own_does how s X U)).
  - auto.
  - elim (N _ (own_close_finished how s X U (F1 eq_refl))).
  - destruct (stands s) as [x|] eqn:S; [elim (N _ (own_drains how s x X U S))|].
    destruct (closed s) eqn:C; [elim (N _ (own_drained how s X U S C))|].
    destruct T as [(T1 & T2 & T3)|(_ & T2 & _)]; [|congruence].
    destruct (todo s) as [|[x|] t] eqn:TD; [destruct T1|elim (N _ (own_write how s x t T3 TD S C))|elim (N _ (own_close how s t T3 TD S C))].
  - right. split; [auto|]. assert (NE : ~ early s) by (intros [K|K]; congruence).
    destruct T as [(T1 & T2 & T3)|(T1 & T2 & T3)].
    + destruct (stands s) as [x|] eqn:S; [|destruct (todo s) as [|[x|] t] eqn:TD; [destruct T1|elim (N _ (own_write how s x t T3 TD S T2))|elim (N _ (own_close how s t T3 TD S T2))]].
      (* impossible: the goroutine is gone only when the channel is closed *)
      rewrite (GO eq_refl) in T2. discriminate T2.
    + destruct (main_at s) eqn:M; [elim (N _ (own_returns how s M T1 T3))| |eauto|contradiction].
      destruct (finished s) as [|v q] eqn:FI; [elim (F2 NE (or_intror eq_refl) eq_refl)|elim (N _ (own_told how s v q M FI))].
Qed.

(* ---- everything can go well ---- *)
Lemma reach_trans how s0 s1 s2 : reach how s0 s1 -> reach how s1 s2 -> reach how s0 s2.
Proof. intros A B. induction B as [|s s' B IH S]; [auto|]. eapply reach_step; eauto. Qed.
Lemma reach_one how s s' : step serve how s s' -> reach how s s'.
Proof. intros S. eapply reach_step; [apply reach_start|auto]. Qed.
Definition flowing (t : list op) (cl : bool) (x : string) : state :=
  {| todo := t; stands := None; closed := cl; chunk := None; transport := Streaming; sent := x; ended := false; handled := None; reply := None;
     upload := Doing; finished := []; finished_closed := false; main_at := Running; panicked := false |}.
Lemma flow how t : orderly t -> forall x, reach how (flowing t false x) (flowing [] true (x ++ bytes t)).
Proof.
  induction t as [|[y|] t IH]; intros O x; [destruct O| |].
  - eapply reach_trans; [|cbn [bytes]; rewrite <- assoc_s; apply IH; eapply orderly_write; eauto].
    eapply reach_trans; [apply reach_one; left; apply (own_write how _ y t); reflexivity|].
    eapply reach_trans; [apply reach_one; right; eapply (net_receives _ _ y); [discriminate|reflexivity..]|].
    apply reach_one. right. 
    assert (X := net_sends serve (takes (to_do (flowing (Write y :: t) false x) t (Some y) false) None (Some y) Streaming x false) y (String.length y)).
    simp. rewrite Nat.eqb_refl, (take_all _ _ eq_refl) in X. apply X; auto. discriminate.
  - assert (t = []) as -> by (destruct t as [|z t]; [auto|destruct z; destruct O]). cbn [bytes]. rewrite nil_s. apply reach_one. left. apply (own_close how (flowing [CloseChannel] false x) []); reflexivity.
Qed.
Lemma goes_well g lo tr st : snd (send g lo tr) = ReturnsNil -> let body := written b true (content (fst (send g lo tr))) in serve body true = Some st ->
  exists s, upload_of g lo tr s /\ handled s = Some (body, true) /\ reply s = Some st /\ main_at s = Returned true.
Proof.
  intros HN body SV. unfold UlModel.upload_of. rewrite HN. 
  assert (A : reach ReturnsNil (start g lo tr) (flowing [] true body)).
  { eapply reach_trans; [apply reach_one; left; apply own_does; [discriminate|reflexivity]|].
    eapply reach_trans; [apply reach_one; right; apply net_starts; [discriminate|reflexivity..]|].
    unfold body. rewrite <- program_bytes. apply (flow ReturnsNil (program g lo tr) (orderly_program g lo tr) ""). }
  set (s1 := flowing [] true body) in *. set (s2 := takes s1 None None Closing body true).
  assert (A2 : net s1 s2) by (apply net_ends; [discriminate|reflexivity..]).
  set (s3 := serves s2 (Some (body, true)) None).
  assert (A3 : net s2 s3) by (apply (net_handles serve s2 body "" true); [discriminate|reflexivity|symmetry; apply nil_s|auto]).
  set (s4 := serves s3 (handled s3) (Some st)).
  assert (A4 : net s3 s4) by (apply (net_replies serve s3 body true st); auto).
  set (s5 := moves s4 Closing_finished [true] false Running).
  assert (A5 : net s4 s5) by (apply (net_answers serve s4 st); [discriminate|reflexivity..]).
  set (s6 := moves s5 Closing_finished [true] false Waiting).
  assert (A6 : own ReturnsNil s5 s6) by (apply (own_returns ReturnsNil s5); reflexivity).
  set (s7 := moves s6 Closing_finished [] false (Returned true)).
  assert (A7 : own ReturnsNil s6 s7) by (apply (own_told ReturnsNil s6 true []); reflexivity).
  exists s7. split; [|repeat split].
  eapply reach_step; [|left; exact A7]. eapply reach_step; [|left; exact A6]. eapply reach_step; [|right; exact A5]. eapply reach_step; [|right; exact A4].
  eapply reach_step; [|right; exact A3]. eapply reach_step; [|right; exact A2]. exact A.
Qed.
End Sys.

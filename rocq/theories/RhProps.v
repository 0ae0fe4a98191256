(* C59: uploads of results. C60: requests. C61: sending inputs. *)
From Coq Require Import String Ascii List Bool ZArith Lia DecimalString Decimal DecimalPos.
From Verif Require Import GoStr InModel InSpec InProofs FeSpec FePathProps RhModel RhSpec.
Import ListNotations.
Local Open Scope string_scope.
Local Open Scope list_scope.

(* ---- C59 ---- *)
Lemma last_part_snoc n l m b : last_part n (l ++ [(m, b)]) = if m =? n then Some b else last_part n l.
Proof.
  induction l as [|[x c] l IH]; cbn; [destruct (m =? n); auto|]. rewrite IH. destruct (m =? n); auto.
Qed.
Section Upload.
Variable res : Type.
Variable Verdict : res -> string.
Variable decode_result : string -> option res.
Variable decode_tracing : string -> tracing.
Variable dir : path.
Variable name : string.
Variable w : world.
Notation processRun wr := (processRun res Verdict decode_result decode_tracing wr dir name w).
Notation read_parts wr := (read_parts res Verdict decode_result decode_tracing wr dir name w).
Notation decodable := (decodable decode_result decode_tracing).

Lemma decodable_cons n b l : decodable l -> (n = "details.json" -> decode_result b <> None) -> (n = "tracing.json" -> exists es, decode_tracing b = Decoded es) -> decodable ((n, b) :: l).
Proof. intros [A B] C D. split; intros b' [E|E]; auto; injection E as -> ->; auto. Qed.
Lemma decodable_tail x l : decodable (x :: l) -> decodable l.
Proof. intros [A B]. split; intros b H; [apply A|apply B]; right; auto. Qed.

Lemma parts_status wr p : forall k r f st retry r' f', read_parts wr k p r f = (Answer st retry, r', f') ->
  (st = 200%Z /\ complete p /\ decodable (whole_parts p) /\ retry = (Verdict (Result r') =? "JE") /\
    (match last_part "details.json" (whole_parts p) with
     | Some b => decode_result b = Some (Result r') /\ JudgedBy r' = name
     | None => Result r' = Result r /\ JudgedBy r' = JudgedBy r end) /\
    Logs r' = Logs r ++ map (fun x => (name, snd x)) (List.filter (fun x => fst x =? "logs.txt") (whole_parts p)) /\
    ((forall k, trace_stops w k = None) -> Traced r' = Traced r ++ traced decode_tracing (whole_parts p))) \/
  (st = 400%Z /\ retry = true /\ (~ complete p \/ ~ decodable (whole_parts p) \/ wr = true /\ exists k, write_stops w k <> None)) \/
  (st = 500%Z /\ retry = false /\ wr = true).
Proof.
  induction p as [| |n b p IH|n b]; intros k r f st retry r' f' H; cbn [RhModel.read_parts] in H.
  - unfold finish in H. injection H as <- <- <- <-. left. cbn. rewrite !app_nil_r. repeat split; auto; intros b [].
  - injection H as <- <- <- <-. right. left. cbn. auto.
  - destruct (String.eqb_spec n "details.json") as [->|N1].
    { destruct (decode_result b) as [x|] eqn:ED.
      - apply IH in H. destruct H as [(A & B & C & D & E & F & G)|[(A & B & C)|H]]; [left|right; left|right; right; exact H].
        + split; [auto|]. split; [auto|]. split; [apply decodable_cons; auto; congruence|]. split; [auto|]. cbn [whole_parts last_part]. split; [|split; [exact F|exact G]].
          destruct (last_part "details.json" (whole_parts p)) as [c|]; [exact E|]. rewrite String.eqb_refl. cbn in E. destruct E as [-> ->]. auto.
        + split; [auto|]. split; [auto|]. cbn [complete whole_parts]. destruct C as [C|[C|C]]; auto. right. left. intros X. apply C. eapply decodable_tail; eauto.
      - injection H as <- <- <- <-. right. left. split; [auto|]. split; [auto|]. right. left. intros [X _]. apply (X b); [left; auto|auto]. }
    destruct (String.eqb_spec n "logs.txt") as [->|N2].
    { apply IH in H. destruct H as [(A & B & C & D & E & F & G)|[(A & B & C)|H]]; [left|right; left|right; right; exact H].
      - split; [auto|]. split; [auto|]. split; [apply decodable_cons; auto; discriminate|]. split; [auto|]. cbn [whole_parts last_part]. split.
        + destruct (last_part "details.json" (whole_parts p)); exact E.
        + split; [|exact G]. rewrite F. cbn. rewrite <- app_assoc. reflexivity.
      - split; [auto|]. split; [auto|]. cbn [complete whole_parts]. destruct C as [C|[C|C]]; auto. right. left. intros X. apply C. eapply decodable_tail; eauto. }
    destruct (String.eqb_spec n "tracing.json") as [->|N3].
    { destruct (decode_tracing b) as [| |es] eqn:ED; [|discriminate H|].
      - injection H as <- <- <- <-. right. left. split; [auto|]. split; [auto|]. right. left. intros [_ X]. destruct (X b) as (es & Y); [left; auto|congruence].
      - apply IH in H. destruct H as [(A & B & C & D & E & F & G)|[(A & B & C)|H]]; [left|right; left|right; right; exact H].
        + split; [auto|]. split; [auto|]. split; [apply decodable_cons; eauto; discriminate|]. split; [auto|]. cbn [whole_parts last_part]. split; [|split; [exact F|]].
          * destruct (last_part "details.json" (whole_parts p)); exact E.
          * intros TS. rewrite (G TS). cbn [whole_parts traced String.eqb Ascii.eqb Bool.eqb Traced trace]. rewrite ED, TS, app_assoc. reflexivity.
        + split; [auto|]. split; [auto|]. cbn [complete whole_parts]. destruct C as [C|[C|C]]; auto. right. left. intros X. apply C. eapply decodable_tail; eauto. }
    assert (G : forall f, read_parts wr (S k) p r f = (Answer st retry, r', f') ->
      (st = 200%Z /\ complete (Part n b p) /\ decodable (whole_parts (Part n b p)) /\ retry = (Verdict (Result r') =? "JE") /\
        (match last_part "details.json" (whole_parts (Part n b p)) with
         | Some b => decode_result b = Some (Result r') /\ JudgedBy r' = name
         | None => Result r' = Result r /\ JudgedBy r' = JudgedBy r end) /\
        Logs r' = Logs r ++ map (fun x => (name, snd x)) (List.filter (fun x => fst x =? "logs.txt") (whole_parts (Part n b p))) /\
        ((forall k, trace_stops w k = None) -> Traced r' = Traced r ++ traced decode_tracing (whole_parts (Part n b p)))) \/
      (st = 400%Z /\ retry = true /\ (~ complete (Part n b p) \/ ~ decodable (whole_parts (Part n b p)) \/ wr = true /\ exists k, write_stops w k <> None)) \/
      (st = 500%Z /\ retry = false /\ wr = true)).
    { clear H. intros f0 H. apply IH in H. destruct H as [(A & B & C & D & E & F & G)|[(A & B & C)|H]]; [left|right; left|right; right; exact H].
      - split; [auto|]. split; [auto|]. split; [apply decodable_cons; auto; congruence|]. split; [auto|]. cbn [whole_parts last_part List.filter fst].
        rewrite (proj2 (String.eqb_neq _ _) N1), (proj2 (String.eqb_neq _ _) N2). split; [|split; [exact F|cbn [traced]; rewrite (proj2 (String.eqb_neq _ _) N3); exact G]].
        destruct (last_part "details.json" (whole_parts p)); exact E.
      - split; [auto|]. split; [auto|]. cbn [complete whole_parts]. destruct C as [C|[C|C]]; auto. right. left. intros X. apply C. eapply decodable_tail; eauto. }
    destruct wr; [|eapply G; eauto].
    destruct (if create_works w k then apply (Create (path_join dir n)) f else None) as [f0|]; [|injection H as <- <- <- <-; auto].
    destruct (write_stops w k) eqn:EW; [|eapply G; eauto].
    injection H as <- <- <- <-. right. left. split; [auto|]. split; [auto|]. right. right. split; [auto|]. exists k. congruence.
  - assert (X : st = 400%Z /\ retry = true \/ st = 500%Z /\ retry = false /\ wr = true).
    { destruct (n =? "details.json"); [destruct (decode_result b); injection H as <- <- <- <-; auto|].
      destruct (n =? "logs.txt"); [injection H as <- <- <- <-; auto|]. destruct (n =? "tracing.json"); [destruct (decode_tracing b); try discriminate H; injection H as <- <- <- <-; auto|].
      destruct wr; [|injection H as <- <- <- <-; auto].
      destruct (if create_works w k then apply (Create (path_join dir n)) f else None) as [f0|]; [|injection H as <- <- <- <-; auto].
      destruct (write_stops w k); injection H as <- <- <- <-; auto. }
    right. destruct X as [[A B]|X]; [left|right; exact X]. split; [auto|]. split; [auto|]. left. cbn. auto.
Qed.

(* The answer to an upload and what becomes of the run: 200, everything was received
   and understood, the result is the last one uploaded (or, if none was, the one the
   run had before), judged by this runner, the logs were appended, and the run is
   tried again iff the verdict is JE; 400, something was missing, not understood or
   could not be written, and the run is tried again; 500, the grader could not make
   its directory or a file, and the run is not tried again. *)
Theorem C59_upload : forall wr body r f st retry r' f', processRun wr body r f = (Answer st retry, r', f') ->
  (st = 200%Z /\ exists p, body = Some p /\ complete p /\ decodable (whole_parts p) /\ retry = (Verdict (Result r') =? "JE") /\
    (match last_part "details.json" (whole_parts p) with
     | Some b => decode_result b = Some (Result r') /\ JudgedBy r' = name
     | None => Result r' = Result r /\ JudgedBy r' = JudgedBy r end) /\
    Logs r' = Logs r ++ map (fun x => (name, snd x)) (List.filter (fun x => fst x =? "logs.txt") (whole_parts p)) /\
    ((forall k, trace_stops w k = None) -> Traced r' = Traced r ++ traced decode_tracing (whole_parts p))) \/
  (st = 400%Z /\ retry = true /\ (body = None \/ exists p, body = Some p /\ (~ complete p \/ ~ decodable (whole_parts p) \/ wr = true /\ exists k, write_stops w k <> None))) \/
  (st = 500%Z /\ retry = false).
Proof.
  intros wr body r f st retry r' f' H. unfold RhModel.processRun in H. cbv zeta in H.
  destruct (if mkdir_works w then _ else None) as [f0|]; [|injection H as <- <- <- <-; auto].
  destruct body as [p|]; [|injection H as <- <- <- <-; right; left; auto].
  apply parts_status in H. destruct H as [(A & B)|[(A & B & C)|(A & B & _)]]; [| |auto].
  - left. split; [auto|]. exists p. auto.
  - right. left. split; [auto|]. split; [auto|]. right. eauto.
Qed.

(* An upload gets no answer at all only if it has a tracing.json whose decoding panics;
   the run is then neither closed nor tried again here. *)
Theorem C59_panics : forall wr body r f r' f', processRun wr body r f = (Panic, r', f') ->
  exists p b, body = Some p /\ In ("tracing.json", b) (all_parts p) /\ decode_tracing b = Crashes.
Proof.
  intros wr body r f r' f' H. unfold RhModel.processRun in H. cbv zeta in H.
  destruct (if mkdir_works w then _ else None) as [f0|]; [|discriminate H]. destruct body as [p|]; [|discriminate H]. exists p.
  assert (X : exists b, In ("tracing.json", b) (all_parts p) /\ decode_tracing b = Crashes); [|destruct X as (b & X); eauto].
  revert H. generalize 0%nat. clear f. revert r f0. induction p as [| |n b p IH|n b]; intros r f k H; cbn [RhModel.read_parts] in H; try discriminate H.
  - assert (G : (exists k r f, read_parts wr k p r f = (Panic, r', f')) -> exists b0, In ("tracing.json", b0) (all_parts (Part n b p)) /\ decode_tracing b0 = Crashes).
    { intros (k0 & r0 & f0 & X). destruct (IH _ _ _ X) as (b0 & Y & Z). exists b0. split; [right; auto|auto]. }
    destruct (n =? "details.json"); [destruct (decode_result b); [eauto 6|discriminate H]|]. destruct (n =? "logs.txt"); [eauto 6|].
    destruct (String.eqb_spec n "tracing.json") as [->|N]; [destruct (decode_tracing b) eqn:E; [discriminate H|exists b; split; [left; auto|auto]|eauto 6]|].
    destruct wr; [|eauto 6]. destruct (if create_works w k then _ else None); [|discriminate H]. destruct (write_stops w k); [discriminate H|eauto 6].
  - destruct (n =? "details.json"); [destruct (decode_result b); discriminate H|]. destruct (n =? "logs.txt"); [discriminate H|].
    destruct (String.eqb_spec n "tracing.json") as [->|N]; [destruct (decode_tracing b) eqn:E; [discriminate H|exists b; split; [left; auto|auto]|discriminate H]|].
    destruct wr; [|discriminate H]. destruct (if create_works w k then _ else None); [|discriminate H]. destruct (write_stops w k); discriminate H.
Qed.

(* The files. *)
Definition plain (l : list (string * string)) : Prop := forall n b, In (n, b) l -> special n \/ entry_name n.
Definition holds (l : list (string * string)) (f : fs) : Prop :=
  f dir = Some Dir /\ (forall n, f (dir ++ [n]) = if (n =? "details.json") || (n =? "logs.txt") || (n =? "tracing.json") then None else
     match last_part n l with Some c => Some (File c) | None => None end) /\
  (forall a b q, f (dir ++ a :: b :: q) = None).
Lemma special_b n : (n =? "details.json") || (n =? "logs.txt") || (n =? "tracing.json") = true <-> special n.
Proof. rewrite !orb_true_iff, !String.eqb_eq. unfold special. tauto. Qed.
Lemma not_special_b n : (n =? "details.json") || (n =? "logs.txt") || (n =? "tracing.json") = false <-> ~ special n.
Proof. rewrite <- special_b, not_true_iff_false. tauto. Qed.
Lemma holds_special l n b f : special n -> holds l f -> holds (l ++ [(n, b)]) f.
Proof.
  intros S (A & B & C). split; [auto|]. split; [|auto]. intros m. rewrite B, last_part_snoc.
  destruct (String.eqb_spec n m) as [->|]; [|auto]. apply special_b in S. rewrite S. auto.
Qed.
Lemma holds_file l n b f c : ~ special n -> holds l f -> holds (l ++ [(n, b)]) (put (set f (dir ++ [n]) c) (dir ++ [n]) b).
Proof.
  intros S (A & B & C). unfold put. split; [|split].
  - rewrite !set_other; auto; intros E; apply (f_equal (@length _)) in E; rewrite app_length in E; cbn in E; lia.
  - intros m. rewrite last_part_snoc. destruct (String.eqb_spec n m) as [->|N].
    + rewrite set_same. apply not_special_b in S. rewrite S. auto.
    + rewrite !set_other by (intros E; apply app_inv_head in E; congruence). auto.
  - intros x y q. rewrite !set_other by (intros E; apply app_inv_head in E; discriminate E). auto.
Qed.
Lemma create_in l n f : ~ special n -> entry_name n -> holds l f -> apply (Create (dir ++ [n])) f = Some (set f (dir ++ [n]) (Some (File ""))).
Proof.
  intros S N (A & B & C). cbn [apply]. rewrite removelast_last. unfold is_dir. rewrite A, B. apply not_special_b in S. rewrite S.
  destruct (last_part n l); reflexivity.
Qed.
Lemma parts_files p : forall k r f l st retry r' f', read_parts true k p r f = (Answer st retry, r', f') -> plain (whole_parts p) -> holds l f -> st = 200%Z ->
  holds (l ++ whole_parts p) f'.
Proof.
  induction p as [| |n b p IH|n b]; intros k r f l st retry r' f' H PL HL HS; cbn [RhModel.read_parts] in H.
  - injection H as <- <- <- <-. cbn. rewrite app_nil_r. auto.
  - injection H as <- <- <- <-. discriminate HS.
  - assert (PL' : plain (whole_parts p)) by (intros m c X; apply (PL m c); right; auto).
    replace (l ++ whole_parts (Part n b p)) with ((l ++ [(n, b)]) ++ whole_parts p) by (rewrite <- app_assoc; reflexivity).
    destruct (String.eqb_spec n "details.json") as [->|N1].
    { destruct (decode_result b); [|injection H as <- <- <- <-; discriminate HS]. eapply IH; eauto. apply holds_special; auto. left. auto. }
    destruct (String.eqb_spec n "logs.txt") as [->|N2].
    { eapply IH; eauto. apply holds_special; auto. right. left. auto. }
    destruct (String.eqb_spec n "tracing.json") as [->|N3].
    { destruct (decode_tracing b); [injection H as <- <- <- <-; discriminate HS|discriminate H|]. eapply IH; eauto. apply holds_special; auto. right. right. auto. }
    assert (NS : ~ special n) by (unfold special; tauto).
    assert (EN : entry_name n) by (destruct (PL n b); [left; auto|contradiction|auto]).
    rewrite (join_entry _ _ EN) in H. destruct (create_works w k); [|injection H as <- <- <- <-; discriminate HS].
    rewrite (create_in l) in H by auto. destruct (write_stops w k); [injection H as <- <- <- <-; discriminate HS|].
    eapply IH; eauto. apply holds_file; auto.
  - exfalso. assert (X : st = 400%Z \/ st = 500%Z); [|destruct X; congruence].
    destruct (n =? "details.json"); [destruct (decode_result b); injection H as <- <- <- <-; auto|].
    destruct (n =? "logs.txt"); [injection H as <- <- <- <-; auto|]. destruct (n =? "tracing.json"); [destruct (decode_tracing b); try discriminate H; injection H as <- <- <- <-; auto|].
    destruct (if create_works w k then apply (Create (path_join dir n)) f else None) as [f0|]; [|injection H as <- <- <- <-; auto].
    destruct (write_stops w k); injection H as <- <- <- <-; auto.
Qed.
Lemma fresh_holds f f0 : (forall q, kept w q = false) -> apply (MkdirAll dir) (partly (RemoveAll dir) (kept w) f) = Some f0 -> holds [] f0.
Proof.
  intros K H. destruct (mkdir_spec _ _ _ H) as [A B].
  assert (N : forall q, q <> [] -> f0 (dir ++ q) = None).
  { intros q Q. cbn [apply] in H. destruct (forallb _ _); [|discriminate]. injection H as <-.
    destruct (existsb (path_eqb (dir ++ q)) (prefixes dir)) eqn:E.
    - apply existsb_prefixes in E. destruct E as (r & E). exfalso. apply Q. apply (f_equal (@length _)) in E. rewrite !app_length in E. destruct q; [auto|cbn in E; lia].
    - cbn [partly]. rewrite (proj2 (strip_spec dir (dir ++ q) q) eq_refl), K. auto. }
  split; [|split].
  - cbn [apply] in H. destruct (forallb _ _); [|discriminate]. injection H as <-.
    rewrite (proj2 (existsb_prefixes dir dir)); [auto|]. exists []. rewrite app_nil_r. auto.
  - intros n. rewrite N by discriminate. cbn. destruct (_ || _); auto.
  - intros a b q. apply N. discriminate.
Qed.
(* After an upload of files with plain names that was answered with 200, the
   directory of the run has exactly the files uploaded, whatever was there before. *)
Theorem C59_files : forall body r f st retry r' f', (forall q, kept w q = false) -> processRun true body r f = (Answer st retry, r', f') -> st = 200%Z ->
  forall p, body = Some p -> (forall n b, In (n, b) (whole_parts p) -> special n \/ entry_name n) ->
  f' dir = Some Dir /\
  (forall n, special n -> f' (dir ++ [n]) = None) /\
  (forall n, ~ special n -> f' (dir ++ [n]) = match last_part n (whole_parts p) with Some c => Some (File c) | None => None end) /\
  (forall a b q, f' (dir ++ a :: b :: q) = None).
Proof.
  intros body r f st retry r' f' K H HS p -> PL. unfold RhModel.processRun in H. cbv zeta in H.
  destruct (mkdir_works w); [|injection H as <- <- <- <-; discriminate HS].
  destruct (apply _ _) as [f0|] eqn:E; [|injection H as <- <- <- <-; discriminate HS].
  apply fresh_holds in E; auto. eapply parts_files in H; eauto. cbn [app] in H. destruct H as (A & B & C). split; [auto|]. split; [|split; [|auto]].
  - intros n S. apply special_b in S. rewrite B, S. auto.
  - intros n S. apply not_special_b in S. rewrite B, S. auto.
Qed.

Lemma parts_accept wr p : forall k r f l, complete p -> decodable (whole_parts p) -> plain (whole_parts p) -> holds l f -> 
  (forall k, create_works w k = true) -> (forall k, write_stops w k = None) -> exists retry, fst (fst (read_parts wr k p r f)) = Answer 200 retry.
Proof.
  induction p as [| |n b p IH|n b]; intros k r f l HC HD PL HL W1 W2; cbn [RhModel.read_parts]; try contradiction; [eexists; reflexivity|].
  assert (PL' : plain (whole_parts p)) by (intros m c X; apply (PL m c); right; auto). pose proof (decodable_tail _ _ HD) as HD'. destruct HD as [HD1 HD2].
  destruct (String.eqb_spec n "details.json") as [->|N1].
  { specialize (HD1 b (or_introl eq_refl)). destruct (decode_result b); [|congruence]. apply (IH _ _ _ l); auto. }
  destruct (String.eqb_spec n "logs.txt") as [->|N2]; [apply (IH _ _ _ l); auto|].
  destruct (String.eqb_spec n "tracing.json") as [->|N3]; [destruct (HD2 b) as (es & ->); [left; auto|]; apply (IH _ _ _ l); auto|].
  assert (NS : ~ special n) by (unfold special; tauto). destruct wr; [|apply (IH _ _ _ l); auto].
  assert (EN : entry_name n) by (destruct (PL n b); [left; auto|contradiction|auto]).
  rewrite (join_entry _ _ EN), W1, W2, (create_in l) by auto. apply (IH _ _ _ (l ++ [(n, b)])); auto. apply holds_file; auto.
Qed.
(* An upload that is complete and understood, of files with plain names, is answered
   with 200, if the operating system does what it is asked for. *)
Theorem C59_accepted : forall wr p r f, complete p -> decodable (whole_parts p) -> (forall n b, In (n, b) (whole_parts p) -> special n \/ entry_name n) ->
  (forall q, kept w q = false) -> mkdir_works w = true -> (forall k, create_works w k = true) -> (forall k, write_stops w k = None) ->
  (forall q z, dir = q ++ z -> forall c, f q <> Some (File c)) ->
  exists retry, fst (fst (processRun wr (Some p) r f)) = Answer 200 retry.
Proof.
  intros wr p r f HC HD PL K M W1 W2 D. unfold RhModel.processRun. cbv zeta. rewrite M.
  destruct (apply (MkdirAll dir) _) as [f0|] eqn:E.
  - eapply parts_accept; eauto. eapply fresh_holds; eauto.
  - exfalso. cbn [apply] in E. destruct (forallb _ _) eqn:F; [discriminate|]. rewrite <- not_true_iff_false, forallb_forall in F. apply F.
    intros q Q. apply in_prefixes in Q. destruct Q as (z & Q). cbn [partly]. destruct (strip dir q) as [t|]; [rewrite K; auto|].
    specialize (D q z Q). destruct (f q) as [[c|]|]; auto. elim (D c). auto.
Qed.

Lemma create_elsewhere p f f' q : apply (Create p) f = Some f' -> q <> p -> f' q = f q.
Proof. cbn [apply]. destruct (_ && _); [|discriminate]. intros E N. injection E as <-. apply set_other. auto. Qed.
Lemma parts_outside wr p : forall k r f x r' f', read_parts wr k p r f = (x, r', f') -> plain (all_parts p) -> forall q, ~ below dir q -> f' q = f q.
Proof.
  induction p as [| |n b p IH|n b]; intros k r f x r' f' H PL q Q; cbn [RhModel.read_parts] in H; try (injection H as <- <- <-; auto; fail).
  - assert (PL' : plain (all_parts p)) by (intros m c X; apply (PL m c); right; auto).
    destruct (String.eqb_spec n "details.json") as [->|N1]; [destruct (decode_result b); [eapply IH; eauto|injection H as <- <- <-; auto]|].
    destruct (String.eqb_spec n "logs.txt") as [->|N2]; [eapply IH; eauto|].
    destruct (String.eqb_spec n "tracing.json") as [->|N3]; [destruct (decode_tracing b); [injection H as <- <- <-; auto|injection H as <- <- <-; auto|eapply IH; eauto]|].
    assert (EN : entry_name n) by (destruct (PL n b); [left; auto|unfold special in *; tauto|auto]).
    destruct wr; [|eapply IH; eauto]. rewrite (join_entry _ _ EN) in H.
    assert (NE : q <> dir ++ [n]) by (intros ->; apply Q; exists [n]; auto).
    destruct (create_works w k); [|injection H as <- <- <-; auto]. destruct (apply _ f) as [f0|] eqn:E; [|injection H as <- <- <-; auto].
    pose proof (create_elsewhere _ _ _ _ E NE) as X. destruct (write_stops w k); [injection H as <- <- <-|eapply IH in H; eauto; rewrite H]; unfold put; rewrite set_other; auto.
  - destruct (String.eqb_spec n "details.json") as [->|N1]; [destruct (decode_result b); injection H as <- <- <-; auto|].
    destruct (String.eqb_spec n "logs.txt") as [->|N2]; [injection H as <- <- <-; auto|].
    destruct (String.eqb_spec n "tracing.json") as [->|N3]; [destruct (decode_tracing b); injection H as <- <- <-; auto|].
    assert (EN : entry_name n) by (destruct (PL n b); [left; auto|unfold special in *; tauto|auto]).
    destruct wr; [|injection H as <- <- <-; auto]. rewrite (join_entry _ _ EN) in H.
    assert (NE : q <> dir ++ [n]) by (intros ->; apply Q; exists [n]; auto).
    destruct (create_works w k); [|injection H as <- <- <-; auto]. destruct (apply _ f) as [f0|] eqn:E; [|injection H as <- <- <-; auto].
    pose proof (create_elsewhere _ _ _ _ E NE) as X. destruct (write_stops w k); injection H as <- <- <-; unfold put; rewrite set_other; auto.
Qed.
(* However an upload of files with plain names goes, nothing outside of the directory
   of the run is touched, but that the directories it is in are made. *)
Theorem C59_outside : forall wr body r f x r' f', processRun wr body r f = (x, r', f') ->
  (forall p n b, body = Some p -> In (n, b) (all_parts p) -> special n \/ entry_name n) ->
  forall q, ~ below dir q -> f' q = f q \/ (exists z, dir = q ++ z) /\ f' q = Some Dir.
Proof.
  intros wr body r f x r' f' H PL q Q. unfold RhModel.processRun in H. cbv zeta in H.
  assert (P0 : partly (RemoveAll dir) (kept w) f q = f q) by (cbn [partly]; rewrite (proj2 (strip_none dir q) Q); auto).
  destruct (if mkdir_works w then _ else None) as [f0|] eqn:E; [|injection H as <- <- <-; auto].
  assert (F0 : f0 q = f q \/ (exists z, dir = q ++ z) /\ f0 q = Some Dir).
  { destruct (mkdir_works w); [|discriminate]. cbn [apply] in E. destruct (forallb _ _); [|discriminate]. injection E as <-.
    destruct (existsb (path_eqb q) (prefixes dir)) eqn:E; [|auto]. apply existsb_prefixes in E. auto. }
  destruct body as [p|]; [|injection H as <- <- <-; auto].
  rewrite (parts_outside _ _ _ _ _ _ _ _ H); auto. intros n b X. eapply PL; eauto.
Qed.
End Upload.
Print Assumptions C59_upload.
Print Assumptions C59_panics.
Print Assumptions C59_files.
Print Assumptions C59_accepted.
Print Assumptions C59_outside.

(* Concrete uploads: a result is its verdict. *)
Definition dec (s : string) : option string := if s =? "" then None else Some s.
Definition dec_tracing (s : string) : tracing := if s =? "" then Undecodable else if s =? "x" then Crashes else Decoded [TrcModel.NewCompleteEvent (TrcModel.NewEventFactory "r" "m") 7 s []].
Definition world0 : world := {| trace_stops := fun _ => None; kept := fun _ => false; mkdir_works := true; create_works := fun _ => true; write_stops := fun _ => None |}.
Definition upload (d : path) (body : parts) := processRun string (fun v => v) dec dec_tracing true d "runner1" world0 (Some body).
Definition run0 : run string := {| Result := "JE"; JudgedBy := ""; Logs := []; Traced := [] |}.
Definition disk0 : fs := fun q => if path_eqb q [] then Some Dir else if path_eqb q ["grade"; "7"; "old.txt"] then Some (File "x") else None.
Example C59_met : let p := Part "logs.txt" "l" (Part "tracing.json" "t" (Part "files.zip" "zip" (Part "details.json" "AC" Ends))) in
  let '(st, r, f) := upload ["grade"; "7"] p run0 disk0 in
  complete p /\ st = Answer 200 false /\ Result r = "AC" /\ JudgedBy r = "runner1" /\ length (Traced r) = 1%nat /\ f ["grade"; "7"; "files.zip"] = Some (File "zip") /\ f ["grade"; "7"; "old.txt"] = None.
Proof. repeat split. Qed.
(* A file name with directories in it leaves the directory of the run: here the
   results of run 7 replace the source of a submission. *)
Theorem C59_traversal_refuted : exists d body r f x r' f' q, upload d body r f = (x, r', f') /\ x = Answer 200 false /\ ~ below d q /\
  f q = Some (File "alice's program") /\ f' q = Some (File "mallory's program").
Proof.
  exists ["grade"; "7"], (Part "../../submissions/ab/cd" "mallory's program" (Part "details.json" "AC" Ends)), run0,
    (fun q => if path_eqb q ["submissions"; "ab"; "cd"] then Some (File "alice's program") else if existsb (path_eqb q) (prefixes ["submissions"; "ab"]) then Some Dir else None).
  eexists _, _, _, ["submissions"; "ab"; "cd"]. split; [reflexivity|]. split; [reflexivity|]. split; [intros (z & E); discriminate E|]. split; reflexivity.
Qed.
(* A run can be finished by an upload without a result, with the one of an upload
   that failed: its files are not those of the result. *)
Theorem C59_own_result_refuted : exists d body1 body2 f st1 st2 r1 r2 f1 f2,
  upload d body1 run0 f = (Answer st1 true, r1, f1) /\ st1 = 400%Z /\ upload d body2 r1 f1 = (Answer st2 false, r2, f2) /\ st2 = 200%Z /\
  last_part "details.json" (whole_parts body2) = None /\ Result r2 = "AC".
Proof.
  exists ["grade"; "7"], (Part "details.json" "AC" (CutPart "files.zip" "zi")), Ends, disk0.
  eexists _, _, _, _, _, _. split; [reflexivity|]. repeat split; reflexivity.
Qed.
(* A part whose file name is the directory itself ends the run for good, with the
   result it had before. *)
Theorem C59_closed_with_result_refuted : exists d body f st r f1, upload d body run0 f = (Answer st false, r, f1) /\ st = 500%Z /\ Result r = "JE" /\
  last_part "details.json" (whole_parts body) = Some "AC".
Proof. exists ["grade"; "7"], (Part "." "zip" (Part "details.json" "AC" Ends)), disk0. eexists _, _, _. split; [reflexivity|]. repeat split; reflexivity. Qed.
Print Assumptions C59_traversal_refuted.
Print Assumptions C59_own_result_refuted.
Print Assumptions C59_closed_with_result_refuted.

(* "Every upload is answered" does not hold: a tracing.json with a complete event that
   has no duration makes the handler panic, after it took the result: the run is left to
   the monitor's timeout. *)
Definition tracing_of (o : TrcModel.outcome) : tracing :=
  match o with TrcModel.Rejected => Undecodable | TrcModel.Panics => Crashes | TrcModel.Events l => Decoded l end.
Theorem C59_answered_refuted : forall dec_float equal_fold big, let parsed (s : string) := TrcModel.JArr [TrcModel.JObj [("ph", TrcModel.JStr s)]] in
  exists body r f, complete body /\
    processRun string (fun v => v) dec (fun s => tracing_of (TrcModel.UnmarshalJSON dec_float equal_fold big (parsed s))) true ["grade"; "7"] "runner1" world0 (Some body) run0 disk0 = (Panic, r, f) /\
    Result r = "AC".
Proof.
  intros df ef big parsed. exists (Part "details.json" "AC" (Part "tracing.json" "X" Ends)). eexists _, _. split; [exact Logic.I|]. split; reflexivity.
Qed.
Print Assumptions C59_answered_refuted.

(* ---- C60 ---- *)
Lemma drop_prefix_spec p s t : drop_prefix p s = Some t <-> s = (p ++ t)%string.
Proof.
  revert s. induction p as [|a p IH]; intros s; cbn [drop_prefix append]; [split; congruence|].
  destruct s as [|b s]; [split; discriminate|]. destruct (Ascii.eqb_spec a b) as [->|N]; [rewrite IH; split; congruence|]. split; [discriminate|]. intros E. injection E as E _. congruence.
Qed.
Lemma span_spec p s : s = (fst (span p s) ++ snd (span p s))%string /\ (forall c, contains c (fst (span p s)) -> p c = true) /\
  (snd (span p s) = "" \/ exists c t, snd (span p s) = String c t /\ p c = false).
Proof.
  induction s as [|c s (A & B & C)]; cbn [span]; [repeat split; auto; intros c []|].
  destruct (p c) eqn:E; [|cbn; repeat split; [intros d []|right; eauto]].
  destruct (span p s) as [a b]. cbn [fst snd append] in *. split; [congruence|]. split; [|exact C].
  intros d D. apply contains_cons in D. destruct D as [->|D]; auto.
Qed.
Lemma span_app p a b : (forall c, contains c a -> p c = true) -> (b = "" \/ exists c t, b = String c t /\ p c = false) -> span p (a ++ b) = (a, b).
Proof.
  intros A B. induction a as [|c a IH]; cbn [append span].
  - destruct B as [->|(c & t & -> & E)]; cbn [span]; [auto|rewrite E; auto].
  - rewrite (A c) by (apply contains_cons; auto). rewrite IH; [auto|]. intros d D. apply A. apply contains_cons. auto.
Qed.
Lemma search_here {A} (m : string -> option A) s x : m s = Some x -> search m s = Some x.
Proof. intros H. destruct s; cbn [search]; rewrite H; auto. Qed.
Lemma search_some {A} (m : string -> option A) s x : search m s = Some x -> exists a b, s = (a ++ b)%string /\ m b = Some x.
Proof.
  induction s as [|c s IH]; cbn [search]; intros H.
  - exists "", "". split; [auto|]. destruct (m ""); congruence.
  - destruct (m (String c s)) eqn:E; [exists "", (String c s); split; [auto|congruence]|].
    destruct (IH H) as (a & b & -> & X). exists (String c a), b. auto.
Qed.
Lemma search_none {A} (m : string -> option A) s : search m s = None -> forall a b, s = (a ++ b)%string -> m b = None.
Proof.
  induction s as [|c s IH]; cbn [search]; intros H a b E.
  - destruct a; [|discriminate]. cbn in E. subst b. destruct (m ""); congruence.
  - destruct (m (String c s)) eqn:X; [discriminate|]. destruct a as [|d a]; cbn in E; [congruence|]. injection E as -> E. eauto.
Qed.
Lemma match_results_spec s d : match_results s = Some d <-> all_digits d /\ exists t, s = ("/run/" ++ d ++ "/results" ++ t)%string.
Proof.
  unfold match_results. split.
  - destruct (drop_prefix "/run/" s) as [s1|] eqn:E; [|discriminate]. apply drop_prefix_spec in E. subst s.
    destruct (span_spec is_digitb s1) as (A & B & C). destruct (span is_digitb s1) as [x rest]. cbn [fst snd] in *.
    destruct x as [|c x]; [discriminate|]. destruct (drop_prefix "/results" rest) as [t|] eqn:E; [|discriminate]. apply drop_prefix_spec in E.
    intros X. injection X as <-. split; [split; [discriminate|]|].
    + intros e X. apply is_digitb_spec, B, X.
    + exists t. congruence.
  - intros ((N & D) & t & ->). rewrite (proj2 (drop_prefix_spec "/run/" _ (d ++ "/results" ++ t)%string) eq_refl).
    rewrite span_app; [|intros c X; apply is_digitb_spec, D, X|right; eexists _, _; split; [reflexivity|reflexivity]].
    destruct d; [congruence|]. rewrite (proj2 (drop_prefix_spec "/results" _ t) eq_refl). auto.
Qed.

Lemma clamped_spec d : all_digits d -> ParseUint_clamped d = Z.min (value (list_ascii_of_string d)) (2 ^ 64 - 1).
Proof.
  intros [_ D]. unfold ParseUint_clamped. destruct (digits d 0) as [z|] eqn:E.
  - apply digits_spec in E. destruct E as [_ ->]. reflexivity.
  - exfalso. assert (X : digits d 0 = Some (0 * 10 ^ Z.of_nat (String.length d) + value (list_ascii_of_string d))%Z); [|congruence].
    apply digits_spec. split; [|auto]. apply Forall_forall. exact D.
Qed.
(* The attempt that an upload is for is that of the first /run/<digits>/results in its
   path (capped to 64 bits), and there is one iff there is such a thing. *)
Theorem C60_results : forall u, 
  (forall n, results_attempt u = Some n -> exists a d t, u = (a ++ "/run/" ++ d ++ "/results" ++ t)%string /\ all_digits d /\ n = Z.min (value (list_ascii_of_string d)) (2 ^ 64 - 1)) /\
  (results_attempt u = None <-> ~ exists a d t, u = (a ++ "/run/" ++ d ++ "/results" ++ t)%string /\ all_digits d).
Proof.
  intros u. unfold results_attempt. split; [intros n H|split; [intros H (a & d & t & E & D)|intros H]].
  - destruct (search match_results u) as [d|] eqn:E; [|discriminate]. injection H as <-. apply search_some in E. destruct E as (a & b & -> & E).
    apply match_results_spec in E. destruct E as (D & t & ->). exists a, d, t. split; [auto|]. split; [auto|]. apply clamped_spec. auto.
  - destruct (search match_results u) as [x|] eqn:X; [discriminate|]. pose proof (search_none _ _ X _ _ E) as Y.
    rewrite (proj2 (match_results_spec _ d)) in Y; [discriminate|]. eauto.
  - destruct (search match_results u) as [d|] eqn:E; [|auto]. exfalso. apply H. apply search_some in E. destruct E as (a & b & -> & E).
    apply match_results_spec in E. destruct E as (D & t & ->). eauto.
Qed.
Lemma fmt_nonneg z : (0 <= z)%Z -> digits (fmt_int z) 0 = Some z /\ all_digits (fmt_int z).
Proof.
  intros HZ. assert (D : digits (fmt_int z) 0 = Some z).
  { unfold fmt_int. destruct z as [|p|p]; [reflexivity| |lia]. cbn [Z.to_int]. change (NilZero.string_of_int (Pos (Pos.to_uint p))) with (NilZero.string_of_uint (Pos.to_uint p)).
    assert (E : NilZero.string_of_uint (Pos.to_uint p) = NilEmpty.string_of_uint (Pos.to_uint p)).
    { pose proof (DecimalPos.Unsigned.to_uint_nonnil p). destruct (Pos.to_uint p); [congruence|reflexivity..]. }
    rewrite E, digits_uint0, DecimalPos.Unsigned.of_to. reflexivity. }
  split; [auto|]. split; [apply fmt_int_nonempty|]. apply digits_spec in D. destruct D as [D _]. rewrite Forall_forall in D. exact D.
Qed.
(* The results that a runner uploads for an attempt are for that attempt. *)
Theorem C60_results_of_runner : forall n, (0 <= n < 2 ^ 64)%Z -> results_attempt (results_url n) = Some n.
Proof.
  intros n H. destruct (fmt_nonneg n) as [D A]; [lia|]. unfold results_attempt, results_url.
  rewrite (search_here _ _ (fmt_int n)); [|apply match_results_spec; split; [auto|exists "/"; reflexivity]].
  unfold ParseUint_clamped. rewrite D. f_equal. lia.
Qed.

Lemma is_word_spec c : is_word c = true <-> word_char c.
Proof. revert c. assert (H : forall c, is_word c = existsb (Ascii.eqb c) (list_ascii_of_string "abcdefghijklmnopqrstuvwxyzABCDEFGHIJKLMNOPQRSTUVWXYZ0123456789_-")) by (intros [[] [] [] [] [] [] [] []]; vm_compute; reflexivity).
  intros c. rewrite H, existsb_exists. unfold word_char. split; [intros (x & A & B); apply Ascii.eqb_eq in B; congruence|intros A; exists c; split; [auto|apply Ascii.eqb_refl]]. Qed.
Lemma is_hex_spec c : is_hex c = true <-> lower_hex c.
Proof. revert c. assert (H : forall c, is_hex c = existsb (Ascii.eqb c) (list_ascii_of_string "0123456789abcdef")) by (intros [[] [] [] [] [] [] [] []]; vm_compute; reflexivity).
  intros c. rewrite H, existsb_exists. unfold lower_hex. split; [intros (x & A & B); apply Ascii.eqb_eq in B; congruence|intros A; exists c; split; [auto|apply Ascii.eqb_refl]]. Qed.
Lemma take_hex_spec n s h : take_hex n s = Some h <-> String.length h = n /\ (forall c, contains c h -> lower_hex c) /\ exists t, s = (h ++ t)%string.
Proof.
  revert s h. induction n as [|n IH]; intros s h; cbn [take_hex].
  - split; [intros E; injection E as <-; split; [auto|split; [intros c []|exists s; auto]]|]. intros (L & _). destruct h; [auto|discriminate].
  - destruct s as [|c s]; [split; [discriminate|]; intros (L & _ & t & E); destruct h; discriminate|].
    destruct (is_hex c) eqn:E.
    + destruct (take_hex n s) as [t|] eqn:T.
      * split.
        { intros X. injection X as <-. apply IH in T. destruct T as (A & B & t' & ->). split; [cbn; auto|]. split; [|exists t'; auto].
          intros d D. apply contains_cons in D. destruct D as [->|D]; [apply is_hex_spec; auto|auto]. }
        { intros (L & D & t' & X). destruct h as [|d h]; [discriminate|]. injection X as <- X. injection L as L. do 2 f_equal.
          assert (Y : Some t = Some h) by (rewrite <- T; apply IH; split; [auto|]; split; [intros x Hx; apply D, contains_cons; auto|eauto]). congruence. }
      * split; [discriminate|]. intros (L & D & t' & X). exfalso. destruct h as [|d h]; [discriminate|]. injection X as <- X. injection L as L.
        assert (Y : take_hex n s = Some h) by (apply IH; split; [auto|]; split; [intros x Hx; apply D, contains_cons; auto|eauto]). congruence.
    + split; [discriminate|]. intros (L & D & t' & X). exfalso. destruct h as [|d h]; [discriminate|]. injection X as <- X.
      assert (Y : lower_hex c) by (apply D, contains_cons; auto). apply is_hex_spec in Y. congruence.
Qed.
Lemma hex_word h : (forall c, contains c h -> lower_hex c) -> word h.
Proof.
  intros H c C. apply H in C. unfold lower_hex in C. unfold word_char. cbn in C |- *. intuition.
Qed.
(* The input that is asked for with the path that a runner uses is that of the problem
   and hash it was given. *)
Theorem C60_input_of_runner : forall p h, word p -> is_hash h -> input_request (input_url p h) = Some (p, h).
Proof.
  intros p h P [L H]. unfold input_request, input_url. apply search_here. unfold match_input. destruct (String.eqb_spec p "") as [->|N].
  - rewrite (proj2 (drop_prefix_spec "/input/" _ (h ++ "/")%string) eq_refl).
    rewrite span_app; [|intros c C; apply is_word_spec, (hex_word h); auto|right; eexists _, _; split; reflexivity].
    cbn [drop_prefix]. change (Ascii.eqb "/" "/") with true. cbv iota. destruct (take_hex 40 "") eqn:E; [discriminate E|].
    rewrite (proj2 (take_hex_spec 40 (h ++ "/")%string h)); [auto|]. split; [auto|]. split; [auto|]. eexists. reflexivity.
  - rewrite (proj2 (drop_prefix_spec "/input/" _ (p ++ "/" ++ h ++ "/")%string) eq_refl).
    rewrite span_app; [|intros c C; apply is_word_spec, P, C|right; eexists _, _; split; reflexivity].
    rewrite (proj2 (drop_prefix_spec "/" _ (h ++ "/")%string) eq_refl).
    rewrite (proj2 (take_hex_spec 40 (h ++ "/")%string h)); [auto|]. split; [auto|]. split; [auto|]. eexists. reflexivity.
Qed.
(* Whatever is asked for is a hash, and a problem whose name is a word: its repository
   is inside of the directory of repositories. *)
Theorem C60_input : forall u p h, input_request u = Some (p, h) -> word p /\ is_hash h /\
  exists a t, u = (a ++ "/input/" ++ (if p =? "" then "" else p ++ "/") ++ h ++ t)%string \/ p = "" /\ u = (a ++ "/input//" ++ h ++ t)%string.
Proof.
  intros u p h H. unfold input_request in H. apply search_some in H. destruct H as (a & b & -> & H). unfold match_input in H.
  destruct (drop_prefix "/input/" b) as [s|] eqn:E; [|discriminate]. apply drop_prefix_spec in E. subst b.
  destruct (span_spec is_word s) as (A & B & _). destruct (span is_word s) as [w rest]. cbn [fst snd] in *.
  destruct (match drop_prefix "/" rest with Some t => take_hex 40 t | None => None end) as [x|] eqn:E.
  - injection H as -> ->. destruct (drop_prefix "/" rest) as [t|] eqn:D; [|discriminate]. apply drop_prefix_spec in D.
    apply take_hex_spec in E. destruct E as (L & X & t' & ->). split; [intros c C; apply is_word_spec; auto|]. split; [split; auto|].
    exists a, t'. subst rest s. destruct (String.eqb_spec p "") as [->|N]; [right; auto|left].
    do 2 f_equal. rewrite !app_assoc_s. reflexivity.
  - destruct (take_hex 40 s) as [x|] eqn:E2; [|discriminate]. injection H as <- <-. apply take_hex_spec in E2. destruct E2 as (L & X & t' & ->).
    split; [intros c []|]. split; [split; auto|]. exists a, t'. left. reflexivity.
Qed.
Print Assumptions C60_results.
Print Assumptions C60_results_of_runner.
Print Assumptions C60_input_of_runner.
Print Assumptions C60_input.
Example C60_met : results_attempt (results_url 18446744073709551615) = Some 18446744073709551615%Z /\
  input_request (input_url "sums-2" "0123456789abcdef0123456789abcdef01234567") = Some ("sums-2", "0123456789abcdef0123456789abcdef01234567").
Proof. split; vm_compute; reflexivity. Qed.
(* The paths need not look like that: neither the beginning nor the end is checked. *)
Theorem C60_only_paths_of_runners_refuted : exists u u' n, (forall m, u <> results_url m) /\ results_attempt u = Some n /\ results_attempt u' = Some n /\ u <> u'.
Proof.
  exists "/run/x/run/7/results-of-mine", "/run/007/results", 7%Z. split.
  { intros m E. unfold results_url in E. cbn [append] in E. injection E as E. destruct (fmt_int m) as [|c t] eqn:F; [elim (fmt_int_nonempty m F)|]. cbn [append] in E. injection E as E _.
    destruct (fmt_int_chars m c) as [[X Y]|X]; [rewrite F; apply contains_cons; auto| |]; subst c; [cbn in X, Y; lia|discriminate X]. }
  split; [vm_compute; reflexivity|]. split; [vm_compute; reflexivity|discriminate].
Qed.
Print Assumptions C60_only_paths_of_runners_refuted.

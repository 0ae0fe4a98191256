(* C77: what a runner graded is what the grader records, whatever happens between them. *)
From Coq Require Import String Ascii List Bool ZArith Lia.
From Verif Require Import GoStr InModel FeSpec RhModel RhSpec RhProps UlModel UlSpec UlProofs UlSysProofs.
From Verif Require RrModel.
Import ListNotations.
Local Open Scope string_scope.

Section Upload.
Variable b : string.
Hypothesis PB : plain_boundary b.
Variable o : string -> string.
Variable res : Type.
Variable je : res.
Variable fixup : res -> option res.
Variable encode : res -> RrModel.outcome string.
Variable serve : string -> bool -> option Z.
Notation send := (send res je fixup encode).
Notation upload_of := (upload_of b res je fixup encode serve).
Notation unguessed := (unguessed b je fixup encode).

Lemma apart_nil : apart b "".
Proof. intros x y E. apply (f_equal String.length) in E. rewrite len_s in E. cbn in E. lia. Qed.
Lemma names_good n : In n ["files.zip"; "details.json"; "logs.txt"; "tracing.json"] -> good_name n.
Proof. intros [<-|[<-|[<-|[<-|[]]]]]; split; apply no_char; reflexivity. Qed.

(* The parts, in the words of the specification. *)
Lemma parts_said g lo tr : exists de,
  (content (fst (send g lo tr)) = said (files_of g) de (match snd (send g lo tr) with ReturnsNil => lo | _ => None end) (match snd (send g lo tr) with ReturnsNil => tr | _ => None end)) /\
  match snd (send g lo tr) with
  | ReturnsNil => exists x y t, result_of je g = Some x /\ fixup x = Some y /\ encode y = RrModel.Ok t /\ de = Some t
  | ReturnsErr => de = Some "" /\ exists x y, result_of je g = Some x /\ fixup x = Some y /\ encode y = RrModel.Err
  | Dies => de = Some "" \/ de = None /\ (result_of je g = None \/ exists x, result_of je g = Some x /\ fixup x = None)
  end.
Proof.
  assert (OPT : forall n x, content (optional n x) = match x with Some z => [(n, z)] | None => [] end).
  { intros n [x|]; reflexivity. }
  assert (FI : content (files_part res g) = match files_of g with Some z => [("files.zip", z)] | None => [] end).
  { destruct g as [|z|z x|[z|]]; reflexivity. }
  assert (CA : forall l m, content (l ++ m) = (content l ++ content m)%list) by (intros; unfold content; apply map_app).
  unfold UlModel.send. destruct g as [|z|z x|z] eqn:G; rewrite <- ?G in *.
  4:{ exists None. cbn [fst snd]. unfold said. cbn [app]. rewrite app_nil_r. split; [exact FI|]. right. split; [auto|]. left. subst g. auto. }
  all: match goal with |- context [fixup ?x] => set (rx := x) end.
  all: assert (RX : result_of je g = Some rx) by (subst g; reflexivity).
  all: destruct (fixup rx) as [y|] eqn:FX; [destruct (encode y) as [t| |] eqn:EN|]; cbn [fst snd];
    [exists (Some t)|exists (Some "")|exists (Some "")|exists None]; unfold said; rewrite ?CA, ?OPT, FI; cbn [app]; rewrite ?app_nil_r; (split; [reflexivity|]); eauto 12.
Qed.
Lemma said_good g lo tr : unguessed g lo tr -> good b (content (fst (send g lo tr))).
Proof.
  intros (A & B & C & D). destruct (parts_said g lo tr) as (de & E & F). rewrite E. intros n c I. unfold said in I.
  assert (AN := apart_nil).
  apply in_app_or in I. destruct I as [I|I]; [destruct (files_of g) as [z|] eqn:FG; [|destruct I]; destruct I as [I|[]]; injection I as <- <-; split; [apply names_good; cbn; auto|auto]|].
  apply in_app_or in I. destruct I as [I|I].
  { destruct de as [z|]; [|destruct I]. destruct I as [I|[]]. injection I as <- <-. split; [apply names_good; cbn; auto|].
    destruct (snd (send g lo tr)); [destruct F as (x & y & t & F1 & F2 & F3 & F4); injection F4 as ->; eauto|destruct F as [F _]; injection F as ->; auto|destruct F as [F|[F _]]; [injection F as ->; auto|discriminate F]]. }
  apply in_app_or in I. destruct I as [I|I].
  - destruct (snd (send g lo tr)); [|destruct I..]. destruct lo as [z|]; [|destruct I]. destruct I as [I|[]]. injection I as <- <-. split; [apply names_good; cbn; auto|auto].
  - destruct (snd (send g lo tr)); [|destruct I..]. destruct tr as [z|]; [|destruct I]. destruct I as [I|[]]. injection I as <- <-. split; [apply names_good; cbn; auto|auto].
Qed.

(* What the grader reads is all that the runner had to say, or breaks off in it. *)
Lemma seen g lo tr s d e : upload_of g lo tr s -> handled s = Some (d, e) -> unguessed g lo tr ->
  let p := read_multipart b o d e in
  p = parts_of (content (fst (send g lo tr))) \/ cut_from (content (fst (send g lo tr))) p.
Proof.
  intros R H U p. pose proof (inv_reach _ _ _ _ _ _ _ _ _ _ R) as I. apply (i_handled _ _ _ _ I) in H. destruct H as [(z & H1) H2].
  apply said_good in U. destruct z as [|c z].
  - rewrite nil_s in H1. subst d. left. apply read_whole; auto.
  - assert (e = false) as -> by (destruct e; [|auto]; rewrite (H2 eq_refl) in H1; apply (f_equal String.length) in H1; rewrite len_s in H1; cbn in H1; lia).
    right. apply (read_cut b PB o _ d (String c z)); auto. discriminate.
Qed.

(* ---- C77 ---- *)
Theorem C77_read : forall g logs tracing s d e, upload_of g logs tracing s -> handled s = Some (d, e) -> unguessed g logs tracing ->
  exists details sent_logs sent_tracing,
    let l := said (files_of g) details sent_logs sent_tracing in let p := read_multipart b o d e in
    (complete p /\ whole_parts p = l \/ ~ complete p /\ cut_from l p) /\
    ((exists x y t, result_of je g = Some x /\ fixup x = Some y /\ encode y = RrModel.Ok t /\ details = Some t /\ sent_logs = logs /\ sent_tracing = tracing) \/
     (sent_logs = None /\ sent_tracing = None /\
       (details = Some "" /\ (exists x y, result_of je g = Some x /\ fixup x = Some y /\ forall t, encode y <> RrModel.Ok t) \/
        details = None /\ (result_of je g = None \/ exists x, result_of je g = Some x /\ fixup x = None)))).
Proof.
  intros g lo tr s d e R H U. destruct (seen _ _ _ _ _ _ R H U) as [P|P].
  all: destruct (parts_said g lo tr) as (de & E & F); exists de; eexists _, _; rewrite E in P; split.
  all: cbv zeta; try (left; rewrite P; split; [apply parts_of_complete|apply parts_of_whole]; fail); try (right; split; [eapply cut_incomplete; eauto|exact P]; fail).
  all: destruct (snd (send g lo tr)) eqn:SN; [left; destruct F as (x & y & t & F); exists x, y, t; intuition auto| |].
  all: right; split; [auto|]; split; [auto|].
  all: try (destruct F as (F & x & y & F1 & F2 & F3); left; split; [auto|]; exists x, y; repeat split; auto; intros t; congruence).
  all: destruct F as [F|F]; [left; split; [auto|]|right; auto].
  all: unfold UlModel.send in SN, E; destruct g as [|z|z x|z]; cbn [fst snd] in SN, E; subst de;
    try (exfalso; unfold said in E; cbn in E; destruct z; discriminate E).
  all: match goal with _ : snd (match fixup ?x with _ => _ end) = _ |- _ => destruct (fixup x) as [y|] eqn:FX; [destruct (encode y) eqn:EN; cbn in SN; try discriminate SN; exists x, y; repeat split; auto; intros t; congruence|] end.
  all: exfalso; cbn in E; discriminate E.
Qed.

Section Grader.
Variable Verdict : res -> string.
Variable decode_result : string -> option res.
Variable decode_tracing : string -> tracing.
Variable dir : path.
Variable name : string.
Variable w : world.
Notation processRun wr := (RhModel.processRun res Verdict decode_result decode_tracing wr dir name w).

(* If the grader answers 200, it has the runner's result; unless the runner died before
   it had one. *)
Theorem C77_recorded : forall g logs tracing s d e wr r f retry r' f',
  upload_of g logs tracing s -> handled s = Some (d, e) -> unguessed g logs tracing -> decode_result "" = None ->
  processRun wr (Some (read_multipart b o d e)) r f = (Answer 200 retry, r', f') ->
  (exists x y t, result_of je g = Some x /\ fixup x = Some y /\ encode y = RrModel.Ok t /\ decode_result t = Some (Result r') /\ JudgedBy r' = name /\
     retry = (Verdict (Result r') =? "JE") /\ Logs r' = (Logs r ++ logged name logs)%list /\
     ((forall k, trace_stops w k = None) -> Traced r' = (Traced r ++ events decode_tracing tracing)%list)) \/
  ((result_of je g = None \/ exists x, result_of je g = Some x /\ fixup x = None) /\
     Result r' = Result r /\ JudgedBy r' = JudgedBy r /\ retry = (Verdict (Result r') =? "JE") /\ Logs r' = Logs r).
Proof.
  intros g lo tr s d e wr r f retry r' f' R H U DN P. destruct (C77_read _ _ _ _ _ _ R H U) as (de & sl & st & C & D). cbv zeta in C.
  apply C59_upload in P. destruct P as [(_ & p & X & P1 & P2 & P3 & P4 & P5 & P6)|[(X & _)|(X & _)]]; [|discriminate X..]. injection X as <-.
  destruct C as [(_ & C)|(C & _)]; [|contradiction]. rewrite C in *.
  destruct D as [(x & y & t & D1 & D2 & D3 & -> & -> & ->)|(-> & -> & [(-> & D)|(-> & D)])].
  - left. exists x, y, t. unfold said in *.
    assert (L : last_part "details.json" (match files_of g with Some z => [("files.zip", z)] | None => [] end ++ [("details.json", t)]
      ++ match lo with Some z => [("logs.txt", z)] | None => [] end ++ match tr with Some z => [("tracing.json", z)] | None => [] end) = Some t).
    { destruct (files_of g), lo, tr; reflexivity. }
    rewrite L in P4. destruct P4 as [P4 P4']. repeat split; auto.
    + rewrite P5. destruct (files_of g), lo, tr; reflexivity.
    + intros K. rewrite (P6 K). f_equal. unfold events. destruct (files_of g), lo, tr; cbn; rewrite ?app_nil_r; reflexivity.
  - exfalso. destruct P2 as [P2 _]. apply (P2 ""); auto. unfold said. apply in_or_app. right. left. auto.
  - right. split; [auto|]. unfold said in *. destruct (files_of g); cbn in P4, P5; destruct P4; rewrite ?app_nil_r in P5; repeat split; auto.
Qed.
(* ... and the directory of the run has files.zip as the runner wrote it, and nothing else. *)
Theorem C77_files : forall g logs tracing s d e r f retry r' f',
  upload_of g logs tracing s -> handled s = Some (d, e) -> unguessed g logs tracing -> (forall q, kept w q = false) ->
  processRun true (Some (read_multipart b o d e)) r f = (Answer 200 retry, r', f') ->
  f' dir = Some Dir /\
  (forall n, f' (dir ++ [n])%list = if n =? "files.zip" then match files_of g with Some z => Some (File z) | None => None end else None) /\
  (forall n m q, f' (dir ++ n :: m :: q)%list = None).
Proof.
  intros g lo tr s d e r f retry r' f' R H U K P. destruct (C77_read _ _ _ _ _ _ R H U) as (de & sl & st & C & D). cbv zeta in C.
  pose proof (C59_upload _ _ _ _ _ _ _ _ _ _ _ _ _ _ _ P) as Q. destruct Q as [(_ & p & X & P1 & _)|[(X & _)|(X & _)]]; [|discriminate X..]. injection X as <-.
  destruct C as [(_ & C)|(C & _)]; [|contradiction].
  destruct (C59_files _ _ _ _ _ _ _ _ _ _ _ _ _ _ K P eq_refl _ eq_refl) as (F1 & F2 & F3 & F4).
  - rewrite C. intros n c I. unfold said in I. repeat (apply in_app_or in I; destruct I as [I|I]).
    + destruct (files_of g); [|destruct I]. destruct I as [I|[]]. injection I as <- <-. right. cbn. repeat split; try discriminate. apply no_char; reflexivity.
    + destruct de; [|destruct I]. destruct I as [I|[]]. injection I as <- <-. left. left. auto.
    + destruct sl; [|destruct I]. destruct I as [I|[]]. injection I as <- <-. left. right. left. auto.
    + destruct st; [|destruct I]. destruct I as [I|[]]. injection I as <- <-. left. right. right. auto.
  - split; [auto|]. split; [|auto]. intros n. 
    assert (SP : {special n} + {~ special n}) by (unfold special; destruct (string_dec n "details.json"); [left; auto|]; destruct (string_dec n "logs.txt"); [left; auto|]; destruct (string_dec n "tracing.json"); [left; auto|right; tauto]).
    destruct SP as [SP|SP]; [rewrite (F2 n SP); destruct SP as [->|[->| ->]]; reflexivity|]. rewrite (F3 n SP), C. unfold special in SP.
    assert (N1 : "details.json" =? n = false) by (apply String.eqb_neq; intros <-; tauto).
    assert (N2 : "logs.txt" =? n = false) by (apply String.eqb_neq; intros <-; tauto).
    assert (N3 : "tracing.json" =? n = false) by (apply String.eqb_neq; intros <-; tauto).
    rewrite (String.eqb_sym n "files.zip"). unfold said. destruct (files_of g), de, sl, st; cbn [app last_part]; rewrite ?N1, ?N2, ?N3; destruct ("files.zip" =? n); auto.
Qed.
(* If something is missing of what the runner had to say, or its result could not be
   encoded, the grader does not answer 200: the run is retried, unless the grader's own
   disk fails. *)
Theorem C77_incomplete : forall g logs tracing s d e wr r f st retry r' f',
  upload_of g logs tracing s -> handled s = Some (d, e) -> unguessed g logs tracing -> decode_result "" = None ->
  processRun wr (Some (read_multipart b o d e)) r f = (Answer st retry, r', f') ->
  ~ complete (read_multipart b o d e) \/ (exists x y, result_of je g = Some x /\ fixup x = Some y /\ forall t, encode y <> RrModel.Ok t) ->
  st = 400%Z /\ retry = true \/ st = 500%Z /\ retry = false.
Proof.
  intros g lo tr s d e wr r f st retry r' f' R H U DN P N. pose proof P as P'. apply C59_upload in P. destruct P as [(-> & p & X & P1 & _)|[(-> & -> & _)|(-> & ->)]]; [|auto..].
  exfalso. injection X as <-. destruct N as [N|(x & y & N1 & N2 & N3)]; [auto|].
  destruct (C77_recorded _ _ _ _ _ _ _ _ _ _ _ _ R H U DN P') as [(x' & y' & t & A & B & C & _)|([A|(x' & A & B)] & _)]; [|congruence..].
  rewrite N1 in A. injection A as <-. rewrite N2 in B. injection B as <-. apply (N3 t). auto.
Qed.
(* A result that arrives whole is taken, if the grader can decode it and its disk works. *)
Theorem C77_accepted : forall g logs tracing s d e wr r f,
  upload_of g logs tracing s -> handled s = Some (d, e) -> unguessed g logs tracing ->
  complete (read_multipart b o d e) ->
  (forall x y, result_of je g = Some x -> fixup x = Some y -> exists t, encode y = RrModel.Ok t /\ decode_result t <> None) ->
  (forall t, tracing = Some t -> exists es, decode_tracing t = Decoded es) ->
  (forall q, kept w q = false) -> mkdir_works w = true -> (forall k, create_works w k = true) -> (forall k, write_stops w k = None) ->
  (forall q z, dir = (q ++ z)%list -> forall c, f q <> Some (File c)) ->
  exists retry, fst (fst (processRun wr (Some (read_multipart b o d e)) r f)) = Answer 200 retry.
Proof.
  intros g lo tr s d e wr r f R H U HC HE HT K1 K2 K3 K4 K5. destruct (C77_read _ _ _ _ _ _ R H U) as (de & sl & st & C & D). cbv zeta in C.
  destruct C as [(_ & C)|(C & _)]; [|contradiction]. apply C59_accepted; auto; rewrite C.
  - split; intros t I; unfold said in I; repeat (apply in_app_or in I; destruct I as [I|I]).
    all: try (destruct (files_of g); [|destruct I]; destruct I as [I|[]]; discriminate I).
    all: try (destruct sl; [|destruct I]; destruct I as [I|[]]; discriminate I).
    all: try (destruct st; [|destruct I]; destruct I as [I|[]]; discriminate I).
    all: try (destruct de; [|destruct I]; destruct I as [I|[]]; discriminate I).
    + destruct de; [|destruct I]. destruct I as [I|[]]. injection I as ->.
      destruct D as [(x & y & t' & D1 & D2 & D3 & D4 & _)|(_ & _ & [(D & x & y & D1 & D2 & D3)|(D & _)])]; [| |discriminate D].
      * injection D4 as ->. destruct (HE x y D1 D2) as (t2 & E1 & E2). congruence.
      * destruct (HE x y D1 D2) as (t2 & E1 & E2). elim (D3 t2). auto.
    + destruct st; [|destruct I]. destruct I as [I|[]]. injection I as ->.
      destruct D as [(x & y & t' & D1 & D2 & D3 & D4 & D5 & D6)|(_ & D & _)]; [auto|discriminate D].
  - intros n c I. unfold said in I. repeat (apply in_app_or in I; destruct I as [I|I]).
    + destruct (files_of g); [|destruct I]. destruct I as [I|[]]. injection I as <- <-. right. cbn. repeat split; try discriminate. apply no_char; reflexivity.
    + destruct de; [|destruct I]. destruct I as [I|[]]. injection I as <- <-. left. left. auto.
    + destruct sl; [|destruct I]. destruct I as [I|[]]. injection I as <- <-. left. right. left. auto.
    + destruct st; [|destruct I]. destruct I as [I|[]]. injection I as <- <-. left. right. right. auto.
Qed.
End Grader.

(* Nothing panics but grading and encoding; processRun returns nil only if the grader
   answered (whatever), and an error only if the result could not be encoded or the
   request could not be made or was not answered. *)
Theorem C77_told : forall g logs tracing s, upload_of g logs tracing s ->
  panicked s = false /\
  (main_at s = Dead -> result_of je g = None \/ (exists x, result_of je g = Some x /\ fixup x = None) \/ exists x y, result_of je g = Some x /\ fixup x = Some y /\ encode y = RrModel.Crash) /\
  (main_at s = Returned true -> (exists x y t, result_of je g = Some x /\ fixup x = Some y /\ encode y = RrModel.Ok t) /\ exists d e st, handled s = Some (d, e) /\ serve d e = Some st) /\
  (main_at s = Returned false -> (exists x y, result_of je g = Some x /\ fixup x = Some y /\ encode y = RrModel.Err) \/ upload s <> Starting /\ upload s <> Doing).
Proof.
  intros g lo tr s R. pose proof (inv_reach _ _ _ _ _ _ _ _ _ _ R) as I. destruct I as [P GO T D W F F1 F2 TR OK NO RE OF ST SE HA].
  assert (SN : match snd (send g lo tr) with
    | ReturnsNil => exists x y t, result_of je g = Some x /\ fixup x = Some y /\ encode y = RrModel.Ok t
    | ReturnsErr => exists x y, result_of je g = Some x /\ fixup x = Some y /\ encode y = RrModel.Err
    | Dies => result_of je g = None \/ (exists x, result_of je g = Some x /\ fixup x = None) \/ exists x y, result_of je g = Some x /\ fixup x = Some y /\ encode y = RrModel.Crash end).
  { unfold UlModel.send. destruct g as [|z|z x|z]; [..|cbn; auto]; cbn [result_of].
    all: match goal with |- context [fixup ?x] => destruct (fixup x) as [y|] eqn:FX; [destruct (encode y) eqn:EN|] end; cbn [snd]; eauto 10. }
  split; [auto|]. split; [|split].
  - intros K. rewrite (D K) in SN. auto.
  - intros K. destruct (OK K) as [A B]. rewrite A in SN. split; [auto|]. destruct (reply s) as [st|]; [|elim B; auto]. destruct (RE st eq_refl) as (d & e & X & Y). eauto.
  - intros K. destruct (NO K) as [A|(_ & A)]; [rewrite A in SN; auto|]. right. split; intros X; apply A; [left|right]; auto.
Qed.

(* Executions with the number of steps of the runner's own goroutines in them. *)
Inductive takes_steps (how : ending) (s0 : state) : nat -> state -> Prop :=
| takes_none : takes_steps how s0 0 s0
| takes_own : forall n s s', takes_steps how s0 n s -> own how s s' -> takes_steps how s0 (S n) s'
| takes_net : forall n s s', takes_steps how s0 n s -> net serve s s' -> takes_steps how s0 n s'.
(* The runner's own goroutines make boundedly many steps: at most two for each Write and
   six more; and as long as they cannot go on, they wait for client.Do to return, or
   all is over: processRun has returned and the goroutine that uploads is gone. *)
Theorem C77_ends : forall g logs tracing n s, takes_steps (snd (send g logs tracing)) (start b res je fixup encode g logs tracing) n s ->
  n <= 2 * length (program b res je fixup encode g logs tracing) + 6 /\
  ((forall s', ~ own (snd (send g logs tracing)) s s') -> main_at s = Dead \/ upload s = Doing \/ upload s = Gone /\ exists v, main_at s = Returned v).
Proof.
  intros g lo tr n s R. set (how := snd (send g lo tr)) in *. set (body := written b true (content (fst (send g lo tr)))).
  assert (X : upload_of g lo tr s /\ n + size s <= 2 * length (program b res je fixup encode g lo tr) + 6).
  { induction R as [|n s s' R [IH1 IH2] O|n s s' R [IH1 IH2] O].
    - split; [apply reach_start|]. unfold size. cbn. lia.
    - split; [eapply reach_step; [exact IH1|left; auto]|]. pose proof (inv_reach _ _ _ _ _ _ _ _ _ _ IH1) as I. assert (size s' < size s) by exact (own_smaller res je fixup encode _ _ _ _ _ I O). lia.
    - split; [eapply reach_step; [exact IH1|right; auto]|]. assert (size s' <= size s) by exact (net_no_larger _ _ _ O). lia. }
  destruct X as [X1 X2]. split; [lia|]. intros N. eapply stuck; [apply (inv_reach _ _ _ _ _ _ _ _ _ _ X1)|auto].
Qed.

(* Every upload of a result can arrive whole and be answered, and then processRun returns
   nil, whatever the status is. *)
Theorem C77_arrives : forall g logs tracing x y t, result_of je g = Some x -> fixup x = Some y -> encode y = RrModel.Ok t -> unguessed g logs tracing ->
  exists d, (forall e, complete (read_multipart b o d e)) /\
  forall st, serve d true = Some st -> exists s, upload_of g logs tracing s /\ handled s = Some (d, true) /\ reply s = Some st /\ main_at s = Returned true.
Proof.
  intros g lo tr x y t A B C U. exists (written b true (content (fst (send g lo tr)))). split.
  - intros e. rewrite read_whole; [apply parts_of_complete|auto|apply said_good; auto].
  - intros st S. apply goes_well; auto. unfold UlModel.send. destruct g; cbn in A; try discriminate A; injection A as <-; rewrite B, C; auto.
Qed.
(* It can also be cut anywhere. *)
Theorem C77_any_cut : forall g logs tracing d z, written b true (content (fst (send g logs tracing))) = d ++ z ->
  exists s, upload_of g logs tracing s /\ handled s = Some (d, false).
Proof.
  intros g lo tr d z E. pose proof (flow serve (snd (send g lo tr)) _ (orderly_program b res je fixup encode g lo tr) "") as F.
  set (s1 := flowing [] true ("" ++ bytes (program b res je fixup encode g lo tr))) in *.
  exists (serves s1 (Some (d, false)) None). split; [|reflexivity]. eapply reach_step; [|right; apply (net_handles serve s1 d z false)].
  - eapply reach_trans; [|exact F].
    eapply reach_trans; [apply reach_one; left; apply own_does; [discriminate|reflexivity]|].
    apply reach_one. right. apply (net_starts serve); [discriminate|reflexivity..].
  - discriminate.
  - reflexivity.
  - cbn. rewrite program_bytes. auto.
  - discriminate.
Qed.
End Upload.
Print Assumptions C77_read.
Print Assumptions C77_recorded.
Print Assumptions C77_files.
Print Assumptions C77_incomplete.
Print Assumptions C77_accepted.
Print Assumptions C77_told.
Print Assumptions C77_ends.
Print Assumptions C77_arrives.
Print Assumptions C77_any_cut.

(* ---- concrete uploads: a result is its verdict ---- *)
Definition enc (x : string) : RrModel.outcome string := RrModel.Ok x.
Definition served (r : run string) (f : fs) (d : string) (e : bool) : option Z :=
  match fst (fst (RhProps.upload ["grade"; "7"] (read_multipart "b0" (fun _ => "?") d e) r f)) with Answer st _ => Some st | Panic => None end.
Notation uploads := (upload_of "b0" string "JE" Some enc (served run0 disk0)).
Lemma plain_b0 : plain_boundary "b0". Proof. split; apply no_char; reflexivity. Qed.
Lemma apart_line b c : ~ contains CR c -> drop_prefix ("--" ++ b) c = None -> apart b c.
Proof.
  intros N D x y E. destruct x as [|c1 x].
  - cbn [append] in E. injection E as E. rewrite E in D. change (String "-" (String "-" (b ++ y))) with ("--" ++ b ++ y) in D. rewrite <- assoc_s, dp_app in D. discriminate D.
  - cbn [append] in E. injection E as _ E. destruct x as [|c2 x]; [discriminate E|]. cbn [append] in E. injection E as _ E. apply N. rewrite E. apply contains_app. right. left. auto.
Qed.
Lemma unguessed_b0 g lo tr : (forall z, In z (match files_of g with Some z => [z] | None => [] end ++ match result_of "JE" g with Some x => [x] | None => [] end
    ++ match lo with Some z => [z] | None => [] end ++ match tr with Some z => [z] | None => [] end)%list ->
    existsb (Ascii.eqb CR) (list_ascii_of_string z) = false /\ drop_prefix "--b0" z = None) -> unguessed "b0" "JE" Some enc g lo tr.
Proof.
  intros H. assert (X : forall z, In z (match files_of g with Some z => [z] | None => [] end ++ match result_of "JE" g with Some x => [x] | None => [] end
    ++ match lo with Some z => [z] | None => [] end ++ match tr with Some z => [z] | None => [] end)%list -> apart "b0" z).
  { intros z I. destruct (H z I) as [A B]. apply apart_line; [apply no_char; auto|auto]. }
  unfold unguessed. repeat split.
  - intros z E. apply X. rewrite E. left. auto.
  - intros x y t E F G. injection F as <-. injection G as <-. apply X. rewrite E. apply in_or_app. right. left. auto.
  - intros z ->. apply X. apply in_or_app. right. apply in_or_app. right. left. auto.
  - intros z ->. apply X. apply in_or_app. right. apply in_or_app. right. apply in_or_app. right. left. auto.
Qed.
Definition g0 : grading string := Graded ["PK"; "zip"] "AC".
Definition body_of (g : grading string) lo tr : string := written "b0" true (content (fst (send string "JE" Some enc g lo tr))).
(* An accepted run: its upload arrives, is recorded, and processRun returns nil. *)
Example C77_met : unguessed "b0" "JE" Some enc g0 (Some "log") (Some "t") /\ exists s r' f', uploads g0 (Some "log") (Some "t") s /\ main_at s = Returned true /\
  handled s = Some (body_of g0 (Some "log") (Some "t"), true) /\
  RhProps.upload ["grade"; "7"] (read_multipart "b0" (fun _ => "?") (body_of g0 (Some "log") (Some "t")) true) run0 disk0 = (Answer 200 false, r', f') /\
  Result r' = "AC" /\ JudgedBy r' = "runner1" /\ RhModel.Logs r' = [("runner1", "log")] /\ length (Traced r') = 1 /\ f' ["grade"; "7"; "files.zip"] = Some (File "PKzip") /\ f' ["grade"; "7"; "old.txt"] = None.
Proof.
  assert (U : unguessed "b0" "JE" Some enc g0 (Some "log") (Some "t")) by (apply unguessed_b0; intros z [<-|[<-|[<-|[<-|[]]]]]; split; reflexivity).
  split; [exact U|]. 
  destruct (goes_well "b0" string "JE" Some enc (served run0 disk0) g0 (Some "log") (Some "t") 200%Z eq_refl) as (s & R & H & _ & M); [vm_compute; reflexivity|].
  exists s. eexists _, _. split; [exact R|]. split; [exact M|]. split; [exact H|]. split; [vm_compute; reflexivity|]. repeat split.
Qed.
(* ... and one whose upload breaks off in its result is retried. *)
Example C77_cut_met : exists d s r' f', uploads g0 None None s /\ handled s = Some (d, false) /\ ~ complete (read_multipart "b0" (fun _ => "?") d false) /\
  RhProps.upload ["grade"; "7"] (read_multipart "b0" (fun _ => "?") d false) run0 disk0 = (Answer 400 true, r', f') /\ f' ["grade"; "7"; "files.zip"] = Some (File "PKzip").
Proof.
  set (d := take (String.length (body_of g0 None None) - 12) (body_of g0 None None)).
  destruct (C77_any_cut "b0" string "JE" Some enc (served run0 disk0) g0 None None d (drop (String.length (body_of g0 None None) - 12) (body_of g0 None None))) as (s & R & H).
  { unfold d. rewrite take_drop. reflexivity. }
  exists d, s. eexists _, _. split; [exact R|]. split; [exact H|]. split; [vm_compute; tauto|]. split; [vm_compute; reflexivity|]. reflexivity.
Qed.
(* "A run that is done with 200 has the result of the attempt that was answered": no.  An
   upload breaks off after its result: 400, the result is kept; in the second attempt the
   runner dies while grading, which ends the body properly, without a result: 200. *)
Theorem C77_own_result_refuted : exists g1 g2 s1 s2 d1 e1 d2 e2 r1 f1 r2 f2,
  uploads g1 None None s1 /\ handled s1 = Some (d1, e1) /\ RhProps.upload ["grade"; "7"] (read_multipart "b0" (fun _ => "?") d1 e1) run0 disk0 = (Answer 400 true, r1, f1) /\
  upload_of "b0" string "JE" Some enc (served r1 f1) g2 None None s2 /\ handled s2 = Some (d2, e2) /\
  RhProps.upload ["grade"; "7"] (read_multipart "b0" (fun _ => "?") d2 e2) r1 f1 = (Answer 200 false, r2, f2) /\
  result_of "JE" g2 = None /\ Result r2 = "AC".
Proof.
  set (d1 := take (String.length (body_of g0 None None) - 1) (body_of g0 None None)).
  destruct (C77_any_cut "b0" string "JE" Some enc (served run0 disk0) g0 None None d1 (drop (String.length (body_of g0 None None) - 1) (body_of g0 None None))) as (s1 & R1 & H1).
  { unfold d1. rewrite take_drop. reflexivity. }
  set (out := RhProps.upload ["grade"; "7"] (read_multipart "b0" (fun _ => "?") d1 false) run0 disk0).
  destruct (C77_any_cut "b0" string "JE" Some enc (served (snd (fst out)) (snd out)) (Panics (Some ["PK"])) None None (body_of (Panics (Some ["PK"])) None None) "") as (s2 & R2 & H2).
  { rewrite nil_s. reflexivity. }
  exists g0, (Panics (Some ["PK"])), s1, s2, d1, false, (body_of (Panics (Some ["PK"])) None None), false, (snd (fst out)), (snd out). eexists _, _.
  split; [exact R1|]. split; [exact H1|]. split; [vm_compute; reflexivity|]. split; [exact R2|]. split; [exact H2|]. split; [vm_compute; reflexivity|]. split; reflexivity.
Qed.
Print Assumptions C77_own_result_refuted.
(* "When processRun returns nil, the result was recorded": no, the status is not looked at. *)
Theorem C77_nil_means_recorded_refuted : exists g s d, uploads g None None s /\ main_at s = Returned true /\ handled s = Some (d, true) /\ served run0 disk0 d true = Some 400%Z.
Proof.
  destruct (goes_well "b0" string "JE" Some enc (served run0 disk0) (Graded [] "") None None 400%Z eq_refl) as (s & R & H & _ & M); [vm_compute; reflexivity|].
  exists (Graded [] ""), s. eexists. split; [exact R|]. split; [exact M|]. split; [exact H|]. vm_compute. reflexivity.
Qed.
Print Assumptions C77_nil_means_recorded_refuted.
(* "A runner goes on to the next run at last": no.  There is no timeout: against a grader
   that takes the connection but does not read, it waits in a Write (while it grades, and
   holds the I/O lock) and none of its goroutines can make a step. *)
Theorem C77_goes_on_refuted : exists s, uploads g0 None None s /\ main_at s = Running /\ (forall how s', ~ own how s s') /\ transport s = Streaming.
Proof.
  set (s0 := start "b0" string "JE" Some enc g0 None None).
  set (s1 := moves s0 Doing [] false Running).
  set (s2 := takes s1 None None Streaming "" false).
  set (s3 := to_do s2 (tl (todo s2)) (Some (create "b0" true "files.zip")) false).
  exists s3. split; [|split; [reflexivity|split; [|reflexivity]]].
  - eapply reach_step; [eapply reach_step; [eapply reach_step; [apply reach_start|]|]|].
    + left. apply (own_does _ s0); [discriminate|reflexivity].
    + right. apply (net_starts _ s1); [discriminate|reflexivity..].
    + left. apply (own_write _ s2); reflexivity.
  - intros how s' O. inversion O; discriminate.
Qed.
Print Assumptions C77_goes_on_refuted.

From Coq Require Import String List Arith NArith ZArith Bool QArith Permutation Lia Lqa Setoid.
From Flocq Require Import IEEE754.BinarySingleNaN.
From Verif Require Import TokModel ValModel ValProofs NumModel GradeModel GradeSpec.
Import ListNotations.
Local Open Scope nat_scope.

(* ---- verdicts ---- *)
Lemma rank_inj a b : rank a = rank b -> a = b.
Proof. destruct a, b; cbn; congruence || discriminate. Qed.
Lemma rank_spec a b : at_least_as_bad a b <-> rank a <= rank b.
Proof.
  split.
  - intros (l1 & l2 & E & H). revert E H. unfold severity.
    repeat (destruct l1 as [|? l1]; cbn [app]; intros E H; [injection E as <- <-; cbn in H; intuition (subst; cbn; lia)|];
      injection E as _ E; revert E H); destruct l1; cbn; intros; discriminate.
  - intros H. destruct a; cbn in H;
    [exists [], [CE; MLE; RFE; RTE; TLE; OLE; WA; PA; AC; OK]
    |exists [JE], [MLE; RFE; RTE; TLE; OLE; WA; PA; AC; OK]
    |exists [JE; CE], [RFE; RTE; TLE; OLE; WA; PA; AC; OK]
    |exists [JE; CE; MLE], [RTE; TLE; OLE; WA; PA; AC; OK]
    |exists [JE; CE; MLE; RFE], [TLE; OLE; WA; PA; AC; OK]
    |exists [JE; CE; MLE; RFE; RTE], [OLE; WA; PA; AC; OK]
    |exists [JE; CE; MLE; RFE; RTE; TLE], [WA; PA; AC; OK]
    |exists [JE; CE; MLE; RFE; RTE; TLE; OLE], [PA; AC; OK]
    |exists [JE; CE; MLE; RFE; RTE; TLE; OLE; WA], [AC; OK]
    |exists [JE; CE; MLE; RFE; RTE; TLE; OLE; WA; PA], [OK]
    |exists [JE; CE; MLE; RFE; RTE; TLE; OLE; WA; PA; AC], []];
    (split; [reflexivity|]); destruct b; cbn in H; try lia; cbn; tauto.
Qed.
Lemma worse_rank a b : rank (worse a b) = Nat.min (rank a) (rank b).
Proof. unfold worse. destruct (Nat.leb_spec (rank a) (rank b)); lia. Qed.
Lemma worse_comm a b : worse a b = worse b a.
Proof. apply rank_inj. rewrite !worse_rank. lia. Qed.
Lemma worse_assoc a b c : worse a (worse b c) = worse (worse a b) c.
Proof. apply rank_inj. rewrite !worse_rank. lia. Qed.
Lemma worse_idem a : worse a a = a.
Proof. apply rank_inj. rewrite !worse_rank. lia. Qed.
Lemma worse_OK_l a : worse OK a = a.
Proof. destruct a; reflexivity. Qed.
Lemma worse_OK_r a : worse a OK = a.
Proof. destruct a; reflexivity. Qed.
Lemma veqb_eq a b : veqb a b = true <-> a = b.
Proof. unfold veqb. rewrite Nat.eqb_eq. split; [apply rank_inj|congruence]. Qed.

Fixpoint worst (l : list verdict) : verdict := match l with [] => OK | x :: l' => worse x (worst l') end.
Lemma fold_worse l v : fold_left worse l v = worse v (worst l).
Proof.
  revert v. induction l as [|x l IH]; cbn; intros v; [rewrite worse_OK_r; auto|]. rewrite IH, worse_assoc. auto.
Qed.
Lemma worst_app a b : worst (a ++ b) = worse (worst a) (worst b).
Proof. induction a as [|x a IH]; cbn; [rewrite worse_OK_l; auto|]. rewrite IH, worse_assoc. auto. Qed.
Lemma worst_is l : is_worst (worst l) l.
Proof.
  split.
  - induction l as [|x l IH]; cbn; [auto|]. right. unfold worse.
    destruct (rank x <=? rank (worst l)) eqn:E; [auto|].
    destruct IH as [[-> H]|H]; [|auto]. cbn in *. destruct x; discriminate E.
  - intros x H. apply rank_spec. induction l as [|y l IH]; cbn; [destruct H|].
    rewrite worse_rank. destruct H as [->|H]; [lia|]. specialize (IH H). lia.
Qed.
Lemma is_worst_unique v w l : is_worst v l -> is_worst w l -> v = w.
Proof.
  intros [A B] [C D]. destruct A as [[E1 E2]|A], C as [[E3 E4]|C]; subst; try congruence; try (destruct C || destruct A; fail).
  apply B in C. apply D in A. apply rank_spec in A, C. apply rank_inj. lia.
Qed.
Lemma is_worst_perm v l l' : Permutation l l' -> is_worst v l -> is_worst v l'.
Proof.
  intros P [A B]. split.
  - destruct A as [[-> ->]|A]; [left; split; auto; apply Permutation_nil; auto|right; eapply Permutation_in; eauto].
  - intros x H. apply B. eapply Permutation_in; [|exact H]. symmetry; auto.
Qed.

(* ---- sums ---- *)
Local Open Scope Q_scope.
Lemma fold_sum l a : fold_left Qplus l a == a + total l.
Proof. revert a. induction l as [|x l IH]; cbn; intros a; [ring|]. rewrite IH. ring. Qed.
Lemma sumQ_total l : sumQ l == total l.
Proof. unfold sumQ. rewrite fold_sum. ring. Qed.
Lemma total_app a b : total (a ++ b) == total a + total b.
Proof. induction a as [|x a IH]; cbn; [ring|]. rewrite IH. ring. Qed.
Lemma total_nonneg l : Forall (Qle 0) l -> 0 <= total l.
Proof. induction 1; cbn; lra. Qed.
Lemma total_flat {A} (f : A -> list Q) l : total (flat_map f l) == total (map (fun x => total (f x)) l).
Proof. induction l as [|x l IH]; cbn; [ring|]. rewrite total_app, IH. ring. Qed.
Lemma total_scale {A} (f : A -> Q) k l : total (map (fun x => f x * k) l) == total (map f l) * k.
Proof. induction l as [|x l IH]; cbn; [ring|]. rewrite IH. ring. Qed.
Lemma total_scale_l {A} (f : A -> Q) k l : total (map (fun x => k * f x) l) == k * total (map f l).
Proof. induction l as [|x l IH]; cbn; [ring|]. rewrite IH. ring. Qed.
Lemma total_ext {A B} (R : A -> B -> Prop) (f : A -> Q) (g : B -> Q) l l' :
  Forall2 R l l' -> (forall a b, R a b -> f a == g b) -> total (map f l) == total (map g l').
Proof. induction 1; cbn; intros H1; [reflexivity|]. rewrite (H1 x y), IHForall2; auto. reflexivity. Qed.
Lemma total_le {A B} (R : A -> B -> Prop) (f : A -> Q) (g : B -> Q) l l' :
  Forall2 R l l' -> (forall a b, R a b -> f a <= g b) -> total (map f l) <= total (map g l').
Proof. induction 1; cbn; intros H1; [lra|]. specialize (IHForall2 H1). specialize (H1 _ _ H). lra. Qed.

Lemma total_weight_spec gs : sumQ (all_weights gs) == total_weight gs.
Proof. unfold all_weights, total_weight. rewrite sumQ_total. apply total_flat. Qed.

(* ---- scores of the validators ---- *)
Lemma clamp_range v : 0 <= rat_clamp v 0 1 <= 1.
Proof.
  unfold rat_clamp. destruct (Qle_bool v 0) eqn:E1; [lra|]. destruct (Qle_bool 1 v) eqn:E2; [lra|].
  split; apply Qlt_le_weak; apply Qnot_le_lt; intros H; apply Qle_bool_iff in H; congruence.
Qed.
Lemma compare_loop_range maxTok P cmp fuel : forall ex co,
  let s := score (compare_loop maxTok P cmp fuel ex co) in s = 0 \/ s = 1.
Proof.
  induction fuel as [|f IH]; intros ex co; cbn [compare_loop]; [cbn; auto|].
  destruct (Scan P maxTok ex) as [ex' en], (Scan P maxTok co) as [co' cn].
  destruct en as [e|], cn as [c|].
  - destruct cmp as [eq|]; [|cbn; auto]. destruct (eq e c); [apply IH|cbn; auto].
  - destruct (Err co'); cbn; auto.
  - destruct (Err ex'); cbn; auto.
  - destruct (Err ex'); [cbn; auto|]. destruct (Err co'); cbn; auto.
Qed.
Lemma score_range f n p m name ex co : 0 <= score (CalculateScore f n p m name ex co) <= 1.
Proof.
  unfold CalculateScore. destruct (_ || _)%bool.
  - destruct (Scan _ m _) as [? [t|]]; [|cbn; lra]. destruct (p t); [apply clamp_range|cbn; lra].
  - destruct (compare_loop_range m (if (name =? "token-numeric")%string then IsNumeric else IsNonWhitespace)
      (compare f n name) (S (length (concat (chunks ex)))) (new_scanner ex) (new_scanner co)) as [-> | ->]; lra.
Qed.

(* ---- structure of the result ---- *)
Section Structure.
Variable fold_eq num_eq : list N -> list N -> bool.
Variable parse : list N -> option Q.
Variable maxTok : N.
Variable validator : string.
Variable max_score : Q.
Variable wall_limit : float64.
Variable factor : Q.
Notation cscore := (case_score fold_eq num_eq parse maxTok validator).
Notation vone := (validate_one fold_eq num_eq parse maxTok validator max_score factor).
Notation vcases := (validate_cases fold_eq num_eq parse maxTok validator max_score factor).
Notation vgroups := (validate_groups fold_eq num_eq parse maxTok validator max_score factor).
Notation rone := (run_one max_score wall_limit factor).
Notation rcases := (run_cases max_score wall_limit factor).
Notation rgroups := (run_groups max_score wall_limit factor).
Notation rv := (run_and_validate fold_eq num_eq parse maxTok validator max_score wall_limit factor).

(* after the run loop *)
Definition ran (c : case_data) (r : case_result) : Prop :=
  cr_name r = cname c /\ cr_score r = 0 /\ cr_contest r = 0 /\ cr_max r = max_score * (cweight c * factor) /\
  cr_verdict r = mverdict (cr_meta r) /\ exists ex, cr_meta r = fst (run_case ex c).

Lemma run_one_ran s c : ran c (snd (rone s c)) /\ s_verdict (fst (rone s c)) = worse (s_verdict s) (cr_verdict (snd (rone s c))).
Proof.
  unfold run_one. destruct (run_case (exceeds wall_limit s) c) as [m ev] eqn:E. cbn. split; auto.
  unfold ran; cbn. split; [auto|]. split; [auto|]. split; [auto|]. split; [auto|]. split; [auto|].
  exists (exceeds wall_limit s). rewrite E. reflexivity.
Qed.
Lemma run_cases_ran cs : forall s, Forall2 ran cs (snd (rcases s cs)) /\
  s_verdict (fst (rcases s cs)) = worse (s_verdict s) (worst (map cr_verdict (snd (rcases s cs)))).
Proof.
  induction cs as [|c cs IH]; intros s; cbn [run_cases].
  - cbn. rewrite worse_OK_r. auto.
  - destruct (run_one_ran s c) as [R1 V1]. destruct (rone s c) as [s1 r]. cbn in *.
    destruct (IH s1) as [R2 V2]. destruct (rcases s1 cs) as [s2 rs]. cbn in *.
    split; [auto|]. rewrite V2, V1, worse_assoc. reflexivity.
Qed.
Lemma run_groups_ran gs : forall s, Forall2 (fun g rs => Forall2 ran (gcases g) rs) gs (snd (rgroups s gs)) /\
  s_verdict (fst (rgroups s gs)) = worse (s_verdict s) (worst (map cr_verdict (concat (snd (rgroups s gs))))).
Proof.
  induction gs as [|g gs IH]; intros s; cbn [run_groups].
  - cbn. rewrite worse_OK_r. auto.
  - destruct (run_cases_ran (gcases g) s) as [R1 V1]. destruct (rcases s (gcases g)) as [s1 r]. cbn in *.
    destruct (IH s1) as [R2 V2]. destruct (rgroups s1 gs) as [s2 rs]. cbn in *.
    split; [auto|]. rewrite V2, V1, map_app, worst_app, !worse_assoc. reflexivity.
Qed.

(* after the validation loop *)
Inductive outcome (c : case_data) (r : case_result) : Prop :=
| out_bad (ex : bool) (HV : cr_verdict r = mverdict (fst (run_case ex c))) (HN : cr_verdict r <> OK)
    (HM : cr_meta r = fst (run_case ex c)) (HS : cr_score r = 0) (HC : cr_contest r = 0)
| out_unread (ex : bool) (HV : cr_verdict r = OK) (HO : mverdict (fst (run_case ex c)) = OK)
    (HM : cr_meta r = fst (run_case ex c)) (HF : cscore c = None) (HS : cr_score r = 0) (HC : cr_contest r = 0)
| out_scored (ex : bool) (q : Q) (HQ : cscore c = Some q) (HO : mverdict (fst (run_case ex c)) = OK)
    (HM : cr_meta r = fst (run_case ex c)) (HS : cr_score r == q)
    (HC : cr_contest r == max_score * (cweight c * factor) * q)
    (HV : cr_verdict r = if Qeq_bool q 1 then AC else if Qeq_bool q 0 then WA else PA).
Definition done (c : case_data) (r : case_result) : Prop :=
  cr_name r = cname c /\ cr_max r = max_score * (cweight c * factor) /\ outcome c r.
(* does the case spoil its group? *)
Definition case_fine (r : case_result) : bool :=
  match cr_verdict r with AC | PA | OK => true | _ => false end.

Lemma cscore_range c q : cscore c = Some q -> 0 <= q <= 1.
Proof.
  unfold case_score. destruct (if String.eqb validator "custom" then _ else _); [|discriminate].
  destruct (if String.eqb validator "custom" then _ else _); [|discriminate]. intros H; injection H as <-. apply score_range.
Qed.

(* the penalty the validation adds to the run's verdict *)
Definition penalty (c : case_data) (r : case_result) : verdict :=
  if veqb (cr_verdict r) OK then match cscore c with Some q => if Qeq_bool q 1 then OK else PA | None => OK end else OK.
Definition spoils (c : case_data) (r : case_result) : bool :=
  (negb (veqb (cr_verdict r) OK) || match cscore c with Some q => Qeq_bool q 0 | None => false end)%bool.

Lemma validate_one_done v sc ok c r : ran c r ->
  let '(r', v', sc', ok') := vone v sc ok c r in
  done c r' /\ v' = worse v (penalty c r) /\
  (process_verdict (cr_verdict r) -> worse (cr_verdict r) (penalty c r) = counts_as (cr_verdict r')) /\
  (spoils c r = negb (case_fine r') \/ ~ process_verdict (cr_verdict r)) /\
  sc' == sc + cr_score r' * (cweight c * factor) /\
  ok' = (ok && negb (spoils c r))%bool.
Proof.
  intros (R1 & R2 & R3 & R4 & R5 & ex & R6). unfold validate_one, spoils, penalty, case_fine.
  destruct (veqb (cr_verdict r) OK) eqn:EV; cbn [negb orb].
  - apply veqb_eq in EV. destruct (cscore c) as [q|] eqn:EQ.
    + unfold done; cbn.
      split.
      { split; [auto|]. split; [auto|]. eapply out_scored with (ex := ex) (q := q); cbn; auto; try congruence.
        - rewrite R2. ring.
        - rewrite R2. ring. }
      rewrite EV. destruct (Qeq_bool q 1) eqn:E1; [|destruct (Qeq_bool q 0) eqn:E0]; cbn; rewrite ?worse_OK_r.
      * split; [auto|]. split; [auto|].
        assert (E0 : Qeq_bool q 0 = false).
        { apply Qeq_bool_eq in E1. destruct (Qeq_bool q 0) eqn:E0; auto. apply Qeq_bool_eq in E0. exfalso. rewrite E1 in E0. discriminate E0. }
        rewrite E0. split; [auto|]. split; [rewrite R2; ring|]. destruct ok; auto.
      * split; [auto|]. split; [auto|]. split; [auto|]. split; [rewrite R2; ring|]. destruct ok; auto.
      * split; [auto|]. split; [auto|]. split; [auto|]. split; [rewrite R2; ring|]. destruct ok; auto.
    + cbn. rewrite EV. cbn. rewrite !worse_OK_r. split.
      { split; [auto|]. split; [auto|]. eapply out_unread with (ex := ex); auto; congruence. }
      split; [auto|]. split; [auto|]. split; [auto|]. split; [rewrite R2; ring|]. destruct ok; auto.
  - assert (NV : cr_verdict r <> OK) by (intros X; rewrite X in EV; discriminate). split.
    { split; [auto|]. split; [auto|]. eapply out_bad with (ex := ex); auto; congruence. }
    rewrite !worse_OK_r. split; [auto|]. unfold process_verdict.
    split; [intros HP; destruct (cr_verdict r); cbn in *; tauto|].
    split; [destruct (cr_verdict r); cbn in *; tauto|].
    split; [rewrite R2; ring|]. destruct ok; auto.
Qed.

Definition verdicts_fine (rs : list case_result) : Prop := Forall (fun r => process_verdict (cr_verdict r)) rs.
Lemma validate_cases_done cs : forall v sc ok rs, Forall2 ran cs rs -> verdicts_fine rs ->
  let '(rs', v', sc', ok') := vcases v sc ok cs rs in
  Forall2 done cs rs' /\ (exists p, v' = worse v p /\ worst (map counts_as (map cr_verdict rs')) = worse (worst (map cr_verdict rs)) p) /\
  sc' == sc + total (map (fun cr => cr_score (snd cr) * (cweight (fst cr) * factor)) (combine cs rs')) /\
  ok' = (ok && forallb case_fine rs')%bool.
Proof.
  induction cs as [|c cs IH]; intros v sc ok rs HR HF; inversion HR as [|? r ? rs0 R1 R2]; subst; cbn [validate_cases].
  - cbn. split; auto. split; [exists OK; rewrite !worse_OK_r; auto|]. split; [ring|]. destruct ok; auto.
  - inversion HF as [|? ? F1 F2]; subst. pose proof (validate_one_done v sc ok c r R1) as D1. destruct (vone v sc ok c r) as [[[r' v1] sc1] ok1].
    destruct D1 as (D1 & D2 & D3 & D4 & D5 & D6). specialize (D3 F1). destruct D4 as [D4|D4]; [|tauto].
    pose proof (IH v1 sc1 ok1 rs0 R2 F2) as I. destruct (vcases v1 sc1 ok1 cs rs0) as [[[rs' v'] sc'] ok'].
    destruct I as (I1 & (p & I3 & I2) & I4 & I5). cbn [map worst combine total fst snd forallb].
    split; [auto|].
    split. { exists (worse (penalty c r) p). split; [rewrite I3, D2, worse_assoc; auto|].
      apply (f_equal rank) in I2, D2, D3. repeat rewrite worse_rank in *. apply rank_inj. rewrite !worse_rank. lia. }
    split; [rewrite I4, D5; ring|].
    rewrite I5, D6, D4. destruct ok, (case_fine r'), (forallb case_fine rs'); auto.
Qed.

Definition group_done (g : group_data) (gr : group_result) : Prop :=
  gr_name gr = gname g /\ Forall2 done (gcases g) (gr_cases gr) /\ gr_max gr == max_score * (group_weight g * factor) /\
  (if forallb case_fine (gr_cases gr)
   then gr_score gr == total (map (fun cr => cr_score (snd cr) * (cweight (fst cr) * factor)) (combine (gcases g) (gr_cases gr)))
   else gr_score gr = 0) /\
  gr_contest gr == max_score * gr_score gr.

Lemma validate_groups_done gs : forall v t rss,
  Forall2 (fun g rs => Forall2 ran (gcases g) rs) gs rss -> Forall verdicts_fine rss ->
  let '(grs, v', t') := vgroups v t gs rss in
  Forall2 group_done gs grs /\
  (exists p, v' = worse v p /\ worst (map counts_as (flat_map (fun g => map cr_verdict (gr_cases g)) grs)) = worse (worst (map cr_verdict (concat rss))) p) /\
  t' == t + total (map gr_score grs).
Proof.
  induction gs as [|g gs IH]; intros v t rss HR HF; inversion HR as [|? rs ? rss0 R1 R2]; subst; cbn [validate_groups].
  - cbn. split; auto. split; [exists OK; rewrite !worse_OK_r; auto|]. ring.
  - inversion HF as [|? ? F1 F2]; subst.
    pose proof (validate_cases_done (gcases g) v 0 true rs R1 F1) as D1. destruct (vcases v 0 true (gcases g) rs) as [[[rs' v1] sc] ok].
    destruct D1 as (D1 & (p1 & D3 & D2) & D4 & D5). cbn in D5.
    match goal with |- context [validate_groups _ _ _ _ _ _ _ v1 ?t1 gs rss0] => set (tt := t1) end.
    pose proof (IH v1 tt rss0 R2 F2) as I.
    destruct (vgroups v1 tt gs rss0) as [[grs v'] t'].
    destruct I as (I1 & (p & I3 & I2) & I4).
    split.
    { constructor; auto. unfold group_done. subst ok. destruct (forallb case_fine rs') eqn:EF; cbn; rewrite EF.
      - split; auto. split; auto. split; [reflexivity|]. split; [rewrite D4; ring|ring].
      - split; auto. split; auto. split; [reflexivity|]. split; [auto|ring]. }
    cbn [concat map flat_map]. rewrite !map_app, !worst_app.
    assert (EG : gr_cases (if ok then mkGR (gname g) rs' (0 + sc) (max_score * sc) (max_score * (group_weight g * factor))
       else mkGR (gname g) rs' 0 0 (max_score * (group_weight g * factor))) = rs') by (destruct ok; auto).
    rewrite EG. split.
    { exists (worse p1 p). split; [rewrite I3, D3, worse_assoc; auto|].
      apply (f_equal rank) in I2, D2, D3. repeat rewrite worse_rank in *. apply rank_inj. rewrite !worse_rank. lia. }
    rewrite I4. subst tt. cbn [total]. destruct ok; cbn; ring.
Qed.

Lemma process_run_case ex c : match crun c with Procs l => forall a, In a l -> process_verdict (mverdict (ameta a)) | Cat _ => True end ->
  process_verdict (mverdict (fst (run_case ex c))).
Proof.
  intros H. unfold run_case. destruct ex; [cbn; unfold process_verdict; cbn; intuition discriminate|].
  destruct (crun c) as [[[]|]|l]; try (cbn; unfold process_verdict; cbn; intuition discriminate).
  cbn [fst]. unfold aggregate. cbn [mverdict].
  assert (G : forall l g, process_verdict (gverdict g) -> (forall a, In a l -> process_verdict (mverdict (ameta a))) ->
     process_verdict (gverdict (fold_left agg_step l g))).
  { clear. induction l as [|a l IH]; intros g HG HL; [exact HG|]. cbn [fold_left]. apply IH; [|intros; apply HL; cbn; auto].
    unfold agg_step. specialize (HL a (or_introl eq_refl)).
    assert (process_verdict (worse (gverdict g) (mverdict (ameta a)))) by (unfold worse; destruct (_ <=? _)%nat; auto).
    destruct (atype a); cbn; auto. }
  specialize (G l agg0). assert (HP : process_verdict (gverdict (fold_left agg_step l agg0))).
  { apply G; auto. cbn. unfold process_verdict; cbn; intuition discriminate. }
  destruct (gparent _) as [p|]; auto. destruct (_ && _)%bool; auto.
  unfold parent_verdict. unfold process_verdict.
  repeat match goal with |- context [match ?x with _ => _ end] => destruct x end; cbn; intuition discriminate.
Qed.

Lemma ran_fine gs : processes_ok gs -> forall rss, Forall2 (fun g rs => Forall2 ran (gcases g) rs) gs rss -> Forall verdicts_fine rss.
Proof.
  intros HP rss HR. unfold processes_ok in HP. revert HP. induction HR as [|g rs gs rss H1 H2 IH]; intros HP; constructor.
  - assert (HG := fun c => HP g c (or_introl eq_refl)). clear - H1 HG. unfold verdicts_fine.
    induction H1 as [|c r cs rs (_ & _ & _ & _ & R5 & ex & R6) H1 IH]; constructor.
    + rewrite R5, R6. apply process_run_case. apply HG. cbn; auto.
    + apply IH. intros; apply HG; cbn; auto.
  - apply IH. intros g' c' A B. apply (HP g' c'); cbn; auto.
Qed.

Theorem run_and_validate_spec gs : processes_ok gs ->
  let r := fst (rv gs) in
  Forall2 group_done gs (rr_groups r) /\
  (let w := worst (map counts_as (case_verdicts r)) in
   let t := total (map gr_score (rr_groups r)) in
   rr_verdict r = (if (veqb w PA && Qeq_bool t 0)%bool then WA else if veqb w OK then AC else w) /\
   (w = OK -> rr_score r = 1) /\ (w <> OK -> rr_score r == t)) /\
  rr_contest r == max_score * rr_score r /\ rr_max r = max_score /\ rr_compile_error r = false.
Proof.
  intros HP. unfold run_and_validate.
  destruct (run_groups_ran gs (mkRS OK fzero fzero 0 [])) as [R V].
  destruct (rgroups (mkRS OK fzero fzero 0 []) gs) as [s rss]. cbn [fst snd s_verdict] in R, V.
  pose proof (validate_groups_done gs (s_verdict s) 0 rss R (ran_fine gs HP rss R)) as D.
  destruct (vgroups (s_verdict s) 0 gs rss) as [[grs v] sc].
  destruct D as (D1 & (p & D3 & D2) & D4).
  assert (EW : v = worst (map counts_as (flat_map (fun g => map cr_verdict (gr_cases g)) grs))).
  { rewrite D3, D2, V, worse_OK_l. reflexivity. }
  assert (ES : sc == total (map gr_score grs)) by (rewrite D4; ring).
  assert (EB : Qeq_bool sc 0 = Qeq_bool (total (map gr_score grs)) 0).
  { destruct (Qeq_bool sc 0) eqn:E1, (Qeq_bool (total (map gr_score grs)) 0) eqn:E2; auto.
    - apply Qeq_bool_eq in E1. apply Qeq_bool_neq in E2. rewrite <- ES in E2. contradiction.
    - apply Qeq_bool_eq in E2. apply Qeq_bool_neq in E1. rewrite ES in E1. contradiction. }
  destruct (veqb v PA && Qeq_bool sc 0)%bool eqn:EA.
  - cbn. unfold case_verdicts. cbn [rr_groups]. rewrite <- EW. rewrite <- EB, EA. split; [exact D1|].
    split. { split; [auto|]. apply andb_true_iff in EA. destruct EA as [EA _]. apply veqb_eq in EA. split; [congruence|auto]. }
    split; [ring|]. auto.
  - destruct (veqb v OK) eqn:EO.
    + cbn. unfold case_verdicts. cbn [rr_groups]. rewrite <- EW, <- EB, EA, EO. split; [exact D1|].
      apply veqb_eq in EO. split; [split; [auto|split; [auto|congruence]]|]. split; [ring|auto].
    + cbn. unfold case_verdicts. cbn [rr_groups]. rewrite <- EW, <- EB, EA, EO. split; [exact D1|].
      split. { split; [auto|]. split; [|auto]. intros ->. discriminate. }
      split; [ring|auto].
Qed.
End Structure.

From Coq Require Import String Ascii List Bool ZArith Lia.
From Verif Require Import GoStr InModel RhModel RhSpec RhProps UlModel UlSpec.
Import ListNotations.
Local Open Scope string_scope.

Lemma assoc_s (a b c : string) : (a ++ b) ++ c = a ++ b ++ c. Proof. induction a; cbn; congruence. Qed.
Lemma nil_s (a : string) : a ++ "" = a. Proof. induction a; cbn; congruence. Qed.
Lemma len_s a b : String.length (a ++ b) = String.length a + String.length b. Proof. induction a; cbn; auto. Qed.
Lemma inv_s (a b c : string) : a ++ b = a ++ c -> b = c. Proof. induction a; cbn; auto. intros H. injection H. auto. Qed.
Lemma levi a : forall b c d, a ++ b = c ++ d -> (exists z, a = c ++ z /\ d = z ++ b) \/ (exists z, c = a ++ z /\ z <> "" /\ b = z ++ d).
Proof.
  induction a as [|x a IH]; intros b c d H.
  - destruct c as [|y c]; [left; exists ""; cbn in *; auto|]. right. exists (String y c). cbn in *. repeat split; auto; discriminate.
  - destruct c as [|y c]; [left; exists (String x a); cbn in *; auto|]. cbn in H. injection H as <- H. destruct (IH _ _ _ H) as [(z & -> & ->)|(z & -> & N & ->)]; [left|right]; exists z; auto.
Qed.
Lemma prefix_app s a b : Prefix s (a ++ b) -> (exists z, z <> "" /\ a = s ++ z) \/ (exists t, s = a ++ t /\ Prefix t b).
Proof. intros (y & E). destruct (levi _ _ _ _ E) as [(z & -> & ->)|(z & -> & N & ->)]; [|right; exists z; split; auto; exists y; auto].
  destruct z as [|c z]; [right; exists ""; rewrite !nil_s; split; auto; exists b; auto|]. left. exists (String c z). split; [discriminate|auto]. Qed.
Lemma dp_spec p s t : drop_prefix p s = Some t <-> s = p ++ t. Proof. apply drop_prefix_spec. Qed.
Lemma dp_none p s : (forall t, s <> p ++ t) -> drop_prefix p s = None.
Proof. intros H. destruct (drop_prefix p s) as [t|] eqn:E; auto. apply dp_spec in E. elim (H t). auto. Qed.
Lemma dp_app p t : drop_prefix p (p ++ t) = Some t. Proof. apply dp_spec. auto. Qed.
Lemma not_contains_cons c x s : ~ contains c (String x s) -> x <> c /\ ~ contains c s.
Proof. intros H. split; intros K; apply H; [left|right]; auto. Qed.
Lemma not_contains_app c a b : ~ contains c a -> ~ contains c b -> ~ contains c (a ++ b).
Proof. intros A B H. apply contains_app in H. tauto. Qed.

Lemma read_line_app l t : ~ contains LF l -> read_line (l ++ String LF t) = Some (l ++ String LF "", t).
Proof.
  induction l as [|x l IH]; intros H; [reflexivity|]. apply not_contains_cons in H. destruct H as [N H]. cbn [append read_line].
  rewrite (proj2 (Ascii.eqb_neq x LF)) by auto. rewrite IH by auto. reflexivity.
Qed.
Lemma read_line_none s : ~ contains LF s -> read_line s = None.
Proof. induction s as [|x s IH]; intros H; [reflexivity|]. apply not_contains_cons in H. destruct H as [N H]. cbn [read_line]. rewrite (proj2 (Ascii.eqb_neq x LF)) by auto. rewrite IH; auto. Qed.

Lemma dp_mono p s r z : drop_prefix p s = Some r -> drop_prefix p (s ++ z) = Some (r ++ z).
Proof. rewrite !dp_spec. intros ->. apply assoc_s. Qed.
Lemma dp_none_app p s z : String.length p <= String.length s -> drop_prefix p s = None -> drop_prefix p (s ++ z) = None.
Proof.
  intros L H. apply dp_none. intros t E. destruct (levi _ _ _ _ E) as [(y & -> & _)|(y & -> & N & _)]; [rewrite dp_app in H; discriminate|].
  rewrite len_s in L. destruct y; [auto|cbn in L; lia].
Qed.
Lemma read_header_short s : String.length s < 4 -> read_header s = None.
Proof.
  induction s as [|c s IH]; intros H; [reflexivity|]. cbn [read_header]. destruct (drop_prefix (CRLF ++ CRLF) (String c s)) as [r|] eqn:E.
  - apply dp_spec in E. rewrite E, len_s in H. cbn in H. lia.
  - rewrite IH; auto. cbn in H. lia.
Qed.
Lemma read_header_mono z s : forall h r, read_header s = Some (h, r) -> read_header (s ++ z) = Some (h, r ++ z).
Proof.
  induction s as [|c s IH]; intros h r H; [discriminate|].
  assert (L : 4 <= String.length (String c s)) by (destruct (Nat.ltb (String.length (String c s)) 4) eqn:E; [apply Nat.ltb_lt in E; rewrite read_header_short in H by auto; discriminate|apply Nat.ltb_ge in E; auto]).
  cbn [read_header append] in *. destruct (drop_prefix (CRLF ++ CRLF) (String c s)) as [t|] eqn:E.
  - injection H as <- <-. pose proof (dp_mono _ _ _ z E) as F. cbn [append] in F. change (CRLF ++ CRLF) with (String CR (String LF (String CR (String LF "")))) in *. rewrite F. auto.
  - pose proof (dp_none_app (CRLF ++ CRLF) (String c s) z L E) as F. cbn [append] in F. change (CRLF ++ CRLF) with (String CR (String LF (String CR (String LF "")))) in *. rewrite F. destruct (read_header s) as [[h' r']|]; [|discriminate]. injection H as <- <-. rewrite (IH _ _ eq_refl). auto.
Qed.
Lemma read_header_free a s h r : ~ contains CR a -> read_header s = Some (h, r) -> read_header (a ++ s) = Some (a ++ h, r).
Proof.
  intros F H. induction a as [|x a IH]; [auto|]. apply not_contains_cons in F. destruct F as [N F]. cbn [append read_header].
  replace (drop_prefix (CRLF ++ CRLF) (String x (a ++ s))) with (@None string); [rewrite IH; auto|]. symmetry. apply dp_none. intros t E. injection E as E _. auto.
Qed.
Lemma no_char c s : existsb (Ascii.eqb c) (list_ascii_of_string s) = false -> ~ contains c s.
Proof. intros H K. assert (X : existsb (Ascii.eqb c) (list_ascii_of_string s) = true); [|congruence]. apply existsb_exists. exists c. split; [exact K|apply Ascii.eqb_refl]. Qed.
Lemma read_header_name n t : ~ contains CR n -> read_header (header n ++ CRLF ++ CRLF ++ t) = Some (header n, t).
Proof.
  intros N. unfold header. rewrite !assoc_s.
  apply read_header_free; [apply no_char; reflexivity|]. apply read_header_free; [auto|].
  change (String quote form_type ++ CRLF ++ CRLF ++ t) with (String quote "" ++ (form_type ++ CRLF ++ CRLF ++ t)).
  change (String quote form_type) with (String quote "" ++ form_type). apply read_header_free; [apply no_char; reflexivity|].
  unfold form_type. rewrite !assoc_s. 
  assert (X : read_header ("Content-Type: application/octet-stream" ++ CRLF ++ CRLF ++ t) = Some ("Content-Type: application/octet-stream", t)).
  { rewrite <- (nil_s "Content-Type: application/octet-stream") at 2. apply read_header_free; [apply no_char; reflexivity|].
    cbn [append CRLF]. cbn [read_header append CRLF drop_prefix]. rewrite !Ascii.eqb_refl. reflexivity. }
  revert X. generalize ("Content-Type: application/octet-stream" ++ CRLF ++ CRLF ++ t) as u. intros u X.
  assert (Y : forall v, read_header (String LF v) = match read_header v with Some (h, r) => Some (String LF h, r) | None => None end) by (intros v; cbn [read_header]; rewrite dp_none; [auto|intros w E; discriminate E]).
  assert (forall v h r, read_header v = Some (h, r) -> (exists x y, h = String x y /\ x <> CR) -> read_header (CRLF ++ v) = Some (CRLF ++ h, r)).
  { intros v h r E (x & y & -> & NX). change (CRLF ++ v) with (String CR (String LF v)). cbn [read_header].
    rewrite dp_none. 2:{ intros w F. change ((CRLF ++ CRLF) ++ w) with (String CR (String LF (String CR (String LF w)))) in F. injection F as F.
      rewrite F in E. cbn [read_header] in E. destruct (drop_prefix (CRLF ++ CRLF) (String CR (String LF w))); [discriminate|].
      destruct (match drop_prefix (CRLF ++ CRLF) (String LF w) with Some _ => _ | None => _ end) as [[h' r']|]; [|discriminate]. injection E as E _. auto. }
    pose proof (Y v) as Z. cbn [read_header] in Z. rewrite Z, E. reflexivity. }
  apply H; auto. eexists _, _. split; [reflexivity|]. intros K. discriminate K.
Qed.
Lemma read_header_cut n s z : ~ contains CR n -> z <> "" -> header n ++ CRLF ++ CRLF = s ++ z -> read_header s = None.
Proof.
  intros N Z E. destruct (read_header s) as [[h r]|] eqn:F; auto. apply (read_header_mono z) in F.
  pose proof (read_header_name n "" N) as G. rewrite nil_s, E, F in G. injection G as _ G. destruct r; [elim Z; auto|discriminate G].
Qed.
Lemma name_of_header o n : ~ contains quote n -> name_of o (header n) = n.
Proof.
  intros N. unfold name_of, header. rewrite dp_app. rewrite span_app.
  - rewrite String.eqb_refl. auto.
  - intros c C. destruct (Ascii.eqb_spec c quote) as [->|]; [contradiction|auto].
  - right. eexists _, _. split; [reflexivity|]. rewrite Ascii.eqb_refl. auto.
Qed.

Section Boundary.
Variable b : string.
Hypothesis PB : plain_boundary b.
Notation dash := (dashBoundary b).
Notation nl := (nlDashBoundary b).

Lemma no_cr_dash : ~ contains CR dash. Proof. apply not_contains_app; [apply no_char; reflexivity|apply PB]. Qed.
Lemma no_lf_dash : ~ contains LF dash. Proof. apply not_contains_app; [apply no_char; reflexivity|apply PB]. Qed.
Lemma nl_eq : nl = String CR (String LF dash). Proof. reflexivity. Qed.
Lemma no_cr_tail : ~ contains CR (String LF dash). Proof. intros [H|H]; [discriminate H|apply no_cr_dash; auto]. Qed.

Definition clear (c : string) : Prop := forall x y, c <> x ++ nl ++ y.
Lemma clear_suffix a c : clear (a ++ c) -> clear c. Proof. intros H x y E. apply (H (a ++ x) y). rewrite E, assoc_s. auto. Qed.
Lemma clear_prefix a c : clear (a ++ c) -> clear a. Proof. intros H x y E. apply (H x (y ++ c)). rewrite E, !assoc_s. auto. Qed.
Lemma apart_clear c : apart b c -> clear c.
Proof. intros H x y E. apply (H (CRLF ++ x) y). rewrite assoc_s. change (String "013" (String "010" c)) with (CRLF ++ c). rewrite E. unfold nlDashBoundary, dashBoundary. rewrite !assoc_s. cbn [append CRLF]. rewrite ?assoc_s. reflexivity. Qed.
Lemma apart_start c : apart b c -> forall y, c <> dash ++ y.
Proof. intros H y E. apply (H "" y). rewrite E. unfold dashBoundary. rewrite !assoc_s. reflexivity. Qed.

Lemma no_early c r q : c <> "" -> clear c -> c ++ nl ++ r <> nl ++ q.
Proof.
  intros N H E. destruct (levi _ _ _ _ E) as [(z & E1 & _)|(z & E1 & NZ & E2)]; [apply (H "" z); auto|].
  destruct c as [|x c]; [auto|]. rewrite nl_eq in E1. cbn [append] in E1. injection E1 as _ E1.
  destruct z as [|y z]; [auto|]. rewrite nl_eq in E2. cbn [append] in E2. injection E2 as <- _.
  apply no_cr_tail. rewrite E1. apply contains_app. right. left. auto.
Qed.
Lemma first_one c r a q : clear c -> c ++ nl ++ r = a ++ nl ++ q -> exists z, a = c ++ z.
Proof.
  intros H E. destruct (levi _ _ _ _ E) as [(z & E1 & E2)|(z & E1 & _ & _)]; [|eauto].
  destruct z as [|x z]; [rewrite nil_s in E1; subst; exists ""; rewrite nil_s; auto|]. exfalso. apply (no_early (String x z) r q); [discriminate| |auto].
  apply (clear_suffix a). rewrite <- E1. auto.
Qed.
Lemma scan_found c r : clear c -> follows r = true -> scan b (c ++ nl ++ r) = (c, Some (nl ++ r)).
Proof.
  intros H F. induction c as [|x c IH].
  - cbn [append]. destruct (nl ++ r) as [|x t] eqn:E; [discriminate E|]. cbn [scan]. rewrite <- E, dp_app, F. auto.
  - change (String x c ++ nl ++ r) with (String x (c ++ nl ++ r)). cbn [scan].
    rewrite dp_none. 2:{ intros q. apply (no_early (String x c)); [discriminate|auto]. }
    rewrite dp_none. 2:{ intros q E. apply (f_equal String.length) in E. cbn [append String.length] in E. rewrite !len_s in E. lia. }
    rewrite IH; auto. apply (clear_suffix (String x "")). auto.
Qed.
Lemma scan_cut c d z : clear c -> nl = d ++ z -> z <> "" -> exists x y, scan b (c ++ d) = (x, None) /\ c = x ++ y.
Proof.
  intros H D Z.
  assert (CL : forall c, clear c -> clear (c ++ d)).
  { intros c0 H0 x y E. assert (E' : c0 ++ nl ++ "" = x ++ nl ++ (y ++ z)) by (rewrite nil_s, D at 1; rewrite <- !assoc_s, E, !assoc_s; auto).
    destruct (first_one _ _ _ _ H0 E') as (w & ->). rewrite !assoc_s in E'. apply inv_s in E'. apply (f_equal String.length) in E'. rewrite !len_s in E'. destruct z; [auto|cbn in E'; lia]. }
  induction c as [|x c IH].
  - cbn [append]. exists "", "". split; [|auto]. assert (N : drop_prefix nl d = None) by (apply dp_none; intros t E; apply (CL "" H "" t); auto).
    assert (S : drop_prefix d nl = Some z) by (apply dp_spec; auto). destruct d as [|y d]; cbn [scan]; rewrite N, S; auto.
  - cbn [append scan]. rewrite dp_none. 2:{ intros q E. apply (CL _ H "" q). auto. }
    destruct (drop_prefix (String x (c ++ d)) nl) as [t|]; [exists "", (String x c); auto|].
    destruct IH as (u & v & -> & ->); [apply (clear_suffix (String x "")); auto|]. exists (String x u), v. auto.
Qed.
Lemma dash_not_at c r q : apart b c -> c ++ nl ++ r <> dash ++ q.
Proof.
  intros H E. destruct (levi _ _ _ _ E) as [(z & E1 & _)|(z & E1 & NZ & E2)]; [apply (apart_start _ H z); auto|].
  destruct z as [|y z]; [auto|]. rewrite nl_eq in E2. cbn [append] in E2. injection E2 as <- _. apply no_cr_dash. rewrite E1. apply contains_app. right. left. auto.
Qed.
Lemma scan_part_found c r : apart b c -> follows r = true -> scan_part b (c ++ nl ++ r) = (c, Some (nl ++ r)).
Proof.
  intros H F. unfold scan_part. rewrite dp_none by (intros q; apply dash_not_at; auto).
  rewrite dp_none. 2:{ intros q E. apply (f_equal String.length) in E. rewrite nl_eq in E. cbn [append String.length] in E. rewrite !len_s in E. cbn [String.length] in E. rewrite !len_s in E. lia. }
  apply scan_found; auto. apply apart_clear. auto.
Qed.
Lemma scan_part_cut c d z : apart b c -> nl = d ++ z -> z <> "" -> exists x y, scan_part b (c ++ d) = (x, None) /\ c = x ++ y.
Proof.
  intros H D Z. unfold scan_part. rewrite dp_none.
  2:{ intros q E. apply (dash_not_at c "" (q ++ z)); auto. rewrite nil_s, D, <- !assoc_s, E. auto. }
  destruct (drop_prefix (c ++ d) dash) as [t|]; [exists "", c; auto|]. apply (scan_cut c d z); auto. apply apart_clear. auto.
Qed.

(* ---- the body as a whole ---- *)
Fixpoint written (first : bool) (l : list (string * string)) : string :=
  match l with [] => finish_body b | (n, c) :: l => create b first n ++ c ++ written false l end.
Fixpoint parts_of (l : list (string * string)) : parts := match l with [] => Ends | (n, c) :: l => Part n c (parts_of l) end.
Definition good_name (n : string) : Prop := ~ contains CR n /\ ~ contains quote n.
Definition good (l : list (string * string)) : Prop := forall n c, In (n, c) l -> good_name n /\ apart b c.
Lemma written_follows l : exists r, written false l = nl ++ r /\ follows r = true.
Proof.
  destruct l as [|[n c] l]; cbn [written].
  - exists ("--" ++ CRLF). split; [unfold finish_body, nlDashBoundary; rewrite !assoc_s; auto|reflexivity].
  - exists (CRLF ++ header n ++ CRLF ++ CRLF ++ c ++ written false l). split; [|reflexivity]. unfold create, nlDashBoundary. rewrite !assoc_s. auto.
Qed.
(* What comes after the line end in front of a delimiter. *)
Definition opened (l : list (string * string)) : string :=
  match l with [] => dash ++ "--" ++ CRLF | (n, c) :: l => dash ++ CRLF ++ header n ++ CRLF ++ CRLF ++ c ++ written false l end.
Lemma written_false l : written false l = CRLF ++ opened l.
Proof. destruct l as [|[n c] l]; cbn [written opened]; unfold finish_body, create; rewrite ?assoc_s; auto. Qed.
Lemma written_true l : written true l = match l with [] => CRLF ++ opened [] | _ => opened l end.
Proof. destruct l as [|[n c] l]; cbn [written opened]; unfold finish_body, create; rewrite ?assoc_s; auto. Qed.

Lemma line_crlf t : read_line (CRLF ++ t) = Some (CRLF, t). Proof. reflexivity. Qed.
Lemma crlf_delim : delimiter_line b CRLF = false.
Proof. unfold delimiter_line. rewrite dp_none; [auto|]. intros t E. discriminate E. Qed.
Lemma crlf_final : final_line b CRLF = false.
Proof. unfold final_line. rewrite dp_none; [auto|]. intros t E. discriminate E. Qed.
Lemma line_delim t : read_line (dash ++ CRLF ++ t) = Some (dash ++ CRLF, t).
Proof.
  change (CRLF ++ t) with (String CR "" ++ String LF t). rewrite <- assoc_s, read_line_app.
  - rewrite assoc_s. auto.
  - apply not_contains_app; [apply no_lf_dash|apply no_char; reflexivity].
Qed.
Lemma delim_delim : delimiter_line b (dash ++ CRLF) = true. Proof. unfold delimiter_line. rewrite dp_app. reflexivity. Qed.
Lemma line_final t : read_line (dash ++ "--" ++ CRLF ++ t) = Some (dash ++ "--" ++ CRLF, t).
Proof.
  replace (dash ++ "--" ++ CRLF ++ t) with ((dash ++ "--" ++ String CR "") ++ String LF t) by (rewrite !assoc_s; reflexivity). rewrite read_line_app.
  - rewrite !assoc_s. reflexivity.
  - apply not_contains_app; [apply no_lf_dash|apply no_char; reflexivity].
Qed.
Lemma final_delim : delimiter_line b (dash ++ "--" ++ CRLF) = false. Proof. unfold delimiter_line. rewrite dp_app. reflexivity. Qed.
Lemma final_final : final_line b (dash ++ "--" ++ CRLF) = true.
Proof. unfold final_line. rewrite <- (assoc_s dash "--" CRLF), dp_app. reflexivity. Qed.

Variable o : string -> string.
Notation next := (next_parts b o).
Lemma next_opened l : forall fuel m whole, good l -> 2 * length l + 1 <= fuel -> next fuel m (opened l) whole = parts_of l.
Proof.
  induction l as [|[n c] l IH]; intros fuel m whole G L.
  - destruct fuel as [|fuel]; [cbn in L; lia|]. cbn [next_parts opened parts_of]. rewrite <- (nil_s CRLF), line_final, final_delim, final_final. auto.
  - destruct fuel as [|fuel]; [cbn in L; lia|]. destruct (G n c) as [[N1 N2] A]; [left; auto|].
    destruct (written_follows l) as (r & W & F). cbn [next_parts opened parts_of]. rewrite line_delim, delim_delim, read_header_name by auto.
    rewrite W, scan_part_found by auto. rewrite name_of_header by auto. f_equal. rewrite <- W, written_false.
    destruct fuel as [|fuel]; [cbn in L; lia|]. cbn [next_parts]. rewrite line_crlf, crlf_delim, crlf_final, String.eqb_refl. apply IH; [intros ? ? I; apply G; right; auto|cbn in L; lia].
Qed.
Lemma written_length l : 2 * length l + 2 <= String.length (written false l).
Proof. induction l as [|[n c] l IH]; rewrite written_false; cbn [opened]; rewrite !len_s; [cbn; lia|]. cbn [length]. change (String.length CRLF) with 2. lia. Qed.
(* The reader gives what was written. *)
Lemma read_whole l whole : good l -> read_multipart b o (written true l) whole = parts_of l.
Proof.
  intros G. unfold read_multipart. rewrite written_true. destruct l as [|[n c] l].
  - cbn [next_parts]. rewrite line_crlf, crlf_delim, crlf_final. apply next_opened; auto. rewrite len_s. cbn. lia.
  - apply next_opened; auto. cbn [opened length]. rewrite !len_s. pose proof (written_length l). change (String.length CRLF) with 2. lia.
Qed.

Lemma cut_opened l : forall fuel m s z, good l -> opened l = s ++ z -> z <> "" -> cut_from l (next fuel m s false).
Proof.
  induction l as [|[n c] l IH]; intros fuel m s z G E Z; (destruct fuel as [|fuel]; [exact Logic.I|]); cbn [next_parts].
  - cbn [opened] in E. assert (X : ~ contains LF s).
    { replace (dash ++ "--" ++ CRLF) with ((dash ++ "--" ++ String CR "") ++ String LF "") in E by (rewrite !assoc_s; reflexivity).
      destruct (levi _ _ _ _ E) as [(y & E1 & _)|(y & E1 & NY & E2)].
      - intros C. assert (C' : contains LF (dash ++ "--" ++ String CR "")) by (rewrite E1; apply contains_app; auto). revert C'. apply not_contains_app; [apply no_lf_dash|apply no_char; reflexivity].
      - exfalso. apply (f_equal String.length) in E2. rewrite len_s in E2. cbn in E2. destruct y; [auto|]. destruct z; [auto|]. cbn in E2. lia. }
    rewrite read_line_none by auto. exact Logic.I.
  - destruct (G n c) as [[N1 N2] A]; [left; auto|]. cbn [opened] in E.
    rewrite <- (assoc_s dash CRLF) in E. destruct (prefix_app s _ _ (ex_intro _ z E)) as [(y & NY & E1)|(s1 & -> & P1)].
    + assert (X : ~ contains LF s).
      { replace (dash ++ CRLF) with ((dash ++ String CR "") ++ String LF "") in E1 by (rewrite !assoc_s; reflexivity).
        destruct (levi _ _ _ _ E1) as [(u & E2 & _)|(u & E2 & NU & E3)].
        - intros C. assert (C' : contains LF (dash ++ String CR "")) by (rewrite E2; apply contains_app; auto). revert C'. apply not_contains_app; [apply no_lf_dash|apply no_char; reflexivity].
        - exfalso. apply (f_equal String.length) in E3. rewrite len_s in E3. cbn in E3. destruct u; [auto|]. destruct y; [auto|]. cbn in E3. lia. }
      rewrite read_line_none by auto. exact Logic.I.
    + rewrite assoc_s, line_delim, delim_delim. rewrite !assoc_s in E. do 2 apply inv_s in E.
      destruct P1 as (z1 & P1). replace z1 with z in P1 by (rewrite E in P1; apply inv_s in P1; auto). clear z1. 
      replace (header n ++ CRLF ++ CRLF ++ c ++ written false l) with ((header n ++ CRLF ++ CRLF) ++ c ++ written false l) in P1 by (rewrite !assoc_s; auto).
      destruct (prefix_app s1 _ _ (ex_intro _ z P1)) as [(y & NY & E1)|(s2 & -> & P2)]; [rewrite (read_header_cut n s1 y) by auto; exact Logic.I|].
      rewrite !assoc_s, read_header_name, name_of_header by auto. rewrite !assoc_s in P1. do 3 apply inv_s in P1. clear P2 E.
      destruct (prefix_app s2 _ _ (ex_intro _ z P1)) as [(y & NY & E1)|(s3 & -> & P3)].
      * assert (A2 : apart b s2) by (intros u v K; apply (A u (v ++ y)); rewrite E1; change (String "013" (String "010" (s2 ++ y))) with ((String "013" (String "010" s2)) ++ y); rewrite K; rewrite !assoc_s; cbn [append]; rewrite !assoc_s; auto).
        destruct (scan_part_cut s2 "" nl A2 eq_refl) as (u & v & S & E2); [discriminate|]. rewrite nil_s in S. rewrite S. cbn [cut_from]. split; [auto|]. exists (v ++ y). rewrite E1, E2, assoc_s. auto.
      * rewrite assoc_s in P1. apply inv_s in P1. destruct (written_follows l) as (r & W & F).
        assert (W' := P1). rewrite W in W'. destruct (prefix_app s3 _ _ (ex_intro _ z W')) as [(y & NY & E1)|(s4 & -> & P4)].
        { destruct (scan_part_cut c s3 y A E1 NY) as (u & v & S & E2). rewrite S. cbn [cut_from]. split; [auto|]. exists v. auto. }
        assert (F4 : follows s4 = true).
        { destruct P4 as (q & P4). destruct s4 as [|x s4]; [auto|]. rewrite P4 in F. exact F. }
        rewrite scan_part_found by auto. cbn [cut_from]. split; [auto|]. split; [auto|].
        destruct fuel as [|fuel]; [exact Logic.I|]. rewrite written_false in P1. rewrite nl_eq in *.
        change (String CR (String LF dash) ++ s4) with (CRLF ++ dash ++ s4) in *. rewrite assoc_s in P1. apply inv_s in P1. 
        cbn [next_parts]. rewrite line_crlf, crlf_delim, crlf_final, String.eqb_refl. apply (IH _ _ _ z); auto. intros ? ? I; apply G; right; auto.
Qed.
(* If something is missing, it shows. *)
Lemma read_cut l s z : good l -> written true l = s ++ z -> z <> "" -> cut_from l (read_multipart b o s false).
Proof.
  intros G E Z. unfold read_multipart. rewrite written_true in E. destruct l as [|p l]; [|apply (cut_opened _ _ _ _ z); auto].
  destruct (prefix_app s _ _ (ex_intro _ z E)) as [(y & NY & E1)|(t & -> & P)].
  - destruct s as [|x s]; [exact Logic.I|]. injection E1 as <- E1. destruct s as [|x s]; [exact Logic.I|]. injection E1 as <- E1. destruct s; [destruct y; [elim NY; auto|discriminate]|discriminate].
  - rewrite assoc_s in E. apply inv_s in E. cbn [next_parts]. rewrite line_crlf, crlf_delim, crlf_final. apply (cut_opened _ _ _ _ z); auto.
Qed.
Lemma cut_incomplete p : forall l, cut_from l p -> ~ complete p.
Proof. induction p as [| |n c p IH|n c]; intros l H; cbn in *; auto. destruct l as [|[m d] l]; [destruct H|]. destruct H as (_ & _ & H). eauto. Qed.
Lemma parts_of_complete l : complete (parts_of l). Proof. induction l as [|[n c] l IH]; cbn; auto. Qed.
Lemma parts_of_whole l : whole_parts (parts_of l) = l. Proof. induction l as [|[n c] l IH]; cbn; congruence. Qed.
End Boundary.

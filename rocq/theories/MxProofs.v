From Coq Require Import String Ascii List ZArith Bool Lia.
From Verif Require Import GoStr InModel GtModel CfModel CfSpec MxModel MxSpec.
Import ListNotations.
Local Open Scope string_scope.

(* ---- strings ---- *)
Lemma app_assoc_s a b c : ((a ++ b) ++ c = a ++ b ++ c)%string.
Proof. induction a as [|x a IH]; [reflexivity|]. cbn [append]. now rewrite IH. Qed.
Lemma app_nil_s a : (a ++ "" = a)%string.
Proof. induction a as [|x a IH]; [reflexivity|]. cbn [append]. now rewrite IH. Qed.
Lemma las_app a b : list_ascii_of_string (a ++ b) = (list_ascii_of_string a ++ list_ascii_of_string b)%list.
Proof. induction a as [|x a IH]; [reflexivity|]. cbn. now rewrite IH. Qed.
Lemma length_app_s a b : String.length (a ++ b) = (String.length a + String.length b)%nat.
Proof. induction a as [|x a IH]; [reflexivity|]. cbn. now rewrite IH. Qed.
Lemma ended a : slash_ended (a ++ "/") = true.
Proof. unfold slash_ended. rewrite las_app, rev_app_distr. reflexivity. Qed.
Lemma slash_ended_spec p : slash_ended p = true <-> exists a, p = a ++ "/".
Proof.
  split; [|intros (a & ->); apply ended]. unfold slash_ended. destruct (rev (list_ascii_of_string p)) as [|c l] eqn:E; [intros X; discriminate X|].
  intros X. apply Ascii.eqb_eq in X. subst c. exists (string_of_list_ascii (rev l)).
  rewrite <- (string_of_list_ascii_of_string p). rewrite <- (rev_involutive (list_ascii_of_string p)), E. cbn [rev].
  rewrite <- (list_ascii_of_string_of_list_ascii (rev l)) at 1. change ["/"%char] with (list_ascii_of_string "/"). rewrite <- las_app, string_of_list_ascii_of_string. reflexivity.
Qed.
Lemma prefix_app_iff e p : String.prefix e p = true <-> exists r, p = e ++ r.
Proof.
  revert p. induction e as [|c e IH]; intros p; cbn [String.prefix append].
  - destruct p; (split; [intros _; eexists; reflexivity|reflexivity]).
  - destruct p as [|d p]; [split; [intros X; discriminate X|intros (r & X); discriminate X]|].
    cbn [String.prefix append]. destruct (ascii_dec c d) as [->|N].
    + rewrite IH. split; intros (r & E); exists r; congruence.
    + split; [intros X; discriminate X|]. intros (r & X). congruence.
Qed.

(* ---- patterns ---- *)
Lemma exact_spec ps p : exact_ ps p = true <-> In p ps.
Proof.
  unfold exact_. rewrite existsb_exists. split.
  - intros (h & I & E). apply String.eqb_eq in E. now subst.
  - intros I. exists p. split; [exact I|apply String.eqb_refl].
Qed.
Fixpoint descending (es : list string) : Prop :=
  match es with [] => True | e :: es => (forall x, In x es -> (String.length x <= String.length e)%nat) /\ descending es end.
Lemma insert_in p es x : In x (insert p es) <-> x = p \/ In x es.
Proof.
  induction es as [|e es IH]; cbn [insert In]; [cbn; split; intros [H|[]]; subst; auto|].
  destruct (String.length e <? String.length p)%nat; cbn; rewrite ?IH; split; intros H; repeat (destruct H as [H|H]); subst; auto.
Qed.
Lemma insert_sorted p es : descending es -> descending (insert p es).
Proof.
  induction es as [|e es IH]; cbn [insert descending]; [cbn; tauto|]. intros (B & D). destruct (Nat.ltb_spec (String.length e) (String.length p)) as [L|L]; cbn.
  - split; [intros x [<-|I]; [lia|specialize (B x I); lia]|]. auto.
  - split; [|auto]. intros x I. apply insert_in in I as [->|I]; auto.
Qed.
Lemma sorted_spec ps : descending (sorted ps) /\ forall x, In x (sorted ps) <-> In x ps /\ slash_ended x = true.
Proof.
  unfold sorted. assert (G : forall ps es, descending es -> descending (fold_left (fun es p => if slash_ended p then insert p es else es) ps es) /\
    forall x, In x (fold_left (fun es p => if slash_ended p then insert p es else es) ps es) <-> In x es \/ In x ps /\ slash_ended x = true).
  { clear ps. induction ps as [|p ps IH]; intros es D; cbn; [split; [exact D|intros x; tauto]|].
    destruct (slash_ended p) eqn:S.
    - destruct (IH (insert p es) (insert_sorted _ _ D)) as (D' & I'). split; [exact D'|]. intros x. rewrite I', insert_in.
      split; [intros [[->|X]|X]; tauto|]. intros [X|[[->|X] Y]]; tauto.
    - destruct (IH es D) as (D' & I'). split; [exact D'|]. intros x. rewrite I'. split; [tauto|]. intros [X|[[->|X] Y]]; [tauto| congruence|tauto]. }
  destruct (G ps [] I) as (D & X). split; [exact D|]. intros x. rewrite X. cbn. tauto.
Qed.
Lemma find_longest es p h : descending es -> find (fun e => String.prefix e p) es = Some h ->
  In h es /\ String.prefix h p = true /\ forall h', In h' es -> String.prefix h' p = true -> (String.length h' <= String.length h)%nat.
Proof.
  induction es as [|e es IH]; cbn; [intros _ X; discriminate X|]. intros (B & D). destruct (String.prefix e p) eqn:P; intros X.
  - injection X as <-. repeat split; [now left|exact P|]. intros h' [<-|I'] _; [lia|auto].
  - destruct (IH D X) as (I' & P' & M). repeat split; [now right|exact P'|]. intros h' [<-|J] Q; [congruence|auto].
Qed.
Lemma match_spec ps p : match match_ ps p with Some h => most_specific ps p h | None => forall h, In h ps -> ~ covers h p end.
Proof.
  unfold match_. destruct (exact_ ps p) eqn:E.
  - apply exact_spec in E. split; [exact E|]. split; [now left|]. intros h' _ [->|(a & r & _ & ->)]; [lia|]. rewrite length_app_s. lia.
  - assert (N : ~ In p ps) by (rewrite <- exact_spec; congruence). destruct (sorted_spec ps) as (D & S).
    destruct (find (fun e => String.prefix e p) (sorted ps)) as [h|] eqn:F.
    + destruct (find_longest _ _ _ D F) as (Ih & P & M). apply S in Ih as [Ih Sh]. split; [exact Ih|]. split.
      * right. apply slash_ended_spec in Sh as (a & ->). apply prefix_app_iff in P as (r & ->). eauto.
      * intros h' I' [->|(a & r & -> & ->)]; [contradiction|]. apply M; [apply S; split; [exact I'|apply ended]|]. apply prefix_app_iff. eauto.
    + intros h Ih [->|(a & r & -> & ->)]; [contradiction|]. apply find_none with (x := a ++ "/") in F; [|apply S; split; [exact Ih|apply ended]].
      assert (String.prefix (a ++ "/") ((a ++ "/") ++ r) = true) by (apply prefix_app_iff; eauto). congruence.
Qed.

(* ---- paths ---- *)
Lemma join_seg_proper p s : Forall proper_name p -> ~ contains "/" s -> Forall proper_name (join_seg p s).
Proof.
  intros P C. unfold join_seg. destruct (String.eqb_spec s ""); [exact P|]. destruct (String.eqb_spec s "."); [exact P|]. cbn.
  destruct (String.eqb_spec s "..").
  - apply Forall_forall. intros x I. rewrite Forall_forall in P. apply P. clear -I. induction p as [|a p IH]; cbn in *; [tauto|]. destruct p; [contradiction|]. destruct I; auto.
  - apply Forall_app. split; [exact P|]. repeat constructor; auto.
Qed.
Lemma fold_proper l p : Forall proper_name p -> Forall (fun x => ~ contains "/" x) l -> Forall proper_name (fold_left join_seg l p).
Proof. revert p. induction l as [|s l IH]; intros p P C; cbn; [exact P|]. inversion C; subst. apply IH; [now apply join_seg_proper|assumption]. Qed.
Lemma fold_same l p : Forall proper_name l -> fold_left join_seg l p = (p ++ l)%list.
Proof.
  revert p. induction l as [|s l IH]; intros p P; cbn; [now rewrite app_nil_r|]. inversion P as [|? ? (A & B & C & _) P']; subst.
  unfold join_seg at 2. destruct (String.eqb_spec s ""); [contradiction|]. destruct (String.eqb_spec s "."); [contradiction|]. destruct (String.eqb_spec s ".."); [contradiction|]. cbn.
  rewrite IH by exact P'. now rewrite <- app_assoc.
Qed.
Lemma removelast_snoc {A} (l : list A) : l = [] \/ exists k x, l = (k ++ [x])%list.
Proof. destruct l using rev_ind; [now left|right; eauto]. Qed.
Lemma fold_simplifies l p : Forall proper_name p -> Forall (fun x => ~ contains "/" x) l -> simplifies (p ++ l) (fold_left join_seg l p).
Proof.
  revert p. induction l as [|s l IH]; intros p P C; cbn; [rewrite app_nil_r; constructor|]. inversion C as [|? ? Cs C']; subst.
  pose proof (IH _ (join_seg_proper _ _ P Cs) C') as R. remember (join_seg p s) as q eqn:Q. unfold join_seg in Q.
  destruct (String.eqb_spec s "") as [->|N1]; [subst q; now apply simp_empty|]. destruct (String.eqb_spec s ".") as [->|N2]; [subst q; now apply simp_dot|]. cbn in Q.
  destruct (String.eqb_spec s "..") as [->|N3].
  - destruct (removelast_snoc p) as [->|(k & x & ->)]; [subst q; now apply simp_root|]. rewrite removelast_last in Q. subst q. rewrite <- app_assoc.
    apply simp_up; [|exact R]. apply Forall_app in P as [_ P]. now inversion P.
  - subst q. rewrite <- app_assoc in R. exact R.
Qed.
Lemma proper_no_slash l : Forall proper_name l -> Forall (fun x => ~ contains "/" x) l.
Proof. intros P. eapply Forall_impl; [|exact P]. intros s (_ & _ & _ & H). exact H. Qed.
Lemma rooted_split x : split "/" ("/" ++ x) = "" :: split "/" x.
Proof. reflexivity. Qed.
Lemma Clean_rooted x : Clean ("/" ++ x) = "/" ++ join "/" (fold_left join_seg (split "/" x) []).
Proof. reflexivity. Qed.
Lemma split_ended x : split "/" (x ++ "/") = (split "/" x ++ [""])%list.
Proof.
  induction x as [|c x IH]; [reflexivity|]. cbn [append split]. rewrite IH. destruct (Ascii.eqb c "/"); [reflexivity|].
  destruct (split_cons "/" x) as (h & t & E). rewrite E. reflexivity.
Qed.
Lemma join_not_ended l : l <> [] -> Forall proper_name l -> slash_ended ("/" ++ join "/" l) = false /\ join "/" l <> "".
Proof.
  intros N P. assert (S : split "/" (join "/" l) = l) by (apply split_join; [exact N|now apply proper_no_slash]).
  assert (J : join "/" l <> "").
  { intros E. rewrite E in S. cbn in S. subst l. inversion P as [|? ? (A & _) _]; subst. congruence. }
  split; [|exact J]. destruct (slash_ended ("/" ++ join "/" l)) eqn:E; [|reflexivity]. exfalso.
  apply slash_ended_spec in E as (a & E). destruct a as [|c a]; [cbn in E; injection E as E; contradiction|].
  cbn in E. injection E as _ E. rewrite E, (split_ended a) in S. subst l. apply Forall_app in P as [_ P]. inversion P as [|? ? (A & _) _]; subst. congruence.
Qed.

Lemma simplifies_head l k : simplifies l k -> simplifies ("" :: l) k.
Proof. intros S. exact (simp_empty [] l k S). Qed.
Lemma clean_of x : exists l, Forall proper_name l /\ simplifies (split "/" x) l /\ Clean ("/" ++ x) = "/" ++ join "/" l.
Proof.
  exists (fold_left join_seg (split "/" x) []). split; [apply fold_proper; [constructor|apply split_parts]|].
  split; [apply (fold_simplifies (split "/" x) []); [constructor|apply split_parts]|]. apply Clean_rooted.
Qed.
Lemma cleanPath_rooted x : cleanPath ("/" ++ x) = if slash_ended ("/" ++ x) && negb (Clean ("/" ++ x) =? "/") then Clean ("/" ++ x) ++ "/" else Clean ("/" ++ x).
Proof. reflexivity. Qed.
Lemma cleanPath_relative c x : c <> "/"%char -> cleanPath (String c x) = cleanPath ("/" ++ String c x).
Proof. intros N. unfold cleanPath. cbn [append]. rewrite Ascii.eqb_refl. destruct (Ascii.eqb_spec c "/"); [contradiction|reflexivity]. Qed.
Lemma clean_spec x : exists l d, canonical l d (cleanPath ("/" ++ x)) /\ simplifies (split "/" x) l.
Proof.
  destruct (clean_of x) as (l & P & S & E). rewrite cleanPath_rooted, E. destruct l as [|a l].
  - exists [], true. split; [|exact S]. cbn [join]. change ("/" ++ "")%string with "/". rewrite String.eqb_refl, andb_false_r. constructor.
  - assert (N : a :: l <> []) by discriminate. destruct (join_not_ended _ N P) as (_ & J).
    replace ("/" ++ join "/" (a :: l) =? "/")%string with false by (symmetry; apply String.eqb_neq; intros X; injection X as X; contradiction).
    rewrite andb_true_r. destruct (slash_ended ("/" ++ x)).
    + exists (a :: l), true. split; [|exact S]. rewrite app_assoc_s. now constructor.
    + exists (a :: l), false. split; [|exact S]. now constructor.
Qed.
Lemma cleanPath_spec p : exists l d, canonical l d (cleanPath p) /\ simplifies (split "/" p) l.
Proof.
  destruct p as [|c p].
  - exists [], true. split; [constructor|]. cbn. apply (simp_empty [] []). constructor.
  - destruct (Ascii.eqb_spec c "/") as [->|N].
    + destruct (clean_spec p) as (l & d & C & S). exists l, d. split; [exact C|]. apply (simp_empty [] (split "/" p)). exact S.
    + rewrite cleanPath_relative by exact N. apply clean_spec.
Qed.
Lemma clean_canonical l d p : canonical l d p -> cleanPath p = p.
Proof.
  intros C. destruct C as [|l N P|l N P]; [reflexivity| |].
  - rewrite cleanPath_rooted. destruct (join_not_ended l N P) as (-> & _). cbn [andb]. rewrite Clean_rooted.
    rewrite (split_join "/" l N) by now apply proper_no_slash. now rewrite fold_same.
  - rewrite cleanPath_rooted. rewrite <- app_assoc_s, ended. rewrite app_assoc_s, Clean_rooted, split_ended.
    rewrite (split_join "/" l N) by now apply proper_no_slash. rewrite fold_left_app, (fold_same l [] P). cbn [app fold_left]. unfold join_seg. cbn [String.eqb orb].
    destruct (join_not_ended l N P) as (_ & J).
    replace ("/" ++ join "/" l =? "/")%string with false by (symmetry; apply String.eqb_neq; intros X; injection X as X; contradiction).
    cbn [andb negb]. now rewrite app_assoc_s.
Qed.
Lemma canonical_det l d l' d' p : canonical l d p -> canonical l' d' p -> l = l' /\ d = d'.
Proof.
  assert (E : forall l d p, canonical l d p -> match p with String _ x => split "/" x = (if d then match l with [] => [""] | _ => l ++ [""] end else l)%list | "" => False end).
  { clear. intros l d p C. destruct C as [|l N P|l N P]; cbn [append]; [reflexivity| |].
    - apply split_join; [exact N|now apply proper_no_slash].
    - rewrite split_ended. rewrite split_join by (auto using proper_no_slash). destruct l; [contradiction|reflexivity]. }
  assert (L : forall l d p, canonical l d p -> Forall proper_name l) by (intros ? ? ? []; auto).
  assert (B : forall l d p, canonical l d p -> l = [] -> d = true) by (intros ? ? ? []; auto; intros; contradiction).
  intros C C'. pose proof (E _ _ _ C) as H. pose proof (E _ _ _ C') as H'. pose proof (L _ _ _ C) as P. pose proof (L _ _ _ C') as P'.
  pose proof (B _ _ _ C) as D. pose proof (B _ _ _ C') as D'. clear E L B C C'.
  destruct p as [|c x]; [contradiction|]. rewrite H in H'. clear H.
  assert (Q : forall k, Forall proper_name (k ++ [""]) -> False).
  { intros k F. apply Forall_app in F as [_ F]. inversion F as [|? ? (A & _) _]; subst. congruence. }
  destruct d, d'.
  - destruct l as [|a l], l' as [|a' l']; auto.
    + destruct l'; discriminate H'. 
    + destruct l; discriminate H'.
    + apply app_inj_tail in H' as [H' _]. auto.
  - exfalso. destruct l as [|a l]; subst l'; [apply (Q []), P'|exact (Q _ P')].
  - exfalso. destruct l' as [|a l']; subst l; [apply (Q []), P|exact (Q _ P)].
  - auto.
Qed.

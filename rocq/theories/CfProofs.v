From Coq Require Import String List ZArith Bool Lia.
From Verif Require Import TrcModel RrModel RrSpec RrProofs CfModel CfSpec.
Import ListNotations.
Local Open Scope string_scope.
Local Open Scope Z_scope.

Lemma ty_ind' (P : ty -> Prop) :
  P TBool -> (forall lo hi, P (TInt lo hi)) -> P TStr -> P TDur -> P TByte ->
  (forall fs, Forall (fun f => P (snd f)) fs -> P (TStruct fs)) -> forall t, P t.
Proof.
  intros HB HI HS HD HY HF. fix IH 1. destruct t as [|lo hi| | | |fs]; [exact HB|apply HI|exact HS|exact HD|exact HY|apply HF].
  induction fs as [|[f t] fs I]; constructor; [apply IH|apply I].
Qed.
Lemma val_ind' (P : val -> Prop) :
  (forall b, P (CBool b)) -> (forall z, P (CInt z)) -> (forall s, P (CStr s)) -> (forall z, P (CDur z)) -> (forall z, P (CByte z)) ->
  (forall vs, Forall (fun f => P (snd f)) vs -> P (CStruct vs)) -> forall v, P v.
Proof.
  intros HB HI HS HD HY HF. fix IH 1. destruct v as [b|z|s|z|z|vs]; [apply HB|apply HI|apply HS|apply HD|apply HY|apply HF].
  induction vs as [|[f t] vs I]; constructor; [apply IH|apply I].
Qed.

(* ---- fields ---- *)
Lemma find_in {A} (l : list (string * A)) f a : find_field l f = Some a -> In (f, a) l.
Proof.
  induction l as [|[g b] l IH]; cbn; [intros X; discriminate X|]. destruct (String.eqb_spec g f) as [->|N]; intros X.
  - injection X as ->. now left.
  - right; auto.
Qed.
Lemma find_some {A} (l : list (string * A)) f : In f (map fst l) -> exists a, find_field l f = Some a.
Proof.
  induction l as [|[g b] l IH]; cbn; [tauto|]. destruct (String.eqb_spec g f) as [->|N]; [eauto|]. intros [X|X]; [congruence|auto].
Qed.
Lemma find_set_same l f a w : find_field l f = Some a -> find_field (set_field l f w) f = Some w.
Proof.
  induction l as [|[g b] l IH]; cbn; [intros X; discriminate X|]. destruct (String.eqb_spec g f) as [->|N]; intros X; cbn.
  - now rewrite String.eqb_refl.
  - destruct (String.eqb_spec g f); [congruence|auto].
Qed.
Lemma find_set_other l f f' w : f' <> f -> find_field (set_field l f w) f' = find_field l f'.
Proof.
  intros N. induction l as [|[g b] l IH]; cbn; [reflexivity|]. destruct (String.eqb_spec g f) as [->|M]; cbn.
  - destruct (String.eqb_spec f f'); [congruence|reflexivity].
  - destruct (String.eqb_spec g f'); [reflexivity|auto].
Qed.

(* ---- types ---- *)
Definition fields_ok := Forall2 (fun (f : string * ty) (v : string * val) => fst v = fst f /\ of_type (snd f) (snd v)).
Lemma fields_find fs vs f t : fields_ok fs vs -> find_field fs f = Some t -> exists v, find_field vs f = Some v /\ of_type t v.
Proof.
  induction 1 as [|[g t'] [g' v] fs vs [E T] _ IH]; cbn in *; [intros X; discriminate X|]. subst g'.
  destruct (String.eqb g f); [|exact IH]. intros X; injection X as <-. eauto.
Qed.
Lemma fields_find' fs vs f v : fields_ok fs vs -> find_field vs f = Some v -> exists t, find_field fs f = Some t /\ of_type t v.
Proof.
  induction 1 as [|[g t'] [g' v'] fs vs [E T] _ IH]; cbn in *; [intros X; discriminate X|]. subst g'.
  destruct (String.eqb g f); [|exact IH]. intros X; injection X as <-. eauto.
Qed.
Lemma fields_set fs vs f t w : fields_ok fs vs -> find_field fs f = Some t -> of_type t w -> fields_ok fs (set_field vs f w).
Proof.
  intros F; revert t w. induction F as [|[g t'] [g' v] fs vs [E T] F IH]; cbn in *; intros t w Ft Tw; [constructor|]. subst g'.
  destruct (String.eqb g f) eqn:Q.
  - injection Ft as <-. constructor; auto.
  - constructor; [auto|]. eapply IH; eauto.
Qed.
Lemma typed_leaf t v : of_type t v -> forall p s, setting t p s -> exists w, value_at v p = Some w /\ of_type s w.
Proof.
  intros T p s [Ts _]. revert t v T Ts. induction p as [|f p IH]; intros t v T Ts; cbn in *.
  - injection Ts as <-. exists v. destruct v; auto.
  - destruct t as [| | | | |fs]; try discriminate Ts. inversion T as [| | | | |? vs F]; subst. destruct (find_field fs f) as [t'|] eqn:Ff; [|discriminate Ts].
    destruct (fields_find _ _ _ _ F Ff) as (w & Fw & Tw). rewrite Fw. eauto.
Qed.
(* A value is what its settings are (names within a struct are distinct). *)
Inductive distinct : ty -> Prop :=
| distinct_leaf t : match t with TStruct _ => False | _ => True end -> distinct t
| distinct_struct fs : NoDup (map fst fs) -> Forall (fun f => distinct (snd f)) fs -> distinct (TStruct fs).
Fixpoint nodup (l : list string) : bool := match l with [] => true | x :: l => negb (existsb (String.eqb x) l) && nodup l end.
Lemma nodup_ok l : nodup l = true -> NoDup l.
Proof.
  induction l as [|x l IH]; cbn; [constructor|]. intros X. apply andb_prop in X as [X Y]. constructor; [|auto].
  intros I. apply negb_true_iff in X. assert (existsb (String.eqb x) l = true) by (apply existsb_exists; exists x; split; [exact I|apply String.eqb_refl]). congruence.
Qed.
Fixpoint distinctb (t : ty) : bool :=
  match t with TStruct fs => nodup (map fst fs) && (fix all (fs : list (string * ty)) := match fs with [] => true | (_, t) :: fs => distinctb t && all fs end) fs | _ => true end.
Lemma distinctb_ok t : distinctb t = true -> distinct t.
Proof.
  induction t as [|lo hi| | | |fs IH] using ty_ind'; intros X; try (constructor; exact I).
  cbn in X. apply andb_prop in X as [N X]. apply distinct_struct; [now apply nodup_ok|]. clear N.
  induction IH as [|[f t] fs H _ IH]; constructor; apply andb_prop in X as [X Y]; [apply H, X|apply IH, Y].
Qed.
Lemma find_nodup {A} (l : list (string * A)) f a : NoDup (map fst l) -> In (f, a) l -> find_field l f = Some a.
Proof.
  induction l as [|[g b] l IH]; cbn; [tauto|]. intros N [X|X]; inversion N; subst.
  - injection X as -> ->. now rewrite String.eqb_refl.
  - destruct (String.eqb_spec g f) as [->|M]; [|auto]. exfalso. apply H1. apply in_map_iff. now exists (f, a).
Qed.
Lemma extensional t : distinct t -> forall v w, of_type t v -> of_type t w ->
  (forall p s, setting t p s -> value_at v p = value_at w p) -> v = w.
Proof.
  induction t as [|lo hi| | | |fs IH] using ty_ind'; intros D v w Tv Tw E.
  1-5: specialize (E [] _ (conj eq_refl I)); cbn in E; destruct v, w; congruence.
  inversion Tv as [| | | | |? vs Fv]; subst. inversion Tw as [| | | | |? ws Fw]; subst. f_equal.
  inversion D as [? X|? N Ds]; subst; [contradiction|].
  assert (G : forall f t, In (f, t) fs -> forall v w, find_field vs f = Some v -> find_field ws f = Some w -> v = w).
  { intros f t I v w Hv Hw. rewrite Forall_forall in IH, Ds.
    destruct (fields_find _ _ f t Fv) as (v' & Hv' & Tv'); [now apply find_nodup|].
    destruct (fields_find _ _ f t Fw) as (w' & Hw' & Tw'); [now apply find_nodup|].
    rewrite Hv in Hv'; injection Hv' as <-. rewrite Hw in Hw'; injection Hw' as <-.
    apply (IH _ I (Ds _ I)); auto. intros p s [Ts L]. specialize (E (f :: p) s). cbn in E. rewrite Hv, Hw in E.
    apply E. split; [|exact L]. cbn. rewrite (find_nodup _ _ _ N I). exact Ts. }
  clear E D Ds IH Tv Tw.
  revert ws Fw G. induction Fv as [|[f t] [f1 v] fs vs [E1 T1] Fv IHv]; intros ws Fw G; inversion Fw as [|? [f2 w] ? ws' [E2 T2] Fw']; subst; [reflexivity|].
  cbn in *. subst f1 f2. inversion N; subst. f_equal.
  - f_equal. apply (G f t (or_introl eq_refl)); now rewrite String.eqb_refl.
  - apply IHv; auto. intros g t' I v' w' Hv Hw. apply (G g t' (or_intror I)).
    + destruct (String.eqb_spec f g) as [->|]; [|exact Hv]. exfalso. apply H1. apply in_map_iff. now exists (g, t').
    + destruct (String.eqb_spec f g) as [->|]; [|exact Hw]. exfalso. apply H1. apply in_map_iff. now exists (g, t').
Qed.

Section Documents.
Variable read_dur : Z -> json -> option Z.
Variable read_byte : Z -> json -> option Z.
Variable equal_fold : string -> string -> bool.
Notation decode := (decode read_dur read_byte equal_fold).
Notation put := (put read_dur read_byte).
Notation names := (names equal_fold).
Notation field_of := (RrModel.field_of equal_fold).

(* ---- names ---- *)
Lemma find_first {A} (q : A -> bool) l a : find q l = Some a <-> exists l1 l2, l = (l1 ++ a :: l2)%list /\ q a = true /\ forall b, In b l1 -> q b = false.
Proof.
  split.
  - induction l as [|b l IH]; cbn; [intros X; discriminate X|]. destruct (q b) eqn:Q; intros X.
    + injection X as ->. exists [], l. cbn. repeat split; auto. tauto.
    + destruct (IH X) as (l1 & l2 & -> & Qa & B). exists (b :: l1), l2. repeat split; auto. intros c [<-|I]; auto.
  - intros (l1 & l2 & -> & Qa & B). induction l1 as [|b l1 IH]; cbn; [now rewrite Qa|]. rewrite (B b); [|now left]. apply IH. intros c I; apply B; now right.
Qed.
Lemma find_none {A} (q : A -> bool) l : find q l = None <-> forall b, In b l -> q b = false.
Proof.
  split; [apply find_none|]. induction l as [|b l IH]; cbn; [auto|]. intros B. rewrite (B b); auto.
Qed.
Lemma names_field fs k f : names fs k f <-> field_of (map fst fs) k = Some f.
Proof.
  unfold CfSpec.names, RrModel.field_of. split.
  - intros (I & C). destruct C as [->|(N & C)].
    + destruct (find (fun g => (g =? f)%string) (map fst fs)) as [g|] eqn:F.
      * apply find_first in F as (_ & _ & _ & Q & _). apply String.eqb_eq in Q. now subst.
      * apply find_none with (b := f) in F; [|exact I]. now rewrite String.eqb_refl in F.
    + replace (find (fun g => (g =? k)%string) (map fst fs)) with (@None string).
      * apply find_first. destruct C as (l1 & l2 & C). eauto.
      * symmetry. apply find_none. intros g Ig. destruct (String.eqb_spec g k) as [->|]; [contradiction|reflexivity].
  - destruct (find (fun g => (g =? k)%string) (map fst fs)) as [g|] eqn:F; intros X.
    + injection X as ->. apply find_first in F as (l1 & l2 & E & Q & _). apply String.eqb_eq in Q. subst f. rewrite E. split; [|now left].
      apply in_or_app. right. now left.
    + apply find_first in X as (l1 & l2 & E & Q & B). split.
      * rewrite E. apply in_or_app. right. now left.
      * right. split; [|exists l1, l2; auto]. intros Ik. apply find_none with (b := k) in F; [|exact Ik]. now rewrite String.eqb_refl in F.
Qed.

(* ---- decoding a struct ---- *)
Fixpoint members (fs : list (string * ty)) (vs : list (string * val)) (l : list (string * json)) : option val :=
  match l with
  | [] => Some (CStruct vs)
  | (k, j') :: l' =>
      match field_of (map fst fs) k with
      | None => members fs vs l'
      | Some f =>
          match find_field fs f, find_field vs f with
          | Some t', Some v' => match decode t' v' j' with Some w => members fs (set_field vs f w) l' | None => None end
          | _, _ => None
          end
      end
  end.
Lemma decode_obj fs vs l : decode (TStruct fs) (CStruct vs) (JObj l) = members fs vs l.
Proof.
  revert vs. induction l as [|[k j] l IH]; intros vs; cbn; [reflexivity|].
  destruct (field_of (map fst fs) k) as [f|]; [|apply IH].
  destruct (find_field fs f) as [t|]; [|reflexivity]. destruct (find_field vs f) as [v|]; [|reflexivity].
  destruct (decode t v j) as [w|]; [|reflexivity]. apply IH.
Qed.
Lemma decode_leaf t v j : match t with TStruct _ => False | _ => True end -> decode t v j = put t v j.
Proof. destruct t; cbn; intros X; try contradiction; destruct j; reflexivity. Qed.

Fixpoint mentions (t : ty) (j : json) (p : list string) {struct p} : list json :=
  match p with
  | [] => [j]
  | f :: p' =>
      match t, j with
      | TStruct fs, JObj l =>
          flat_map (fun kj => if is_for equal_fold (map fst fs) (fst kj) f then match find_field fs f with Some t' => mentions t' (snd kj) p' | None => [] end else []) l
      | _, _ => []
      end
  end.
Lemma is_for_names fs k f : is_for equal_fold (map fst fs) k f = true <-> names fs k f.
Proof.
  rewrite names_field. unfold is_for. destruct (field_of (map fst fs) k) as [g|]; [|split; intros X; discriminate X].
  rewrite String.eqb_eq. split; congruence.
Qed.
Lemma says_mentions t j p js : says equal_fold t j p js -> js = mentions t j p.
Proof.
  induction 1 as [t j|t f p|t f p|fs t k f j l p js js' N F _ IH _ IH'|fs k f j l p js' N _ IH]; cbn; try reflexivity.
  - destruct t; reflexivity.
  - destruct t; reflexivity.
  - apply is_for_names in N. cbn in IH'. rewrite N. rewrite F in *. rewrite <- IH, <- IH'. reflexivity.
  - destruct (is_for equal_fold (map fst fs) k f) eqn:Q; [apply is_for_names in Q; contradiction|]. exact IH.
Qed.
(* Whatever a document that fits says about a setting can be listed. *)
Lemma mentions_says p : forall t j s, type_at t p = Some s -> (forall fs, t = TStruct fs -> j = JNull \/ exists l, j = JObj l) ->
  fits read_dur read_byte equal_fold t j -> says equal_fold t j p (mentions t j p).
Proof.
  induction p as [|f p IH]; intros t j s Ts Sh Fi; [constructor|].
  cbn in Ts. destruct t as [| | | | |fs]; try discriminate Ts. destruct (find_field fs f) as [t|] eqn:Ff; [|discriminate Ts].
  destruct (Sh fs eq_refl) as [->|[l ->]]; [constructor|]. clear Sh. cbn [mentions]. rewrite Ff.
  inversion Fi as [? X| | | | | | |? ? X]; subst. clear Fi. induction l as [|[k j] l IHl]; [constructor|].
  cbn [flat_map fst snd].
  assert (IHl' : says equal_fold (TStruct fs) (JObj l) (f :: p) (flat_map (fun kj => if is_for equal_fold (map fst fs) (fst kj) f then mentions t (snd kj) p else []) l)).
  { apply IHl. intros k' j' f' t' I'. apply X. now right. }
  destruct (is_for equal_fold (map fst fs) k f) eqn:Q.
  - apply is_for_names in Q. apply (says_more _ fs t); auto. eapply IH; eauto.
    + intros gs ->. specialize (X k j f _ (or_introl eq_refl) Q Ff). inversion X as [? Y| | | | | |?|? l' ?]; subst; [contradiction|now left|right; eauto].
    + exact (X k j f t (or_introl eq_refl) Q Ff).
  - apply says_other; [|exact IHl']. intros Y. apply is_for_names in Y. congruence.
Qed.

(* ---- one setting ---- *)
Fixpoint puts (t : ty) (v : val) (js : list json) : option val :=
  match js with [] => Some v | j :: js => match put t v j with Some v => puts t v js | None => None end end.
Lemma puts_app t v js js' : puts t v (js ++ js') = match puts t v js with Some v => puts t v js' | None => None end.
Proof. revert v. induction js as [|j js IH]; intros v; cbn; [reflexivity|]. destruct (put t v j); [apply IH|reflexivity]. Qed.

Lemma puts_one t v j w : put t v j = Some w -> puts t v [j] = Some w.
Proof. intros E. cbn [puts]. now rewrite E. Qed.
Definition in_range (read : Z -> json -> option Z) : Prop := forall z j z', read z j = Some z' -> int64 z'.
Hypothesis dur_range : in_range read_dur.
Hypothesis byte_range : in_range read_byte.
Lemma put_typed t v j w : match t with TStruct _ => False | _ => True end -> of_type t v -> put t v j = Some w -> of_type t w.
Proof.
  intros L T. destruct T as [b|lo hi z R|s|z R|z R|fs vs F]; cbn; try contradiction.
  - destruct j; intros X; try discriminate X; injection X as <-; constructor.
  - destruct j; intros X; try discriminate X; [injection X as <-; now constructor|].
    destruct ((lo <=? z0) && (z0 <=? hi)) eqn:Q; [|discriminate X]. injection X as <-. constructor. apply andb_prop in Q as [Q1 Q2]. lia.
  - destruct j; intros X; try discriminate X; injection X as <-; constructor.
  - destruct (read_dur z j) as [z'|] eqn:Q; cbn; intros X; [|discriminate X]. injection X as <-. constructor. eapply dur_range; eauto.
  - destruct (read_byte z j) as [z'|] eqn:Q; cbn; intros X; [|discriminate X]. injection X as <-. constructor. eapply byte_range; eauto.
Qed.
Theorem decode_spec t : forall old j v, of_type t old -> decode t old j = Some v ->
  of_type t v /\ forall p s, setting t p s -> exists v0 w, value_at old p = Some v0 /\ value_at v p = Some w /\ puts s v0 (mentions t j p) = Some w.
Proof.
  induction t as [|lo hi| | | |fs IH] using ty_ind'; intros old j v T D.
  1-5: rewrite decode_leaf in D by exact I; split; [eapply put_typed; eauto; exact I|];
       intros [|f p] s [Ts L]; cbn in Ts; [|discriminate Ts]; injection Ts as <-; exists old, v; split; [now destruct old|split; [now destruct v|exact (puts_one _ _ _ _ D)]].
  inversion T as [| | | | |? vs F]; subst. destruct j as [| | | | | |l]; try discriminate D.
  - cbn in D. injection D as <-. split; [exact T|]. intros p s S. destruct (typed_leaf _ _ T p s S) as (w & V & _). exists w, w.
    split; [exact V|]. split; [exact V|]. destruct S as [Ts L]. destruct p as [|f p]; [cbn in Ts; injection Ts as <-; contradiction|]. reflexivity.
  - rewrite decode_obj in D. rewrite Forall_forall in IH. clear T.
    revert vs F D. induction l as [|[k j] l IHl]; intros vs F D; cbn in D.
    + injection D as <-. split; [now constructor|]. intros p s S. destruct (typed_leaf _ _ (of_struct _ _ F) p s S) as (w & V & _). exists w, w.
      split; [exact V|]. split; [exact V|]. destruct S as [Ts L]. destruct p as [|f p]; [cbn in Ts; injection Ts as <-; contradiction|]. reflexivity.
    + destruct (field_of (map fst fs) k) as [f|] eqn:Fo.
      * destruct (find_field fs f) as [t|] eqn:Ff; [|discriminate D]. destruct (find_field vs f) as [v'|] eqn:Fv; [|discriminate D].
        destruct (decode t v' j) as [w|] eqn:Dw; [|discriminate D].
        destruct (fields_find _ _ _ _ F Ff) as (v'' & Fv'' & T'). rewrite Fv in Fv''; injection Fv'' as <-.
        destruct (IH _ (find_in _ _ _ Ff) v' j w T' Dw) as (Tw & Pw). cbn [snd] in Tw, Pw.
        destruct (IHl _ (fields_set _ _ _ _ _ F Ff Tw) D) as (Tv & Pv). split; [exact Tv|].
        intros p s S. destruct (Pv p s S) as (v1 & w1 & V1 & W1 & U1). destruct S as [Ts L].
        destruct p as [|f' p]; [cbn in Ts; injection Ts as <-; contradiction|].
        cbn [mentions flat_map fst snd]. unfold is_for. rewrite Fo. cbn in Ts. destruct (String.eqb_spec f f') as [<-|N].
        { rewrite Ff in *. destruct (Pw p s (conj Ts L)) as (v2 & w2 & V2 & W2 & U2).
          cbn in V1. rewrite (find_set_same _ _ _ _ Fv) in V1. rewrite W2 in V1. injection V1 as <-.
          exists v2, w1. cbn. rewrite Fv. split; [exact V2|]. split; [exact W1|]. rewrite puts_app, U2. cbn in U1. rewrite Ff in U1. exact U1. }
        exists v1, w1. cbn in V1 |- *. rewrite find_set_other in V1 by congruence. split; [exact V1|]. split; [exact W1|]. cbn in U1. exact U1.
      * destruct (IHl _ F D) as (Tv & Pv). split; [exact Tv|]. intros p s S. destruct (Pv p s S) as (v1 & w1 & V1 & W1 & U1).
        exists v1, w1. split; [exact V1|]. split; [exact W1|]. destruct S as [Ts L]. destruct p as [|f' p]; [cbn in Ts; injection Ts as <-; contradiction|].
        cbn [mentions flat_map fst snd]. unfold is_for at 1. rewrite Fo. exact U1.
Qed.

(* ---- acceptance ---- *)
Definition independent (read : Z -> json -> option Z) : Prop := forall z z' j, read z j = None -> read z' j = None.
Hypothesis dur_independent : independent read_dur.
Hypothesis byte_independent : independent read_byte.
Notation fits := (fits read_dur read_byte equal_fold).
Lemma put_fits t v j : match t with TStruct _ => False | _ => True end -> of_type t v -> (put t v j <> None <-> fits t j).
Proof.
  intros L T. destruct T as [b|lo hi z R|s|z R|z R|fs vs F]; cbn; try contradiction.
  - destruct j; split; intros X; try congruence; try (inversion X; fail); try (constructor; exact I).
  - destruct j; split; intros X; try congruence; try (inversion X; fail); try (constructor; exact I).
    + destruct ((lo <=? z0) && (z0 <=? hi)) eqn:Q; [|congruence]. apply andb_prop in Q as [Q1 Q2]. constructor; lia.
    + inversion X as [| |? ? ? B| | | | |]; subst. replace (lo <=? z0) with true by (symmetry; apply Z.leb_le; lia).
      replace (z0 <=? hi) with true by (symmetry; apply Z.leb_le; lia). cbn. congruence.
  - destruct j; split; intros X; try congruence; try (inversion X; fail); try (constructor; exact I).
  - destruct (read_dur z j) as [z'|] eqn:Q; cbn; split; intros X; try congruence.
    + constructor. intros Y. apply (dur_independent _ z) in Y. congruence.
    + inversion X as [? B| | | |? B| | |]; subst; [contradiction|]. exfalso. apply B. now apply (dur_independent z).
  - destruct (read_byte z j) as [z'|] eqn:Q; cbn; split; intros X; try congruence.
    + constructor. intros Y. apply (byte_independent _ z) in Y. congruence.
    + inversion X as [? B| | | | |? B| |]; subst; [contradiction|]. exfalso. apply B. now apply (byte_independent z).
Qed.
Theorem decode_fits t : forall old j, of_type t old -> (decode t old j <> None <-> fits t j).
Proof.
  induction t as [|lo hi| | | |fs IH] using ty_ind'; intros old j T.
  1-5: rewrite decode_leaf by exact I; apply put_fits; [exact I|exact T].
  inversion T as [| | | | |? vs F]; subst. clear T.
  destruct j as [| | | | | |l].
  2-6: cbn; split; intros X; [congruence|inversion X as [? B| | | | | | |]; subst; contradiction].
  { cbn. split; [intros _; apply fits_nothing|congruence]. }
  rewrite decode_obj. rewrite Forall_forall in IH. revert vs F. induction l as [|[k j] l IHl]; intros vs F; cbn.
  - split; [intros _; constructor; cbn; tauto|congruence].
  - destruct (field_of (map fst fs) k) as [f|] eqn:Fo.
    + assert (N : names fs k f) by now apply names_field.
      destruct (find_some fs f) as (t & Ff); [apply N|]. rewrite Ff. destruct (fields_find _ _ _ _ F Ff) as (v' & Fv & T'). rewrite Fv.
      specialize (IH _ (find_in _ _ _ Ff) v' j T'). cbn in IH. destruct (decode t v' j) as [w|] eqn:Dw.
      * destruct (decode_spec t v' j w T' Dw) as (Tw & _). rewrite (IHl _ (fields_set _ _ _ _ _ F Ff Tw)). split; intros X.
        { constructor. intros k' j' f' t' [E|Ij] N' Ff'.
          - injection E as <- <-. apply names_field in N'. rewrite Fo in N'. injection N' as <-. rewrite Ff in Ff'. injection Ff' as <-. apply IH. congruence.
          - inversion X as [? B| | | | | | |? ? B]; subst. eapply B; eauto. }
        { inversion X as [? B| | | | | | |? ? B]; subst. constructor. intros k' j' f' t' Ij. apply B. now right. }
      * split; intros X; [congruence|]. inversion X as [? B| | | | | | |? ? B]; subst. apply IH. exact (B k j f t (or_introl eq_refl) N Ff).
    + rewrite (IHl _ F). split; intros X; inversion X as [? B| | | | | | |? ? B]; subst; constructor; intros k' j' f' t' Ij N' Ff'.
      * destruct Ij as [E|Ij]; [|eapply B; eauto]. injection E as <- <-. apply names_field in N'. congruence.
      * eapply B; eauto. now right.
Qed.

(* ---- reading one setting ---- *)
Lemma puts_plain t v js w : plain t -> of_type t v -> puts t v js = Some w -> ends_as v js w.
Proof.
  intros P T. revert v T w. induction js as [|j js IH]; intros v T w; cbn.
  - intros X; injection X as <-. apply ends_unsaid. cbn. tauto.
  - destruct (put t v j) as [v'|] eqn:U; [|intros X; discriminate X]. intros X.
    assert (L : match t with TStruct _ => False | _ => True end) by (destruct t; auto).
    pose proof (put_typed t v j v' L T U) as T'. specialize (IH v' T' w X).
    assert (M : j = JNull /\ v' = v \/ meaning j = Some v').
    { destruct T; cbn in P; try contradiction; cbn in U; destruct j; try discriminate U; try (left; split; [reflexivity|congruence]); right; cbn; try congruence.
      destruct ((lo <=? z0) && (z0 <=? hi)); congruence. }
    inversion IH as [js1 A|js1 j1 js2 v1 M1 A]; subst.
    + destruct M as [[-> ->]|M]; [apply ends_unsaid; intros j' [<-|I']; auto|]. apply (ends_said v [] j js w); auto.
    + apply (ends_said v (j :: js1) j1 js2 w); auto.
Qed.
Lemma puts_dur z js w : puts TDur (CDur z) js = Some w -> exists z', w = CDur z' /\ read_all read_dur z js = Some z'.
Proof.
  revert z. induction js as [|j js IH]; intros z; cbn; [intros X; injection X as <-; eauto|].
  destruct (read_dur z j) as [z1|]; cbn; [apply IH|intros X; discriminate X].
Qed.
Lemma puts_byte z js w : puts TByte (CByte z) js = Some w -> exists z', w = CByte z' /\ read_all read_byte z js = Some z'.
Proof.
  revert z. induction js as [|j js IH]; intros z; cbn; [intros X; injection X as <-; eauto|].
  destruct (read_byte z j) as [z1|]; cbn; [apply IH|intros X; discriminate X].
Qed.

(* ---- writing ---- *)
Variable show_dur : Z -> json.
Variable show_byte : Z -> json.
Notation encode := (encode show_dur show_byte).
Fixpoint enc_fields (vs : list (string * val)) : list (string * json) := match vs with [] => [] | (f, v) :: vs => (f, encode v) :: enc_fields vs end.
Lemma encode_struct vs : encode (CStruct vs) = JObj (enc_fields vs).
Proof. reflexivity. Qed.
Hypothesis dur_round : bytes_round_trip show_dur read_dur.
Hypothesis byte_round : bytes_round_trip show_byte read_byte.
Lemma set_app (l1 l2 : list (string * val)) f a w : ~ In f (map fst l1) -> set_field (l1 ++ (f, a) :: l2) f w = (l1 ++ (f, w) :: l2)%list.
Proof.
  induction l1 as [|[g b] l1 IH]; cbn; intros N; [now rewrite String.eqb_refl|].
  destruct (String.eqb_spec g f) as [->|]; [exfalso; auto|]. rewrite IH; auto.
Qed.
Lemma find_app (l1 : list (string * val)) l2 f a : ~ In f (map fst l1) -> find_field (l1 ++ (f, a) :: l2) f = Some a.
Proof.
  induction l1 as [|[g b] l1 IH]; cbn; intros N; [now rewrite String.eqb_refl|].
  destruct (String.eqb_spec g f) as [->|]; [exfalso; auto|]. rewrite IH; auto.
Qed.
Lemma fields_names fs vs : fields_ok fs vs -> map fst vs = map fst fs.
Proof. induction 1 as [|f v fs vs [E _] _ IH]; cbn; congruence. Qed.
Theorem round_trip t : distinct t -> forall old v, of_type t old -> of_type t v -> text_ok v -> decode t old (encode v) = Some v.
Proof.
  induction t as [|lo hi| | | |fs IH] using ty_ind'; intros D old v To Tv X.
  - inversion Tv; subst. rewrite decode_leaf by exact I. inversion To; subst. reflexivity.
  - inversion Tv as [|? ? z R| | | |]; subst. rewrite decode_leaf by exact I. inversion To; subst. cbn.
    replace (lo <=? z) with true by (symmetry; apply Z.leb_le; lia). replace (z <=? hi) with true by (symmetry; apply Z.leb_le; lia). reflexivity.
  - inversion Tv; subst. rewrite decode_leaf by exact I. inversion To; subst. inversion X; subst. cbn. now rewrite clean_valid.
  - inversion Tv; subst. rewrite decode_leaf by exact I. inversion To; subst. cbn. now rewrite dur_round.
  - inversion Tv; subst. rewrite decode_leaf by exact I. inversion To; subst. cbn. now rewrite byte_round.
  - inversion Tv as [| | | | |? vs Fv]; subst. inversion To as [| | | | |? os Fo]; subst. rewrite encode_struct, decode_obj.
    inversion D as [? B|? N Ds]; subst; [contradiction|]. inversion X as [| | | | |? Xs]; subst. clear D To Tv X.
    assert (G : forall done vs os, fields_ok fs (done ++ vs) -> fields_ok fs (done ++ os) -> Forall (fun v => text_ok (snd v)) vs ->
              members fs (done ++ os) (enc_fields vs) = Some (CStruct (done ++ vs))).
    { clear vs os Fv Fo Xs. intros done vs; revert done. induction vs as [|[f v] vs IHv]; intros done os Fv Fo Xs.
      - pose proof (fields_names _ _ Fv) as E1. pose proof (fields_names _ _ Fo) as E2.
        rewrite app_nil_r in E1. rewrite map_app, <- E1 in E2. rewrite <- (app_nil_r (map fst done)) in E2 at 2. apply app_inv_head in E2. destruct os; [reflexivity|discriminate E2].
      - cbn [enc_fields members].
        pose proof (fields_names _ _ Fv) as E1. pose proof (fields_names _ _ Fo) as E2. rewrite map_app in E1, E2. rewrite <- E1 in E2. apply app_inv_head in E2.
        destruct os as [|[f' o] os]; [discriminate E2|]. cbn in E2. injection E2 as -> E2.
        assert (Nf : ~ In f (map fst done)).
        { rewrite <- E1 in N. cbn in N. apply NoDup_remove_2 in N. rewrite in_app_iff in N. tauto. }
        assert (If : In f (map fst fs)) by (rewrite <- E1; apply in_or_app; right; now left).
        replace (field_of (map fst fs) f) with (Some f) by (symmetry; apply names_field; split; [exact If|now left]).
        destruct (find_some fs f If) as (t & Ff). rewrite Ff, (find_app _ _ _ _ Nf).
        destruct (fields_find _ _ _ _ Fv Ff) as (v' & Hv & Tv). rewrite (find_app _ _ _ _ Nf) in Hv. injection Hv as <-.
        destruct (fields_find _ _ _ _ Fo Ff) as (o' & Ho & To). rewrite (find_app _ _ _ _ Nf) in Ho. injection Ho as <-.
        inversion Xs; subst. rewrite Forall_forall in IH, Ds. pose proof (find_in _ _ _ Ff) as It.
        pose proof (IH _ It (Ds _ It) o v To Tv H1) as R. cbn [snd] in R. rewrite R.
        rewrite set_app by exact Nf.
        change ((f, v) :: os)%list with ([(f, v)] ++ os)%list. change ((f, v) :: vs)%list with ([(f, v)] ++ vs)%list. rewrite !app_assoc. apply IHv.
        + rewrite <- app_assoc. exact Fv.
        + rewrite <- app_assoc. cbn [app]. rewrite <- (set_app done os f o v Nf). eapply fields_set; eauto.
        + assumption. }
    apply (G [] vs os Fv Fo Xs).
Qed.
End Documents.

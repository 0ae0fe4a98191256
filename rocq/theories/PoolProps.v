(* C32: inputs do not get in each other's way. *)
From Coq Require Import String Ascii List Bool ZArith Lia Permutation.
From Verif Require Import GoStr InModel InSpec InProofs InRunnerProofs InReload InGraderProofs PoolModel.
Import ListNotations.
Local Open Scope string_scope.
Local Open Scope list_scope.

(* The files of the input stored at p. *)
Definition area (p q : path) : Prop := below p q \/ below (with_ext p ".tmp") q \/ below (with_ext p ".sha1") q.
(* Its sources have no name that climbs. *)
Definition inside_source (s : source) : Prop :=
  match s with
  | FromStream _ _ es _ _ => forall e, In e es -> inside (name_of e)
  | Cached => True
  | InMemory files => forall x, In x files -> inside (fst x)
  end.

(* ---- What a program may touch ---- *)
Definition allowed (p : path) (o : op) : Prop :=
  match o with
  | MkdirAll q => area p q \/ below q p
  | Create q | Append q _ | Remove q | RemoveAll q => area p q
  | Rename q r => area p q /\ area p r
  end.
Fixpoint confined (p : path) (g : prog) : Prop :=
  match g with
  | Ret _ => True
  | Do o k => allowed p o /\ confined p (k true) /\ confined p (k false)
  | Look k => forall f, confined p (k f)
  end.
Lemma below_app p q r : below p q -> below p (q ++ r).
Proof. intros (z & ->). exists (z ++ r). rewrite app_assoc. auto. Qed.
Lemma area_app p q r : area p q -> area p (q ++ r).
Proof. intros [H|[H|H]]; [left|right; left|right; right]; apply below_app; auto. Qed.
Lemma below_cases p q r : p <> [] -> q <> [] -> below p r -> below q r -> below p q \/ below q p.
Proof.
  intros _ _ (x & ->) (y & E). revert q y E. induction p as [|a p IH]; intros q y E; [left; exists q; auto|].
  destruct q as [|b q]; [right; exists (a :: p); auto|]. cbn in E. injection E as <- E. destruct (IH _ _ E) as [(z & ->)|(z & ->)]; [left|right]; exists z; auto.
Qed.
Lemma ext_below d n x q : below q (d ++ [x]) -> q <> d ++ [x] -> below q (d ++ [n]).
Proof.
  intros (z & E) NE. destruct (exists_last (l := z)) as (z' & y & ->).
  - intros ->. apply NE. rewrite E, app_nil_r. auto.
  - rewrite app_assoc in E. apply app_inj_tail in E. destruct E as [-> _]. exists (z' ++ [n]). rewrite app_assoc. auto.
Qed.
(* A change is in the area or makes a directory above it. *)
Lemma apply_frame d n o f f' q : allowed (d ++ [n]) o -> apply o f = Some f' -> ~ area (d ++ [n]) q -> ~ below q (d ++ [n]) -> f' q = f q.
Proof.
  intros HA HE H1 H2. destruct o as [p|p|p c|p|p|p r]; cbn [allowed] in HA; cbn [apply] in HE.
  - fold (apply (MkdirAll p) f) in HE. apply mkdir_spec in HE. destruct HE as (_ & HE & _). apply HE. intros (z & ->).
    destruct HA as [HA|HA].
    + apply H2. unfold area in *. rewrite !with_ext_snoc in *.
      assert (X : forall x, below (d ++ [x]) (q ++ z) -> ~ below (d ++ [x]) q -> below q (d ++ [n])).
      { intros x (y & E) NB. assert (B : below q (d ++ [x]) \/ below (d ++ [x]) q).
        { clear - E. revert q z E. generalize (d ++ [x]). intros l. induction l as [|a l IH]; intros q z E; [right; exists q; auto|]. destruct q as [|b q]; [left; exists (a :: l); auto|].
          cbn in E. injection E as <- E. destruct (IH _ _ E) as [(w & ->)|(w & ->)]; [left|right]; exists w; auto. }
        destruct B as [B|B]; [|contradiction]. apply (ext_below d n x); auto. intros ->. apply NB. exists []. rewrite app_nil_r. auto. }
      destruct HA as [HA|[HA|HA]]; eapply X; eauto.
    + apply H2. destruct HA as (y & ->). exists (z ++ y). rewrite app_assoc. auto.
  - destruct (_ && _); [|discriminate]. injection HE as <-. apply set_other. intros ->. auto.
  - destruct (f p) as [[|]|]; try discriminate. injection HE as <-. apply set_other. intros ->. auto.
  - destruct (f p) as [[|]|]; try discriminate. injection HE as <-. apply set_other. intros ->. auto.
  - injection HE as <-. destruct (strip p q) as [r|] eqn:E; [|auto]. apply strip_spec in E. subst q. elim H1. apply area_app. auto.
  - destruct HA as [A1 A2]. destruct (f p) as [[c|]|]; try discriminate.
    + destruct (_ && _); [|discriminate]. injection HE as <-. rewrite !set_other; auto; intros ->; auto.
    + destruct (_ && _); [|discriminate]. injection HE as <-. destruct (strip r q) as [t|] eqn:E.
      * apply strip_spec in E. subst q. elim H1. apply area_app. auto.
      * destruct (strip p q) as [t|] eqn:E2; [|auto]. apply strip_spec in E2. subst q. elim H1. apply area_app. auto.
Qed.
Lemma step_frame d n p f p' f' q : confined (d ++ [n]) p -> op_step p f p' f' -> confined (d ++ [n]) p' /\ (~ area (d ++ [n]) q -> ~ below q (d ++ [n]) -> f' q = f q).
Proof.
  intros HC HS. destruct HS as [k f|o k f f' E|o k f]; cbn in HC.
  - split; auto.
  - split; [tauto|]. intros. eapply apply_frame; [exact (proj1 HC)|exact E|assumption|assumption].
  - split; [tauto|auto].
Qed.

Lemma area_self d n e r : e = "" \/ e = ".tmp" \/ e = ".sha1" -> area (d ++ [n]) (d ++ [(n ++ e)%string] ++ r).
Proof.
  unfold area. rewrite !with_ext_snoc. intros [-> |[-> | ->]]; [left|right; left|right; right]; exists r; rewrite ?append_nil_r, <- app_assoc; auto.
Qed.
Lemma write_confined p q s ok fail : area p q -> confined p ok -> confined p fail -> confined p (write q s ok fail).
Proof. intros A B C. induction s as [|c s IH]; cbn [write confined]; auto. Qed.
Lemma removelast_allowed d n x r : (x = n \/ x = (n ++ ".tmp")%string) -> allowed (d ++ [n]) (MkdirAll (removelast (d ++ [x] ++ r))).
Proof.
  intros HX. cbn [allowed]. destruct (exists_last (l := [x] ++ r)) as (r' & y & E); [discriminate|]. rewrite E, app_assoc, removelast_last.
  destruct r' as [|z r']; [right; exists [n]; rewrite app_nil_r; auto|]. left. cbn in E. injection E as <- E.
  destruct HX as [-> | ->].
  - assert (X := area_self d n "" r' (or_introl eq_refl)). rewrite append_nil_r in X. exact X.
  - change ((n ++ ".tmp")%string :: r') with ([(n ++ ".tmp")%string] ++ r'). apply area_self. auto.
Qed.
Section Confined.
Variable digest : string -> string.
Variable settings_ok : string -> bool.
Variable d : path.
Variable n : string.
Notation p := (d ++ [n]).
Lemma area_p r : area p (p ++ r). Proof. left. exists r. auto. Qed.
Lemma area_p0 : area p p. Proof. left. exists []. rewrite app_nil_r. auto. Qed.
Lemma area_tmp r : area p (with_ext p ".tmp" ++ r). Proof. right. left. exists r. auto. Qed.
Lemma area_tmp0 : area p (with_ext p ".tmp"). Proof. right. left. exists []. rewrite app_nil_r. auto. Qed.
Lemma area_sha : area p (with_ext p ".sha1"). Proof. right. right. exists []. rewrite app_nil_r. auto. Qed.
Lemma extract_confined ok fail : confined p fail -> (forall z, confined p (ok z)) ->
  forall es size, (forall e, In e es -> inside (name_of e)) -> confined p (extract digest p es size ok fail).
Proof.
  intros HF HO. induction es as [|e es IH]; intros size HI; [cbn; auto|].
  assert (HE : inside (name_of e)) by (apply HI; left; auto). assert (HI' : forall e, In e es -> inside (name_of e)) by (intros; apply HI; right; auto).
  destruct e as [name|name c]; cbn [extract name_of] in *; rewrite (path_join_inside _ _ HE).
  - cbn [confined]. split; [left; apply area_tmp|]. auto.
  - cbn [confined negb]. split; [rewrite with_ext_snoc, <- app_assoc; apply removelast_allowed; auto|]. split; [|auto]. split; [apply area_tmp|]. split; [|auto].
    apply write_confined; [apply area_tmp| |auto]. apply write_confined; [apply area_sha| |auto]. apply IH. auto.
Qed.
Lemma persist_confined stream readable es clean h : (forall e, In e es -> inside (name_of e)) -> confined p (persist_tar digest settings_ok p stream readable es clean h).
Proof.
  intros HI. unfold persist_tar. cbn [confined negb]. split; [left; apply area_tmp0|]. split; [|cbn; auto].
  assert (HF : forall r, confined p (Do (RemoveAll (with_ext p ".tmp")) (fun _ => Ret r))) by (intros; cbn; split; [apply area_tmp0|auto]).
  destruct readable; cbn [negb]; [|apply (HF Err)]. cbn [confined negb]. split; [apply area_sha|]. split; [|apply (HF Err)].
  apply extract_confined; [apply (HF Err)| |auto]. intros z. destruct clean; cbn [negb]; [|apply (HF Err)]. destruct (h =? digest stream); cbn [negb]; [|apply (HF Err)].
  cbn [confined]. intros f. destruct (f _) as [[c|]|]; try apply (HF Err). destruct (settings_ok c); [|apply (HF Err)]. cbn [confined negb].
  split; [split; [apply area_tmp0|apply area_p0]|]. split; [|apply (HF Err)]. apply (HF Err).
Qed.
Lemma delete_confined k : confined p k -> confined p (runner_Delete p k).
Proof. intros H. unfold runner_Delete. cbn. assert (A := area_tmp0). assert (B := area_sha). assert (C := area_p0). tauto. Qed.
Lemma files_confined : forall fs size, (forall x, In x fs -> inside (fst x)) -> confined p (persist_files digest p fs size).
Proof.
  induction fs as [|[name c] fs IH]; intros size HI; [cbn; auto|]. cbn [persist_files].
  assert (HE : inside name) by (apply (HI (name, c)); left; auto). rewrite (path_join_inside _ _ HE). cbn [confined negb].
  split; [rewrite <- app_assoc; apply removelast_allowed; auto|]. split; [|cbn; auto]. split; [apply area_p|]. split; [|cbn; auto].
  apply write_confined; [apply area_p| |cbn; auto]. apply write_confined; [apply area_sha| |cbn; auto]. apply IH. intros; apply HI; right; auto.
Qed.
Lemma source_confined s : inside_source s -> confined p (source_add digest settings_ok p s).
Proof.
  destruct s as [stream readable es clean h| |fs]; cbn [inside_source source_add]; intros H.
  - unfold runner_add, add. cbn [confined]. intros f. destruct (runner_Verify _ _ _ _); [cbn; auto|]. apply delete_confined, persist_confined. auto.
  - unfold cached_add, add. cbn [confined]. intros f. destruct (runner_Verify _ _ _ _); [cbn; auto|]. apply delete_confined. cbn. auto.
  - unfold literal_runner_add, add. cbn [confined]. intros _. apply delete_confined. unfold literal_runner_Persist. cbn [confined negb].
    split; [rewrite removelast_last; right; exists [n]; auto|]. split; [|cbn; auto]. split; [apply area_sha|]. split; [|cbn; auto]. apply files_confined. auto.
Qed.
End Confined.

(* ---- Different inputs, different files ---- *)
Lemma append_len a b c d : String.length a = String.length b -> (a ++ c)%string = (b ++ d)%string -> a = b.
Proof. revert b. induction a as [|x a IH]; intros [|y b] L E; cbn in *; try discriminate; auto. injection L as L. injection E as -> E. f_equal. eapply IH; eauto. Qed.
Lemma input_path_split root h : 2 <= String.length h -> exists a n, input_path root h = (root ++ [a]) ++ [n] /\ h = (a ++ n)%string /\ String.length a = 2.
Proof.
  intros H. destruct h as [|c1 [|c2 r]]; cbn in H; try lia. exists (String c1 (String c2 "")), r. cbn. rewrite <- app_assoc. auto.
Qed.
Lemma area_disjoint root h h' q : 2 <= String.length h -> String.length h = String.length h' -> area (input_path root h) q -> area (input_path root h') q -> h = h'.
Proof.
  intros L E A B. destruct (input_path_split root h) as (a & n & E1 & -> & La); [auto|]. destruct (input_path_split root h') as (a' & n' & E2 & -> & La'); [lia|]. rewrite E1 in A. rewrite E2 in B. clear E1 E2 L.
  assert (SL : forall x y, String.length (x ++ y) = String.length x + String.length y) by (induction x; cbn; intros; auto).
  rewrite !SL in E. assert (Ln : String.length n = String.length n') by lia.
  assert (X : forall a n, area ((root ++ [a]) ++ [n]) q -> exists e r, q = root ++ a :: (n ++ e)%string :: r).
  { clear. intros a n. unfold area. rewrite !with_ext_snoc. intros [(r & ->)|[(r & ->)|(r & ->)]]; [exists "", r|exists ".tmp", r|exists ".sha1", r]; rewrite ?append_nil_r, <- !app_assoc; auto. }
  apply X in A, B. destruct A as (e & r & ->), B as (e' & r' & B). apply app_inv_head in B. injection B as -> B _.
  f_equal. eapply append_len; [|exact B]. auto.
Qed.
Lemma area_not_above root h h' q : 2 <= String.length h -> 2 <= String.length h' -> area (input_path root h) q -> ~ area (input_path root h') q -> ~ below q (input_path root h').
Proof.
  intros L L' A B (z & E). destruct (input_path_split root h) as (a & n & EH & -> & La); [auto|]. rewrite EH in A. destruct (input_path_split root h') as (a' & n' & EH' & -> & La'); [auto|]. rewrite EH' in *.
  assert (LQ : length q >= length root + 2).
  { unfold area in A. rewrite !with_ext_snoc in A. destruct A as [(r & ->)|[(r & ->)|(r & ->)]]; rewrite !app_length; cbn; lia. }
  assert (z = []). { assert (LE := f_equal (@length _) E). rewrite !app_length in LE. cbn in LE. destruct z; [auto|cbn in LE; lia]. }
  subst z. rewrite app_nil_r in E. apply B. rewrite <- E. apply area_p0.
Qed.

(* ---- The invariant ---- *)
Section System.
Variable digest : string -> string.
Variable settings_ok : string -> bool.
Variable root : path.
Variable L : nat.
Hypothesis HL : 2 <= L.

Definition fine_event (e : event) : Prop := match e with Begin h src => String.length h = L /\ inside_source src | _ => True end.
Record inv (s : sys) : Prop := {
  i_nodup : NoDup (map fst (running s) ++ map fst (cache s));
  i_len : forall h, In h (map fst (running s) ++ map fst (cache s)) -> String.length h = L;
  i_conf : forall h p, In (h, p) (running s) -> confined (input_path root h) p
}.
Lemma update_some {A} (l : list (string * A)) h y : map fst (update l h (Some y)) = map fst l.
Proof. induction l as [|[k v] l IH]; cbn; [auto|]. destruct (k =? h); cbn; congruence. Qed.
Lemma update_some_in {A} (l : list (string * A)) h y k v : In (k, v) (update l h (Some y)) -> (k = h /\ v = y) \/ In (k, v) l.
Proof.
  induction l as [|[k' v'] l IH]; cbn; [auto|]. destruct (String.eqb_spec k' h) as [->|]; intros [X|X]; auto.
  - injection X as <- <-. auto.
  - apply IH in X. tauto.
Qed.
Lemma update_none_in {A} (l : list (string * A)) h x : In x (update l h None) -> In x l.
Proof. induction l as [|[k' v'] l IH]; cbn; [auto|]. destruct (k' =? h); cbn; tauto. Qed.
Lemma update_none_perm {A} (l : list (string * A)) h : In h (map fst l) -> Permutation (map fst l) (h :: map fst (update l h None)).
Proof.
  induction l as [|[k v] l IH]; cbn; [tauto|]. intros H. destruct (String.eqb_spec k h) as [->|N]; [auto|]. destruct H as [H|H]; [congruence|].
  cbn. rewrite perm_swap. constructor. auto.
Qed.
Lemma refs_in s h l : refs s h = Some l -> In (h, l) (cache s).
Proof.
  unfold refs. destruct (find _ _) as [[k v]|] eqn:E; [|discriminate]. intros X. injection X as <-. apply find_some in E. destruct E as [E1 E2]. cbn in E2. apply String.eqb_eq in E2. subst. auto.
Qed.
Lemma refs_none s h : refs s h = None -> ~ In h (map fst (cache s)).
Proof.
  unfold refs. destruct (find _ _) as [[k v]|] eqn:E; [discriminate|]. intros _ H. apply in_map_iff in H. destruct H as ([k v] & <- & H). apply (find_none _ _ E) in H. cbn in H. rewrite String.eqb_refl in H. discriminate.
Qed.
Lemma in_refs s h l : NoDup (map fst (cache s)) -> In (h, l) (cache s) -> refs s h = Some l.
Proof.
  unfold refs. induction (cache s) as [|[k v] c IH]; cbn; [tauto|]. intros ND [X|X].
  - injection X as -> ->. rewrite String.eqb_refl. auto.
  - inversion ND as [|? ? NI ND']; subst. destruct (String.eqb_spec k h) as [->|]; [elim NI; apply in_map_iff; exists (h, l); auto|]. auto.
Qed.

Lemma perm_mid {A} (x : A) a b c : Permutation a (x :: c) -> Permutation (a ++ b) (c ++ x :: b).
Proof. intros H. rewrite H. cbn. apply Permutation_middle. Qed.
Lemma step_inv s e s' : inv s -> fine_event e -> step digest settings_ok root s e s' -> inv s'.
Proof.
  intros [ND LEN CONF] HE HS. destruct HS as [s h id l HR HF|s h src HR HB|s h p p' f' HI HO|s h id z HI HR HF|s h HI|s h id l HR HI|s h HR]; constructor; cbn [running cache disk] in *;
    rewrite ?update_some in *; auto.
  - cbn. constructor; [|auto]. rewrite in_app_iff. intros [X|X]; [|apply (refs_none _ _ HR X)]. apply in_map_iff in X. destruct X as ([k v] & E & X). cbn in E. subst. apply HB. exists v. auto.
  - cbn. intros k [<-|X]; [apply HE|auto].
  - intros k p [X|X]; [|auto]. injection X as <- <-. destruct HE as [EL ES]. destruct (input_path_split root h) as (a & n & -> & _); [lia|]. apply source_confined. auto.
  - intros k q X. apply update_some_in in X. destruct X as [[-> ->]|X]; [|auto]. specialize (CONF _ _ HI).
    destruct (input_path_split root h) as (a & n & E & _); [assert (X := LEN h); rewrite in_app_iff in X; rewrite X; [lia|left; apply in_map_iff; exists (h, p); auto]|].
    rewrite E in *. apply (step_frame _ _ _ _ _ _ [] CONF HO).
  - assert (P : Permutation (map fst (running s)) (h :: map fst (update (running s) h None))) by (apply update_none_perm, in_map_iff; exists (h, Ret (Nil z)); auto).
    cbn [map fst]. eapply Permutation_NoDup; [|exact ND]. apply perm_mid. auto.
  - assert (P : Permutation (map fst (running s)) (h :: map fst (update (running s) h None))) by (apply update_none_perm, in_map_iff; exists (h, Ret (Nil z)); auto).
    intros k X. apply LEN. cbn [map fst] in X. eapply Permutation_in; [apply Permutation_sym, perm_mid, P|exact X].
  - intros k q X. apply update_none_in in X. auto.
  - assert (P : Permutation (map fst (running s)) (h :: map fst (update (running s) h None))) by (apply update_none_perm, in_map_iff; exists (h, Ret Err); auto).
    rewrite P in ND. cbn in ND. inversion ND. auto.
  - assert (P : Permutation (map fst (running s)) (h :: map fst (update (running s) h None))) by (apply update_none_perm, in_map_iff; exists (h, Ret Err); auto).
    intros k X. apply LEN. rewrite P. cbn. auto.
  - intros k q X. apply update_none_in in X. auto.
  - apply refs_in in HR. assert (P : Permutation (map fst (cache s)) (h :: map fst (update (cache s) h None))) by (apply update_none_perm, in_map_iff; exists (h, []); auto).
    cbn [map fst]. eapply Permutation_NoDup; [|exact ND]. rewrite P. apply Permutation_sym, Permutation_middle.
  - apply refs_in in HR. assert (P : Permutation (map fst (cache s)) (h :: map fst (update (cache s) h None))) by (apply update_none_perm, in_map_iff; exists (h, []); auto).
    intros k X. apply LEN. rewrite P. eapply Permutation_in; [|exact X]. cbn. apply Permutation_middle.
  - intros k q [X|X]; [|auto]. injection X as <- <-. apply refs_in in HR. destruct (input_path_split root h) as (a & n & -> & _).
    + rewrite LEN; [lia|]. apply in_app_iff. right. apply in_map_iff. exists (h, []). auto.
    + apply (delete_confined digest settings_ok); cbn; auto.
Qed.

(* A step changes nothing of what is cached, unless it evicts it. *)
Lemma step_intact s e s' h id l : inv s -> step digest settings_ok root s e s' -> refs s h = Some l -> In id l -> e <> Release h id ->
  (forall q, area (input_path root h) q -> disk s' q = disk s q) /\ exists l', refs s' h = Some l' /\ In id l'.
Proof.
  intros [ND LEN CONF] HS HR HI NE. assert (HC := refs_in _ _ _ HR).
  assert (NDC : NoDup (map fst (cache s))) by (clear - ND; induction (map fst (running s)) as [|x r IH]; [auto|]; cbn in ND; inversion ND; auto).
  assert (HLh : String.length h = L) by (apply LEN, in_app_iff; right; apply in_map_iff; exists (h, l); auto).
  assert (KEEP : forall k x, k <> h -> forall s2, cache s2 = update (cache s) k x -> refs s2 h = Some l).
  { intros k x NK s2 E. unfold refs in *. rewrite E. clear - NK HR. induction (cache s) as [|[k' v'] c IH]; cbn in *; [discriminate|].
    destruct (String.eqb_spec k' k) as [->|N1].
    - destruct (String.eqb_spec k h); [congruence|]. destruct x; cbn; [destruct (String.eqb_spec k h); [congruence|]|]; auto.
    - cbn. destruct (k' =? h); auto. }
  assert (HEAD : forall x s2, cache s2 = update (cache s) h (Some x) -> refs s2 h = Some x).
  { intros x s2 E. unfold refs in *. rewrite E. clear - HC. induction (cache s) as [|[k' v'] c IH]; cbn in *; [tauto|].
    destruct (String.eqb_spec k' h) as [->|N1]; cbn; [rewrite String.eqb_refl; auto|]. destruct (String.eqb_spec k' h); [congruence|]. destruct HC as [X|X]; [congruence|]. auto. }
  destruct HS as [s k id' l' HR' HF|s k src HR' HB|s k p p' f' HI' HO|s k id' z HI' HR' HF|s k HI'|s k id' l' HR' HI'|s k HR']; cbn [disk running cache] in *.
  - split; [auto|]. destruct (String.eqb_spec k h) as [->|NK].
    + rewrite HR in HR'. injection HR' as <-. exists (id' :: l). split; [apply HEAD; auto|right; auto].
    + exists l. split; [apply (KEEP k (Some (id' :: l')) NK); auto|auto].
  - split; [auto|]. exists l. auto.
  - split; [|exists l; auto]. intros q HQ. assert (NK : k <> h).
    { intros ->. clear - ND HC HI'. revert ND. assert (A : In h (map fst (running s))) by (apply in_map_iff; exists (h, p); auto). assert (B : In h (map fst (cache s))) by (apply in_map_iff; exists (h, l); auto).
      revert A. generalize (map fst (running s)) as r. induction r as [|x r IH]; cbn; [tauto|]. intros [->|A] ND; inversion ND; [|auto]. apply H1, in_app_iff. auto. }
    assert (HLk : String.length k = L) by (apply LEN, in_app_iff; left; apply in_map_iff; exists (k, p); auto).
    assert (NA : ~ area (input_path root k) q). { intros X. apply NK. eapply area_disjoint; [| |exact X|exact HQ]; lia. }
    assert (NB : ~ below q (input_path root k)) by (apply (area_not_above root h k q); auto; lia).
    specialize (CONF _ _ HI'). destruct (input_path_split root k) as (a & n & E & _); [lia|]. rewrite E in *.
    apply (step_frame _ _ _ _ _ _ q CONF HO); auto.
  - split; [auto|]. exists l. split; [|auto]. unfold refs in *. cbn. destruct (String.eqb_spec k h) as [->|]; [|auto]. rewrite HR in HR'. discriminate.
  - split; [auto|]. exists l. auto.
  - split; [auto|]. destruct (String.eqb_spec k h) as [->|NK].
    + rewrite HR in HR'. injection HR' as <-. exists (remove Nat.eq_dec id' l). split; [apply HEAD; auto|]. apply in_in_remove; [|auto]. intros ->. congruence.
    + exists l. split; [apply (KEEP k (Some (remove Nat.eq_dec id' l')) NK); auto|auto].
  - split; [auto|]. destruct (String.eqb_spec k h) as [->|NK]; [rewrite HR in HR'; injection HR' as ->; elim HI|].
    exists l. split; [apply (KEEP k None NK); auto|auto].
Qed.
End System.

(* While a caller holds a reference to an input, whatever else is added, fails,
   is released or evicted, in any interleaving, the files of the input stay as
   they are; and the reference stays valid until it is released. *)
Theorem C32_held : forall digest settings_ok root L s0 evs1 s evs2 s' hash id l, 2 <= L ->
  running s0 = [] -> cache s0 = [] -> Forall (fine_event L) (evs1 ++ evs2) ->
  steps digest settings_ok root s0 evs1 s -> steps digest settings_ok root s evs2 s' ->
  refs s hash = Some l -> In id l -> ~ In (Release hash id) evs2 ->
  (forall q, area (input_path root hash) q -> disk s' q = disk s q) /\ exists l', refs s' hash = Some l' /\ In id l'.
Proof.
  intros digest settings_ok root L s0 evs1 s evs2 s' hash id l HL R0 C0 HF S1 S2 HR HI NR.
  apply Forall_app in HF. destruct HF as [HF1 HF2].
  assert (I : inv root L s).
  { assert (I0 : inv root L s0) by (constructor; rewrite R0, ?C0; cbn; [constructor|tauto|tauto]). clear - HL I0 HF1 S1.
    induction S1 as [|s e s1 es s2 H HS IH]; [auto|]. inversion HF1; subst. apply IH; auto. eapply step_inv; eauto. }
  clear S1 HF1 R0 C0. revert l HR HI NR I HF2. induction S2 as [s|s e s1 es s2 H HS IH]; intros l HR HI NR I HF2.
  - split; [auto|eauto].
  - inversion HF2; subst. assert (NE : e <> Release hash id) by (intros ->; apply NR; left; auto).
    destruct (step_intact digest settings_ok root L HL s e s1 hash id l I H HR HI NE) as (A & l1 & R1 & I1).
    destruct (IH l1 R1 I1) as (B & X).
    + intros Y. apply NR. right. auto.
    + eapply step_inv; eauto.
    + auto.
    + split; [|exact X]. intros q HQ. rewrite B, A; auto.
Qed.
Print Assumptions C32_held.

(* ---- A case that meets the hypotheses ---- *)
(* "aabb" is added from memory and held; "aacc" is looked up in the same
   directory, rejected and removed; both steps of the removal happen while "aabb"
   is held. *)
Definition ex_src := InMemory [("in", "x")].
Definition ex_start : sys := {| disk := fun q => match q with [] => Some Dir | _ => None end; running := []; cache := [] |}.
Fixpoint ex_run (digest : string -> string) (n : nat) (p : prog) (f : fs) : prog * fs :=
  match n with
  | O => (p, f)
  | S n => match p with Ret r => (p, f) | Do o k => match apply o f with Some f' => ex_run digest n (k true) f' | None => ex_run digest n (k false) f end | Look k => ex_run digest n (k f) f end
  end.
Lemma ex_run_steps digest settings_ok root h n : forall p f rest c, exists m, steps digest settings_ok root {| disk := f; running := (h, p) :: rest; cache := c |} (repeat (Op h) m)
  {| disk := snd (ex_run digest n p f); running := (h, fst (ex_run digest n p f)) :: rest; cache := c |}.
Proof.
  induction n as [|n IH]; intros p f rest c; [exists 0; constructor|]. destruct p as [r|o k|k]; cbn [ex_run].
  - exists 0. constructor.
  - destruct (apply o f) as [f'|] eqn:E.
    + destruct (IH (k true) f' rest c) as (m & H). exists (S m). cbn [repeat]. eapply steps_cons; [eapply step_op; [left; reflexivity|apply op_works; exact E]|]. cbn [update running disk cache]. rewrite String.eqb_refl. exact H.
    + destruct (IH (k false) f rest c) as (m & H). exists (S m). cbn [repeat]. eapply steps_cons; [eapply step_op; [left; reflexivity|apply op_fails]|]. cbn [update running disk cache]. rewrite String.eqb_refl. exact H.
  - destruct (IH (k f) f rest c) as (m & H). exists (S m). cbn [repeat]. eapply steps_cons; [eapply step_op; [left; reflexivity|apply op_look]|]. cbn [update running disk cache]. rewrite String.eqb_refl. exact H.
Qed.
Lemma steps_app digest settings_ok root s1 e1 s2 e2 s3 : steps digest settings_ok root s1 e1 s2 -> steps digest settings_ok root s2 e2 s3 -> steps digest settings_ok root s1 (e1 ++ e2) s3.
Proof. induction 1; cbn; [auto|]. intros. econstructor; eauto. Qed.
Definition ex_sha1 : string -> string := fun s => s.
Definition ex_ok : string -> bool := fun _ => true.
Example ex_held : exists evs1 s evs2 s', Forall (fine_event 4) (evs1 ++ evs2) /\
  steps ex_sha1 ex_ok [] ex_start evs1 s /\ steps ex_sha1 ex_ok [] s evs2 s' /\ refs s "aabb" = Some [7] /\ ~ In (Release "aabb" 7) evs2 /\
  disk s' ["aa"; "bb"; "in"] = Some (File "x") /\ In (Done "aacc") evs2.
Proof.
  destruct (ex_run_steps ex_sha1 ex_ok [] "aabb" 60 (source_add ex_sha1 ex_ok (input_path [] "aabb") ex_src) (disk ex_start) [] []) as (m & H).
  set (r := ex_run ex_sha1 60 _ _) in H.
  assert (R : exists z, fst r = Ret (Nil z)) by (eexists; vm_compute; reflexivity). destruct R as (z & R). rewrite R in H.
  set (s := {| disk := snd r; running := []; cache := [("aabb", [7])] |}).
  destruct (ex_run_steps ex_sha1 ex_ok [] "aacc" 60 (source_add ex_sha1 ex_ok (input_path [] "aacc") Cached) (snd r) [] [("aabb", [7])]) as (m' & H').
  set (r' := ex_run ex_sha1 60 _ (snd r)) in H'. assert (R' : fst r' = Ret Err) by (vm_compute; reflexivity). rewrite R' in H'.
  exists ((Begin "aabb" ex_src :: repeat (Op "aabb") m) ++ [Get "aabb" 7]), s, ((Begin "aacc" Cached :: repeat (Op "aacc") m') ++ [Done "aacc"]), {| disk := snd r'; running := []; cache := [("aabb", [7])] |}.
  assert (RO : forall h k, Forall (fine_event 4) (repeat (Op h) k)) by (intros h k; induction k; cbn; constructor; cbn; auto).
  split; [|split; [|split; [|split; [|split; [|split]]]]].
  - rewrite !Forall_app. repeat split; repeat constructor; auto; cbn; auto. intros x [<-|[]]. cbn. unfold inside. vm_compute. intuition discriminate.
  - eapply steps_app; [eapply steps_cons; [apply step_miss; [reflexivity|intros (p & [])]|exact H]|]. eapply steps_cons; [eapply step_added with (z := z); [left; reflexivity|reflexivity|intros ? ? []]|]. constructor.
  - eapply steps_app; [eapply steps_cons; [apply step_miss; [reflexivity|intros (p & [])]|exact H']|]. eapply steps_cons; [eapply step_failed; left; reflexivity|]. constructor.
  - reflexivity.
  - rewrite in_app_iff. cbn. intros [[X|X]|[X|[]]]; try discriminate. apply repeat_spec in X. discriminate.
  - vm_compute. reflexivity.
  - apply in_app_iff. right. left. auto.
Qed.

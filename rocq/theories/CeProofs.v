From Coq Require Import String Ascii List Bool Arith ZArith Lia.
From Verif Require Import GoStr NumModel GradeModel MetaModel CeModel CeSpec.
Import ListNotations.
Local Open Scope string_scope.

Lemma place_eqb_spec a b : reflect (a = b) (place_eqb a b).
Proof.
  destruct a, b; cbn; try (constructor; congruence).
  destruct (String.eqb_spec f f0); constructor; congruence.
Qed.
Lemma name_eqb_spec a b : reflect (a = b) (name_eqb a b).
Proof.
  destruct a as [a p], b as [b q]. unfold name_eqb. cbn [fst snd].
  destruct (String.eqb_spec a b), (place_eqb_spec p q); constructor; congruence.
Qed.
Lemma put_eq f n s : put f n s n = Some s.
Proof. unfold put. destruct (name_eqb_spec n n); congruence. Qed.
Lemma put_neq f n s m : n <> m -> put f n s m = f m.
Proof. intros H. unfold put. destruct (name_eqb_spec n m); congruence. Qed.
Lemma put_opt_neq f n s m : n <> m -> put_opt f n s m = f m.
Proof. destruct s; [apply put_neq|reflexivity]. Qed.
Lemma put_opt_eq f n s : put_opt f n (Some s) n = Some s.
Proof. apply put_eq. Qed.
Lemma del_eq f n : del f n n = None.
Proof. unfold del. destruct (name_eqb_spec n n); congruence. Qed.
Lemma del_neq f n m : n <> m -> del f n m = f m.
Proof. intros H. unfold del. destruct (name_eqb_spec n m); congruence. Qed.
Lemma put_all_other b l : forall f m, (forall x, m <> (b, InBin x)) -> put_all f b l m = f m.
Proof.
  induction l as [|[x s] l IH]; intros f m H; cbn [put_all]; [reflexivity|].
  rewrite IH by exact H. apply put_neq. intros E. apply (H x). congruence.
Qed.
Lemma put_all_in b l x : forall f, match put_all f b l (b, InBin x) with Some _ => true | None => false end =
  (existsb (fun e => String.eqb (fst e) x) l || match f (b, InBin x) with Some _ => true | None => false end)%bool.
Proof.
  induction l as [|[y s] l IH]; intros f; cbn [put_all existsb fst orb]; [reflexivity|].
  rewrite IH. destruct (String.eqb_spec y x) as [->|D].
  - rewrite put_eq, orb_true_r. reflexivity.
  - rewrite put_neq by congruence. reflexivity.
Qed.

Lemma append_nil_r s : s ++ "" = s.
Proof. induction s; cbn; congruence. Qed.
Lemma append_assoc a : forall b c, (a ++ b) ++ c = a ++ (b ++ c).
Proof. induction a; intros; cbn; [reflexivity|rewrite IHa; reflexivity]. Qed.
Lemma take_all s : forall n, String.length s <= n -> MetaModel.take n s = s.
Proof.
  induction s as [|a s IH]; intros n H; destruct n; cbn in *; try reflexivity; try lia.
  rewrite IH by lia. reflexivity.
Qed.

Lemma jail_other f b c m : m <> (b, OutFile) -> m <> (b, ErrFile) -> m <> (b, MetaFile_) -> (forall x, m <> (b, InBin x)) ->
  jail f b c m = f m.
Proof.
  intros A B C D. unfold jail. rewrite put_all_other by exact D. rewrite !put_opt_neq by congruence. reflexivity.
Qed.
Lemma jail_bin f b c x : match jail f b c (b, InBin x) with Some _ => true | None => false end =
  (existsb (fun e => String.eqb (fst e) x) (j_bin c) || match f (b, InBin x) with Some _ => true | None => false end)%bool.
Proof. unfold jail. rewrite put_all_in. rewrite !put_opt_neq by congruence. reflexivity. Qed.
Lemma jail_out f b c : jail f b c (b, OutFile) = match j_out c with Some s => Some s | None => f (b, OutFile) end.
Proof.
  unfold jail. rewrite put_all_other by congruence. rewrite !put_opt_neq by congruence.
  destruct (j_out c); [apply put_opt_eq|reflexivity].
Qed.
Lemma jail_err f b c : jail f b c (b, ErrFile) = match j_err c with Some s => Some s | None => f (b, ErrFile) end.
Proof.
  unfold jail. rewrite put_all_other by congruence. rewrite put_opt_neq by congruence.
  destruct (j_err c); [apply put_opt_eq|cbn; apply put_opt_neq; congruence].
Qed.
Lemma jail_meta f b c : jail f b c (b, MetaFile_) = match j_meta c with Some s => Some s | None => f (b, MetaFile_) end.
Proof.
  unfold jail. rewrite put_all_other by congruence.
  destruct (j_meta c); [apply put_opt_eq|cbn; rewrite !put_opt_neq by congruence; reflexivity].
Qed.

Lemma append_other f c d s m : m <> d -> appendFile f c d s m = f m.
Proof.
  intros H. unfold appendFile. destruct (f s); [|reflexivity]. destruct (String.eqb s0 ""); [reflexivity|].
  destruct (err_ok c); [apply put_neq; congruence|reflexivity].
Qed.

(* What one call leaves. *)
Lemma invoke_other f b c m : m <> (b, OutFile) -> m <> (b, ErrFile) -> m <> (b, MetaFile_) -> m <> (b, LogFile) -> (forall x, m <> (b, InBin x)) ->
  invokeOmegajail f b c m = f m.
Proof.
  intros A B C D E. unfold invokeOmegajail. destruct (log_ok c).
  - rewrite del_neq by congruence. rewrite append_other by congruence. destruct (starts c).
    + rewrite put_neq by congruence. rewrite jail_other by assumption. apply put_neq. congruence.
    + apply put_neq. congruence.
  - destruct (starts c); [apply jail_other; assumption|reflexivity].
Qed.
Lemma invoke_log f b c : invokeOmegajail f b c (b, LogFile) = if log_ok c then None else f (b, LogFile).
Proof.
  unfold invokeOmegajail. destruct (log_ok c); [apply del_eq|]. destruct (starts c); [|reflexivity].
  apply jail_other; congruence.
Qed.
Lemma invoke_meta f b c : invokeOmegajail f b c (b, MetaFile_) =
  if starts c then match j_meta c with Some s => Some s | None => f (b, MetaFile_) end else f (b, MetaFile_).
Proof.
  unfold invokeOmegajail. destruct (log_ok c).
  - rewrite del_neq by congruence. rewrite append_other by congruence. destruct (starts c).
    + rewrite put_neq by congruence. rewrite jail_meta. destruct (j_meta c); [reflexivity|]. apply put_neq. congruence.
    + apply put_neq. congruence.
  - destruct (starts c); [apply jail_meta|reflexivity].
Qed.
Lemma invoke_out f b c : invokeOmegajail f b c (b, OutFile) =
  if starts c then match j_out c with Some s => Some s | None => f (b, OutFile) end else f (b, OutFile).
Proof.
  unfold invokeOmegajail. destruct (log_ok c).
  - rewrite del_neq by congruence. rewrite append_other by congruence. destruct (starts c).
    + rewrite put_neq by congruence. rewrite jail_out. destruct (j_out c); [reflexivity|]. apply put_neq. congruence.
    + apply put_neq. congruence.
  - destruct (starts c); [apply jail_out|reflexivity].
Qed.
Lemma invoke_bin f b c x : match invokeOmegajail f b c (b, InBin x) with Some _ => true | None => false end =
  ((starts c && existsb (fun e => String.eqb (fst e) x) (j_bin c)) || match f (b, InBin x) with Some _ => true | None => false end)%bool.
Proof.
  unfold invokeOmegajail. destruct (log_ok c).
  - rewrite del_neq by congruence. rewrite append_other by congruence. destruct (starts c).
    + rewrite put_neq by congruence. rewrite jail_bin. rewrite put_neq by congruence. reflexivity.
    + rewrite put_neq by congruence. reflexivity.
  - destruct (starts c); [apply jail_bin|reflexivity].
Qed.
Lemma invoke_err_smooth f b c : starts c = true -> log_ok c = true -> err_ok c = true ->
  String.length (NL ++ j_says c) <= room c -> (exists s, j_err c = Some s) ->
  invokeOmegajail f b c (b, ErrFile) = Some (text (j_err c) ++ on_new_line (j_says c)).
Proof.
  intros S Lo Er R (e & Ee). unfold invokeOmegajail. rewrite Lo, S. rewrite del_neq by congruence.
  unfold appendFile. rewrite put_eq. unfold on_new_line. destruct (String.eqb (j_says c) "") eqn:E.
  - rewrite put_neq by congruence. rewrite jail_err, Ee. cbn [text]. rewrite append_nil_r. reflexivity.
  - rewrite Er, put_eq. unfold fits. rewrite take_all by exact R. unfold old. rewrite put_neq by congruence.
    rewrite jail_err, Ee. reflexivity.
Qed.
(* What the compiler wrote on its standard error comes first, whatever happens. *)
Lemma invoke_err_prefix f b c e : starts c = true -> j_err c = Some e -> exists z, invokeOmegajail f b c (b, ErrFile) = Some (e ++ z).
Proof.
  intros S Ee. unfold invokeOmegajail. rewrite S. destruct (log_ok c).
  - rewrite del_neq by congruence. unfold appendFile. rewrite put_eq. destruct (String.eqb (j_says c) "").
    + rewrite put_neq by congruence. rewrite jail_err, Ee. exists "". rewrite append_nil_r. reflexivity.
    + destruct (err_ok c).
      * rewrite put_eq. unfold old. rewrite put_neq by congruence. rewrite jail_err, Ee. eauto.
      * rewrite put_neq by congruence. rewrite jail_err, Ee. exists "". rewrite append_nil_r. reflexivity.
  - rewrite jail_err, Ee. exists "". rewrite append_nil_r. reflexivity.
Qed.

(* ---- Compile ---- *)
Section C.
Variable pf : string -> float64.
Variable root : string.

Lemma compile_other f lang b c m : fst m <> b_name b -> fst (Compile pf f lang b c) m = f m.
Proof.
  intros H. unfold Compile.
  set (f0 := if String.eqb lang "cs" then _ else f).
  assert (E0 : f0 m = f m).
  { unfold f0. destruct (String.eqb lang "cs"); [|reflexivity]. destruct (f _); [reflexivity|]. apply put_neq. intros E. apply H. rewrite <- E. reflexivity. }
  assert (I : invokeOmegajail f0 (b_name b) c m = f m).
  { rewrite <- E0. apply invoke_other; try (intros E; apply H; rewrite E; reflexivity). intros x E. apply H. rewrite E. reflexivity. }
  destruct (negb (sources_ok b)); [exact E0|].
  destruct (invokeOmegajail f0 (b_name b) c (b_name b, MetaFile_)); cbn [fst]; [|exact I].
  match goal with |- (if ?x then _ else _) m = _ => destruct x end; [|exact I].
  rewrite put_neq; [exact I|]. intros E. apply H. rewrite <- E. reflexivity.
Qed.

Lemma compile_log f lang b c : fst (Compile pf f lang b c) (b_name b, LogFile) =
  if sources_ok b && log_ok c then None else f (b_name b, LogFile).
Proof.
  unfold Compile. set (f0 := if String.eqb lang "cs" then _ else f).
  assert (E0 : f0 (b_name b, LogFile) = f (b_name b, LogFile)).
  { unfold f0. destruct (String.eqb lang "cs"); [|reflexivity]. destruct (f (b_name b, InBin _)); [reflexivity|]. apply put_neq. congruence. }
  destruct (sources_ok b); cbn [negb andb]; [|exact E0].
  assert (I : invokeOmegajail f0 (b_name b) c (b_name b, LogFile) = if log_ok c then None else f (b_name b, LogFile)).
  { rewrite invoke_log, E0. reflexivity. }
  destruct (invokeOmegajail f0 (b_name b) c (b_name b, MetaFile_)); cbn [fst]; [|exact I].
  match goal with |- (if ?x then _ else _) _ = _ => destruct x end; [|exact I].
  rewrite put_neq by congruence. exact I.
Qed.

Lemma compile_kept f lang b c e : sources_ok b = true -> starts c = true -> j_err c = Some e ->
  exists z, fst (Compile pf f lang b c) (b_name b, ErrFile) = Some (e ++ z).
Proof.
  intros So S Ee. unfold Compile. set (f0 := if String.eqb lang "cs" then _ else f). rewrite So. cbn [negb].
  destruct (invoke_err_prefix f0 (b_name b) c e S Ee) as (z & I).
  destruct (invokeOmegajail f0 (b_name b) c (b_name b, MetaFile_)); cbn [fst]; [|eauto].
  match goal with |- exists _, (if ?x then _ else _) _ = _ => destruct x end; [|eauto].
  rewrite put_eq. unfold old. rewrite I. eexists. rewrite append_assoc. reflexivity.
Qed.
Lemma compile_out_kept f lang b c o : sources_ok b = true -> starts c = true -> j_out c = Some o ->
  fst (Compile pf f lang b c) (b_name b, OutFile) = Some o.
Proof.
  intros So S Eo. unfold Compile. set (f0 := if String.eqb lang "cs" then _ else f). rewrite So. cbn [negb].
  assert (I : invokeOmegajail f0 (b_name b) c (b_name b, OutFile) = Some o) by (rewrite invoke_out, S, Eo; reflexivity).
  destruct (invokeOmegajail f0 (b_name b) c (b_name b, MetaFile_)); cbn [fst]; [|exact I].
  match goal with |- (if ?x then _ else _) _ = _ => destruct x end; [|exact I]. rewrite put_neq by congruence. exact I.
Qed.

Lemma parse_lang l1 l2 s : String.eqb l1 "kj" || String.eqb l1 "kp" = String.eqb l2 "kj" || String.eqb l2 "kp" ->
  parseMetaFile pf None l1 s false false = parseMetaFile pf None l2 s false false.
Proof.
  intros H. unfold parseMetaFile. destruct (scan_fields pf md0 (raw_lines s)) as [m []]; [reflexivity|].
  unfold judge. rewrite H. reflexivity.
Qed.

Lemma compile_class f b c : b_language b = "java" ->
  let '(f', (m, err)) := Compile pf f "java" b c in
  d_verdict m = OK -> exists s, f' (b_name b, InBin (b_target b ++ ".class")) = Some s.
Proof.
  intros _. unfold Compile. cbn [String.eqb Ascii.eqb Bool.eqb andb]. destruct (negb (sources_ok b)); [discriminate|].
  destruct (invokeOmegajail f (b_name b) c (b_name b, MetaFile_)) as [meta|]; [|discriminate].
  unfold MetaModel.Compile. destruct (parseMetaFile pf None "java" meta false false) as [m err]. cbn [fst].
  change (String.eqb "java" "java") with true. cbn [andb].
  destruct (invokeOmegajail f (b_name b) c (b_name b, InBin (b_target b ++ ".class"))) as [s|] eqn:E; cbn [negb andb].
  - rewrite andb_false_r. cbn [andb]. intros _. exists s. exact E.
  - rewrite andb_true_r. destruct (veqb (d_verdict m) OK) eqn:V; cbn [andb].
    + intros X. discriminate X.
    + intros X. rewrite X in V. discriminate V.
Qed.

Lemma veqb_true v : veqb v OK = true -> v = OK.
Proof. destruct v; cbn; congruence. Qed.

Lemma compiled_java b : b_language b = "java" -> compiled_as b = "java".
Proof. unfold compiled_as. intros ->. destruct (b_validator b); reflexivity. Qed.
Lemma compiled_not_java b : String.eqb (b_language b) "java" = false -> String.eqb (compiled_as b) "java" = false.
Proof. unfold compiled_as. intros H. destruct (b_validator b && String.eqb (b_language b) "cpp"); [reflexivity|exact H]. Qed.

(* What a smooth call gives. *)
Lemma compile_smooth f b c : smooth b c ->
  exists f', Compile pf f (compiled_as b) b c = (f', (noted pf f b c, malformed pf b c)) /\
    getCompileError root f' (b_name b, compileErrorFile (b_language b)) = said pf f b c.
Proof.
  intros (So & S & Lo & Er & Ok & (o & Eo) & (e & Ee) & (mt & Em) & R & Rc).
  unfold Compile. set (f0 := if String.eqb (compiled_as b) "cs" then _ else f). rewrite So. cbn [negb].
  assert (Im : invokeOmegajail f0 (b_name b) c (b_name b, MetaFile_) = Some mt) by (rewrite invoke_meta, S, Em; reflexivity).
  assert (Io : invokeOmegajail f0 (b_name b) c (b_name b, OutFile) = Some o) by (rewrite invoke_out, S, Eo; reflexivity).
  assert (Ie := invoke_err_smooth f0 (b_name b) c S Lo Er R (ex_intro _ e Ee)).
  assert (Ib := invoke_bin f0 (b_name b) c (b_target b ++ ".class")). rewrite S in Ib.
  rewrite Im, Ib.
  unfold MetaModel.Compile, noted, malformed, said, no_class, getCompileError, compileErrorFile. rewrite Em, Ok. cbn [text].
  destruct (parseMetaFile pf None (compiled_as b) mt false false) as [m err] eqn:P.
  destruct (String.eqb (b_language b) "java") eqn:J.
  - apply String.eqb_eq in J.
    assert (F0 : f0 = f) by (unfold f0; rewrite (compiled_java b J); reflexivity). clearbody f0. subst f0.
    rewrite (compiled_java b J) in *. rewrite J, P. cbn [fst snd].
    change (String.eqb "java" "java") with true. change (String.eqb "java" "pas") with false. change (String.eqb "java" "cs") with false.
    cbn [andb orb negb].
    set (ex := existsb _ _) in *. set (fx := match f (b_name b, InBin (b_target b ++ ".class")) with Some _ => true | None => false end) in *.
    assert (Fx : match f (b_name b, InBin (b_target b ++ ".class")) with Some _ => false | None => true end = negb fx).
    { unfold fx. destruct (f _); reflexivity. }
    rewrite Fx. rewrite (negb_orb fx ex) || rewrite (negb_orb ex fx).
    destruct (veqb (d_verdict m) OK), ex, fx; cbn [negb andb orb]; rewrite ?orb_false_r; (eexists; split; [reflexivity|]);
      try (rewrite Ie, Ee; cbn [text]; rewrite append_nil_r; reflexivity).
    rewrite put_eq. unfold old. rewrite Ie, Ee. unfold fits. rewrite take_all by exact Rc. cbn [text]. rewrite append_assoc. reflexivity.
  - rewrite (compiled_not_java b J). cbn [andb fst snd].
    eexists. split; [reflexivity|].
    destruct (String.eqb (b_language b) "pas" || String.eqb (b_language b) "cs") eqn:L; cbn [andb].
    + rewrite Io, Eo. reflexivity.
    + rewrite Ie, Ee. cbn [text]. rewrite append_nil_r. reflexivity.
Qed.

Lemma said_other f f' b c : (forall p, f' (b_name b, p) = f (b_name b, p)) -> no_class pf f' b c = no_class pf f b c.
Proof. intros H. unfold no_class. rewrite H. reflexivity. Qed.

Notation run := (compile_binaries pf root).

Lemma run_eq f b c l : run f ((b, c) :: l) =
  let '(f, (m, err)) := Compile pf f (compiled_as b) b c in
    if err || negb (veqb (d_verdict m) OK)
    then (f, [(b_name b, m)], Some (b_name b ++ ":" ++ NL ++ getCompileError root f (b_name b, compileErrorFile (b_language b)), err))
    else let '(f, ms, r) := run f l in (f, (b_name b, m) :: ms, r).
Proof. reflexivity. Qed.

Lemma run_other l : forall f n, ~ In (fst n) (map (fun x => b_name (fst x)) l) -> fst (fst (run f l)) n = f n.
Proof.
  induction l as [|[b c] l IH]; intros f n H; [reflexivity|]. rewrite run_eq. cbn [map fst In] in H.
  assert (O := compile_other f (compiled_as b) b c n).
  destruct (Compile pf f (compiled_as b) b c) as [f' [m err]]. cbn [fst] in O.
  destruct (err || _); cbn [fst].
  - apply O. intros E. apply H. left. auto.
  - specialize (IH f' n). destruct (run f' l) as [[f2 ms] r]. cbn [fst] in *. rewrite IH by tauto. apply O. intros E. apply H. left. auto.
Qed.

Definition good f (x : binary * sandbox_call) := accepted pf f (fst x) (snd x).
Definition report f (x : binary * sandbox_call) :=
  (b_name (fst x) ++ ":" ++ NL ++ said pf f (fst x) (snd x), malformed pf (fst x) (snd x)).

Lemma same_class f f' b c : (forall p, f' (b_name b, p) = f (b_name b, p)) -> no_class pf f' b c = no_class pf f b c.
Proof. intros H. unfold no_class. rewrite H. reflexivity. Qed.

Lemma map_ext_in' {A B} (g h : A -> B) l : (forall x, In x l -> g x = h x) -> map g l = map h l.
Proof. induction l as [|x l IH]; intros H; [reflexivity|]. cbn. rewrite H by (left; reflexivity). rewrite IH; [reflexivity|]. intros y I. apply H. right. exact I. Qed.
Lemma upto_ext (g h : binary * sandbox_call -> bool) l : (forall x, In x l -> g x = h x) -> upto g l = upto h l.
Proof. induction l as [|x l IH]; intros H; [reflexivity|]. cbn. rewrite H by (left; reflexivity). rewrite IH; [reflexivity|]. intros y I. apply H. right. exact I. Qed.
Lemma upto_in (g : binary * sandbox_call -> bool) l x : In x (upto g l) -> In x l.
Proof. induction l as [|y l IH]; cbn; [tauto|]. destruct (g y); cbn; tauto. Qed.
Lemma find_ext (g h : binary * sandbox_call -> bool) l : (forall x, In x l -> g x = h x) -> find g l = find h l.
Proof. induction l as [|x l IH]; intros H; [reflexivity|]. cbn. rewrite H by (left; reflexivity). rewrite IH; [reflexivity|]. intros y I. apply H. right. exact I. Qed.

Lemma run_smooth l : NoDup (map (fun x => b_name (fst x)) l) -> forall f, (forall x, In x l -> smooth (fst x) (snd x)) ->
  snd (fst (run f l)) = map (fun x => (b_name (fst x), noted pf f (fst x) (snd x))) (upto (good f) l) /\
  snd (run f l) = option_map (report f) (find (fun x => negb (good f x)) l).
Proof.
  intros N. induction l as [|[b c] l IH]; intros f S; [split; reflexivity|]. cbn [map fst] in N. inversion N as [|x0 l0 Ni Nd E0]; subst x0 l0.
  rewrite run_eq. destruct (compile_smooth f b c (S (b, c) (or_introl eq_refl))) as (f' & E & G). rewrite E.
  cbn [upto find]. unfold good at 1 3. cbn [fst snd]. unfold accepted.
  assert (X : malformed pf b c || negb (veqb (d_verdict (noted pf f b c)) OK) = negb (negb (malformed pf b c) && veqb (d_verdict (noted pf f b c)) OK)).
  { rewrite negb_andb, negb_involutive. reflexivity. }
  rewrite X. destruct (negb (malformed pf b c) && veqb (d_verdict (noted pf f b c)) OK); cbn [negb].
  - assert (O : forall x, In x l -> forall p, f' (b_name (fst x), p) = f (b_name (fst x), p)).
    { intros x I p. assert (K := compile_other f (compiled_as b) b c (b_name (fst x), p)). rewrite E in K. apply K. cbn [fst].
      intros K2. apply Ni. rewrite <- K2. apply (in_map (fun x => b_name (fst x))). exact I. }
    destruct (IH Nd f' (fun x I => S x (or_intror I))) as (I1 & I2).
    destruct (run f' l) as [[f2 ms] r]. cbn [fst snd] in *.
    assert (Gx : forall x, In x l -> good f' x = good f x).
    { intros x I. unfold good, accepted, noted. rewrite (same_class f f' (fst x) (snd x) (O x I)). reflexivity. }
    split.
    + cbn [map fst snd]. f_equal. rewrite I1. rewrite (upto_ext _ (good f) l Gx). apply map_ext_in'. intros x I. apply upto_in in I.
      unfold noted. rewrite (same_class f f' (fst x) (snd x) (O x I)). reflexivity.
    + rewrite I2. rewrite (find_ext _ (fun x => negb (good f x)) l).
      2: intros x I; rewrite (Gx x I); reflexivity.
      destruct (find (fun x => negb (good f x)) l) as [x|] eqn:F; [|reflexivity]. cbn [option_map]. f_equal. unfold report, said.
      apply find_some in F. rewrite (same_class f f' (fst x) (snd x) (O x (proj1 F))). reflexivity.
  - cbn [fst snd]. rewrite G. split; reflexivity.
Qed.

(* Whatever goes wrong. *)
Lemma run_names l : NoDup (map (fun x => b_name (fst x)) l) -> forall f,
  let '(f', ms, r) := run f l in
  match r with
  | None => map fst ms = map (fun x => b_name (fst x)) l /\ Forall (fun x => d_verdict (snd x) = OK) ms
  | Some (t, e) => exists l1 b c l2 ms1 m, l = (l1 ++ (b, c) :: l2)%list /\ ms = (ms1 ++ [(b_name b, m)])%list /\
      map fst ms1 = map (fun x => b_name (fst x)) l1 /\ Forall (fun x => d_verdict (snd x) = OK) ms1 /\ (e = true \/ d_verdict m <> OK) /\
      t = b_name b ++ ":" ++ NL ++ getCompileError root f' (b_name b, compileErrorFile (b_language b))
  end.
Proof.
  intros N. induction l as [|[b c] l IH]; intros f; [split; [reflexivity|constructor]|]. cbn [map fst] in N. inversion N as [|x0 l0 Ni Nd E0]; subst x0 l0.
  rewrite run_eq. destruct (Compile pf f (compiled_as b) b c) as [f' [m err]].
  destruct (err || negb (veqb (d_verdict m) OK)) eqn:X.
  - exists [], b, c, l, [], m. repeat match goal with |- _ /\ _ => split end; try reflexivity; [constructor|].
    destruct err; [left; reflexivity|right]. cbn [orb] in X. intros K. rewrite K in X. discriminate X.
  - apply orb_false_elim in X. destruct X as (_ & X). apply negb_false_iff, veqb_true in X.
    specialize (IH Nd f'). destruct (run f' l) as [[f2 ms] r]. destruct r as [[t e]|].
    + destruct IH as (l1 & b' & c' & l2 & ms1 & m' & H1 & H2 & H3 & H4 & H5 & H6).
      exists ((b, c) :: l1), b', c', l2, ((b_name b, m) :: ms1), m'. rewrite H1, H2. cbn [map fst app]. rewrite H3.
      repeat match goal with |- _ /\ _ => split end; try reflexivity; [constructor; assumption|exact H5|exact H6].
    + destruct IH as (H1 & H2). cbn [map fst]. rewrite H1. split; [reflexivity|]. constructor; assumption.
Qed.

(* The files of the programs that were compiled. *)
Lemma run_file (P : binary -> sandbox_call -> files -> Prop) l :
  (forall f b c, P b c (fst (Compile pf f (compiled_as b) b c))) ->
  (forall b c f f', (forall p, f' (b_name b, p) = f (b_name b, p)) -> P b c f -> P b c f') ->
  NoDup (map (fun x => b_name (fst x)) l) -> forall f,
  forall b c, In (b, c) (firstn (length (snd (fst (run f l)))) l) -> P b c (fst (fst (run f l))).
Proof.
  intros H1 H2 N. induction l as [|[b0 c0] l IH]; intros f b c I; [cbn in I; contradiction I|].
  cbn [map fst] in N. inversion N as [|x0 l0 Ni Nd E0]; subst x0 l0.
  revert I. rewrite run_eq. assert (P0 := H1 f b0 c0). destruct (Compile pf f (compiled_as b0) b0 c0) as [f' [m err]]. cbn [fst] in P0.
  destruct (err || _); cbn [fst snd length firstn].
  - intros [E|[]]. injection E as -> ->. exact P0.
  - assert (O := fun p => run_other l f' (b_name b0, p) Ni).
    specialize (IH Nd f' b c). destruct (run f' l) as [[f2 ms] r]. cbn [fst snd length firstn] in *. intros [E|I].
    + injection E as -> ->. exact (H2 b c f' f2 O P0).
    + apply IH. exact I.
Qed.

(* The class of a Java program that was accepted. *)
Lemma run_java l : NoDup (map (fun x => b_name (fst x)) l) -> forall f,
  let '(f', ms, r) := run f l in
  forall b c m, In (b, c) l -> In (b_name b, m) ms -> b_language b = "java" -> d_verdict m = OK ->
  exists s, f' (b_name b, InBin (b_target b ++ ".class")) = Some s.
Proof.
  intros N. induction l as [|[b0 c0] l IH]; intros f; [intros b c m []|].
  cbn [map fst] in N. inversion N as [|x0 l0 Ni Nd E0]; subst x0 l0. assert (Z := run_names ((b0, c0) :: l) N f).
  rewrite run_eq in *. assert (P0 := compile_class f b0 c0). assert (O0 := run_names l Nd).
  destruct (String.eqb (b_language b0) "java") eqn:J.
  - apply String.eqb_eq in J. specialize (P0 J). rewrite (compiled_java b0 J) in *. destruct (Compile pf f "java" b0 c0) as [f' [m0 err]].
    destruct (err || _) eqn:X.
    + intros b c m [E|I] [F|[]] Jb V.
      * injection E as -> ->. injection F as ->. exact (P0 V).
      * injection F as F1 F2. exfalso. apply Ni. rewrite F1. apply (in_map (fun x => b_name (fst x)) l (b, c)). exact I.
    + assert (O := fun p => run_other l f' (b_name b0, p) Ni). specialize (IH Nd f'). specialize (O0 f').
      destruct (run f' l) as [[f2 ms] r]. cbn [fst snd] in *. intros b c m I F Jb V.
      assert (Ms : forall m, ~ In (b_name b0, m) ms).
      { intros m' I'. apply Ni. apply (in_map fst) in I'. cbn [fst] in I'. destruct r as [[t e]|].
        - destruct O0 as (l1 & b1 & c1 & l2 & ms1 & m1 & H1 & H2 & H3 & _). rewrite H1. rewrite H2 in I'. rewrite map_app in *. cbn [map fst] in *. rewrite H3 in I'.
          apply in_app_or in I'. apply in_or_app. destruct I' as [I'|[I'|[]]]; [left; exact I'|right; left; exact I'].
        - destruct O0 as (H1 & _). rewrite <- H1. exact I'. }
      destruct I as [E|I].
      * injection E as -> ->. destruct F as [F|F]; [|exfalso; exact (Ms m F)]. injection F as ->. destruct (P0 V) as (s & Hs). exists s. rewrite O. exact Hs.
      * destruct F as [F|F]; [|exact (IH b c m I F Jb V)]. injection F as F1 F2. exfalso. apply Ni. rewrite F1. apply (in_map (fun x => b_name (fst x)) l (b, c)). exact I.
  - clear P0. destruct (Compile pf f (compiled_as b0) b0 c0) as [f' [m0 err]]. destruct (err || _) eqn:X.
    + intros b c m [E|I] [F|[]] Jb V.
      * injection E as -> ->. rewrite Jb in J. discriminate J.
      * injection F as F1 F2. exfalso. apply Ni. rewrite F1. apply (in_map (fun x => b_name (fst x)) l (b, c)). exact I.
    + specialize (IH Nd f'). destruct (run f' l) as [[f2 ms] r]. cbn [fst snd] in *. intros b c m I F Jb V.
      destruct I as [E|I]; [injection E as -> ->; rewrite Jb in J; discriminate J|].
      destruct F as [F|F]; [|exact (IH b c m I F Jb V)]. injection F as F1 F2. exfalso. apply Ni. rewrite F1. apply (in_map (fun x => b_name (fst x)) l (b, c)). exact I.
Qed.

(* The sandbox cannot be started and there is nothing of an earlier compilation. *)
Lemma run_no_sandbox (f : files) b c l : starts c = false -> f (b_name b, MetaFile_) = None ->
  f (b_name b, compileErrorFile (b_language b)) = None ->
  snd (run f ((b, c) :: l)) = Some (b_name b ++ ":" ++ NL ++ "open " ++ root ++ "/" ++ b_name b ++ "/" ++
    (if String.eqb (b_language b) "pas" || String.eqb (b_language b) "cs" then "compile.out" else "compile.err") ++ ": no such file or directory", true) /\
  exists m, snd (fst (run f ((b, c) :: l))) = [(b_name b, m)] /\ d_verdict m = JE.
Proof.
  intros S M E. rewrite run_eq.
  assert (C : exists f', Compile pf f (compiled_as b) b c = (f', (md0, true)) /\ f' (b_name b, compileErrorFile (b_language b)) = None).
  { unfold Compile. set (f0 := if String.eqb (compiled_as b) "cs" then _ else f).
    assert (E0 : forall p, (forall x, p <> InBin x) -> f0 (b_name b, p) = f (b_name b, p)).
    { intros p Hp. unfold f0. destruct (String.eqb (compiled_as b) "cs"); [|reflexivity]. destruct (f (b_name b, InBin _)); [reflexivity|]. apply put_neq. intros K. injection K as K. exact (Hp _ (eq_sym K)). }
    assert (Hn : forall x, compileErrorFile (b_language b) <> InBin x) by (intros x; unfold compileErrorFile; destruct (_ || _); discriminate).
    destruct (negb (sources_ok b)).
    - eexists. split; [reflexivity|]. rewrite E0 by exact Hn. exact E.
    - rewrite invoke_meta, S. rewrite (E0 MetaFile_) by discriminate. rewrite M. eexists. split; [reflexivity|].
      assert (O : invokeOmegajail f0 (b_name b) c (b_name b, OutFile) = f0 (b_name b, OutFile)) by (rewrite invoke_out, S; reflexivity).
      assert (R : invokeOmegajail f0 (b_name b) c (b_name b, ErrFile) = f0 (b_name b, ErrFile)).
      { unfold invokeOmegajail. rewrite S. destruct (log_ok c); [|reflexivity]. rewrite del_neq by congruence. unfold appendFile. rewrite put_eq.
        change (String.eqb "" "") with true. cbn iota. apply put_neq. congruence. }
      rewrite <- (E0 _ Hn) in E. unfold compileErrorFile in *. destruct (String.eqb (b_language b) "pas" || String.eqb (b_language b) "cs"); [rewrite O|rewrite R]; exact E. }
  destruct C as (f1 & C & G). rewrite C. cbn [orb fst snd]. unfold getCompileError. rewrite G. split; [|exists md0; split; reflexivity].
  unfold path_of, compileErrorFile. cbn [fst snd]. destruct (String.eqb (b_language b) "pas" || String.eqb (b_language b) "cs"); rewrite !append_assoc; reflexivity.
Qed.

(* The programs that were not reached. *)
Lemma run_rest l : NoDup (map (fun x => b_name (fst x)) l) -> forall f,
  forall b c, In (b, c) (skipn (length (snd (fst (run f l)))) l) -> forall p, fst (fst (run f l)) (b_name b, p) = f (b_name b, p).
Proof.
  intros N. induction l as [|[b0 c0] l IH]; intros f b c I p; [cbn in I; contradiction I|].
  cbn [map fst] in N. inversion N as [|x0 l0 Ni Nd E0]; subst x0 l0.
  assert (D : forall b c, In (b, c) l -> b_name b <> b_name b0).
  { intros b1 c1 I1 E. apply Ni. rewrite <- E. apply (in_map (fun x => b_name (fst x)) l (b1, c1)). exact I1. }
  revert I. rewrite run_eq. assert (O := fun n => compile_other f (compiled_as b0) b0 c0 n).
  destruct (Compile pf f (compiled_as b0) b0 c0) as [f' [m err]]. cbn [fst] in O.
  destruct (err || _); cbn [fst snd length skipn].
  - intros I. apply O. exact (D b c I).
  - specialize (IH Nd f' b c). destruct (run f' l) as [[f2 ms] r]. cbn [fst snd length skipn] in *. intros I. rewrite (IH I p). apply O.
    apply (D b c). rewrite <- (firstn_skipn (length ms) l). apply in_or_app. right. exact I.
Qed.
End C.

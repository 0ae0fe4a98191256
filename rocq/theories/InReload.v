(* What the runner persisted, it accepts again. *)
From Coq Require Import String Ascii List Bool ZArith Lia FinFun.
From Verif Require Import GoStr InModel InSpec InProofs InRunnerProofs.
Import ListNotations.
Local Open Scope string_scope.
Local Open Scope list_scope.

Lemma strip_cr_id s : ~ contains CR s -> strip_cr s = s.
Proof.
  induction s as [|c s IH]; intros H; cbn [strip_cr]; [auto|]. rewrite contains_cons in H. destruct s as [|c' s].
  - destruct (Ascii.eqb_spec c CR) as [->|]; [tauto|auto].
  - rewrite IH; [auto|tauto].
Qed.
Lemma take_hex_app h r : (forall c, In c (list_ascii_of_string h) -> is_hex c = true) -> take_hex (String.length h) (h ++ r)%string = Some (h, r).
Proof.
  induction h as [|c h IH]; intros H; cbn; [auto|]. rewrite (H c) by (left; auto). rewrite IH; [auto|]. intros; apply H; right; auto.
Qed.
Lemma hex_not_space c : is_hex c = true -> is_space c = false.
Proof.
  unfold is_hex, is_space. rewrite orb_true_iff, !andb_true_iff, !Nat.leb_le. intros H. cbn [existsb].
  repeat match goal with |- context [Nat.eqb ?a ?b] => destruct (Nat.eqb_spec a b) end; try lia; try reflexivity.
Qed.
Lemma prefix_app a b : prefix a (a ++ b)%string = true.
Proof. induction a as [|c a IH]; cbn; [destruct b; auto|]. destruct (ascii_dec c c); [auto|congruence]. Qed.
Lemma join_cons c x l : l <> [] -> join c (x :: l) = (x ++ String c (join c l))%string.
Proof. destruct l; [congruence|]. intros _. reflexivity. Qed.
Lemma join_app c p r : p <> [] -> r <> [] -> join c (p ++ r) = (join c p ++ String c (join c r))%string.
Proof.
  induction p as [|x p IH]; intros HP HR; [congruence|]. cbn [app]. destruct p as [|y p].
  - cbn [app]. rewrite join_cons by auto. reflexivity.
  - rewrite join_cons by discriminate. rewrite IH by (auto; discriminate). rewrite (join_cons c x (y :: p)) by discriminate. rewrite append_assoc. reflexivity.
Qed.
Lemma path_text_prefix p r : p <> [] -> prefix (path_text p) (path_text (p ++ r)) = true.
Proof.
  intros HP. unfold path_text. destruct r as [|x r].
  { rewrite app_nil_r. pose proof (prefix_app ("/" ++ join "/" p)%string "") as X. rewrite append_nil_r in X. exact X. }
  rewrite join_app by (auto; discriminate). rewrite <- append_assoc. apply prefix_app.
Qed.
Lemma put_new m q h : ~ In q (map fst m) -> put m q h = m ++ [(q, h)].
Proof.
  induction m as [|[k g] m IH]; cbn; intros H; [auto|]. destruct (path_eqb k q) eqn:E; [apply path_eqb_spec in E; tauto|]. rewrite IH; tauto.
Qed.
Lemma drop_empty_last_app l : drop_empty_last (l ++ [""]) = l.
Proof. induction l as [|x l IH]; [auto|]. cbn [app]. destruct (l ++ [""]) as [|y l'] eqn:E; [destruct l; discriminate|]. cbn [drop_empty_last] in *. rewrite IH. auto. Qed.

Definition files (es : list entry) : list (string * string) := flat_map (fun e => match e with EDir _ => [] | EFile n c => [(n, c)] end) es.
Lemma content_files es nm c : NoDup (map (fun x => rel (fst x)) (files es)) -> In (nm, c) (files es) -> content es (rel nm) = Some c.
Proof.
  induction es as [|[x|x k] es IH]; cbn [files flat_map app content]; [intros _ []|auto|].
  fold (files es). cbn [map fst]. intros ND [E|H].
  - injection E as -> ->. rewrite path_eqb_refl. destruct (content es (rel nm)) as [c'|] eqn:EC; [|auto].
    inversion ND as [|? ? NI ND']; subst. elim NI. clear - EC.
    induction es as [|[x|x k] es IH]; cbn [content files flat_map app] in *; [discriminate|auto|]. fold (files es). cbn [map fst].
    destruct (content es (rel nm)); [right; apply IH; auto|]. destruct (path_eqb (rel x) (rel nm)) eqn:E; [|discriminate]. left. apply path_eqb_spec. auto.
  - inversion ND; subst. rewrite IH; auto.
Qed.

Section Reload.
Variable digest : string -> string.
Variable settings_ok : string -> bool.
Variable d : path.
Variable n : string.
Notation p := (d ++ [n]).
Hypothesis HD : hex_digest digest.
Hypothesis HN : segment n.

Definition line (x : string * string) : string := (digest (snd x) ++ " *" ++ n ++ "/" ++ fst x)%string.
Lemma text_lines es : text digest d n es = fold_right (fun x t => (line x ++ String LF t)%string) "" (files es).
Proof.
  unfold text. induction es as [|[x|x c] es IH]; cbn [fold_right files flat_map app]; [auto|auto|]. fold (files es). cbn [fold_right]. rewrite IH.
  unfold sha1_line, line. rewrite last_last. cbn [fst snd lf]. rewrite !append_assoc. reflexivity.
Qed.
Lemma digest_plain c s : ~ is_hex c = true -> ~ contains c (digest s).
Proof. intros H HC. apply H, (HD s). auto. Qed.
Lemma line_plain x c : (c = LF \/ c = CR) -> ~ contains c (fst x) -> ~ contains c (line x).
Proof.
  intros HC H. unfold line. rewrite !contains_app. intros [X|[X|[X|[X|X]]]].
  - revert X. apply digest_plain. destruct HC as [-> | ->]; discriminate.
  - destruct HC as [-> | ->]; destruct X as [X|[X|[]]]; discriminate.
  - destruct HN as (_ & _ & _ & _ & A & B). destruct HC as [-> | ->]; auto.
  - destruct HC as [-> | ->]; destruct X as [X|[]]; discriminate.
  - auto.
Qed.
Lemma scan_text l : (forall x, In x l -> fit (fst x)) -> scan_lines (fold_right (fun x t => (line x ++ String LF t)%string) "" l) = map line l.
Proof.
  intros H. unfold scan_lines.
  assert (E : split LF (fold_right (fun x t => (line x ++ String LF t)%string) "" l) = map line l ++ [""]).
  { induction l as [|x l IH]; [reflexivity|]. cbn [fold_right map app]. rewrite split_app; [rewrite IH; [auto|intros; apply H; right; auto]|].
    apply line_plain; [auto|]. apply (H x). left. auto. }
  rewrite E, drop_empty_last_app. rewrite map_map. apply map_ext_in. intros x Hx. apply strip_cr_id, line_plain; [auto|]. apply (H x Hx).
Qed.
Lemma parse_line_ok x : parse_line (line x) = Some (digest (snd x), (n ++ "/" ++ fst x)%string).
Proof.
  unfold parse_line, line. destruct (HD (snd x)) as [HL HX]. 
  assert (S : forall r, skip_space (digest (snd x) ++ r)%string = (digest (snd x) ++ r)%string).
  { intros r. destruct (digest (snd x)) as [|c s]; [discriminate|]. cbn [append skip_space]. rewrite (hex_not_space c); [auto|]. apply HX. left. auto. }
  rewrite S, <- HL, take_hex_app by auto. cbn [append]. destruct HN as (N & _). cbn [Ascii.eqb Bool.eqb andb orb].
  destruct n as [|c s]; [congruence|reflexivity].
Qed.
Lemma join_line name : inside name -> path_join d (n ++ "/" ++ name)%string = p ++ rel name.
Proof.
  intros HI. rewrite <- (path_join_inside p name HI). unfold path_join.
  destruct HN as (N1 & N2 & N3 & N4 & _). change ("/" ++ name)%string with (String "/" name). rewrite split_app by auto. cbn [fold_left].
  replace (join_seg d n) with p; [auto|]. unfold join_seg.
  destruct (String.eqb_spec n ""); [contradiction|]. destruct (String.eqb_spec n "."); [contradiction|]. destruct (String.eqb_spec n ".."); [contradiction|]. auto.
Qed.
Lemma hashes_ok l : forall m, (forall x, In x l -> fit (fst x)) -> NoDup (map fst m ++ map (fun x => p ++ rel (fst x)) l) ->
  stored_hashes p m (map line l) = Some (m ++ map (fun x => (p ++ rel (fst x), digest (snd x))) l).
Proof.
  induction l as [|x l IH]; intros m HF ND; cbn [map stored_hashes]; [rewrite app_nil_r; auto|].
  rewrite parse_line_ok, removelast_last, join_line by (apply (HF x); left; auto).
  rewrite path_text_prefix by (destruct d; discriminate). cbn [map] in ND.
  rewrite put_new by (apply NoDup_remove_2 in ND; rewrite in_app_iff in ND; tauto).
  rewrite IH; [rewrite <- app_assoc; auto|intros; apply HF; right; auto|]. rewrite map_app, <- app_assoc. exact ND.
Qed.
Lemma check_ok f l : forall z, (forall x, In x l -> f (p ++ rel (fst x)) = Some (File (snd x))) ->
  check_hashes digest f (map (fun x => (p ++ rel (fst x), digest (snd x))) l) z = Some (fold_left (fun z x => (z + Z.of_nat (String.length (snd x)))%Z) l z).
Proof.
  induction l as [|x l IH]; intros z H; cbn [map check_hashes fold_left]; [auto|]. rewrite (H x) by (left; auto). rewrite String.eqb_refl. apply IH. intros; apply H; right; auto.
Qed.
Lemma total_files es : forall z, fold_left (fun z x => (z + Z.of_nat (String.length (snd x)))%Z) (files es) z = (z + total_size es)%Z.
Proof.
  induction es as [|[x|x c] es IH]; intros z; cbn [files flat_map app fold_left total_size]; [lia|apply IH|]. fold (files es). cbn [fold_left snd]. rewrite IH. lia.
Qed.
Lemma reload es f : (forall x, In x (files es) -> fit (fst x)) -> NoDup (map (fun x => rel (fst x)) (files es)) ->
  persisted digest settings_ok d n es f -> runner_Verify digest settings_ok p f = Some (total_size es).
Proof.
  intros HF ND [HS HT (c & HC1 & HC2)]. unfold runner_Verify. rewrite with_ext_snoc, HT, text_lines, scan_text by auto.
  rewrite hashes_ok; [|auto|]. 2: { cbn [map app]. rewrite <- (map_map (fun x => rel (fst x)) (fun r => p ++ r)). apply Injective_map_NoDup; [|auto]. intros a b E. apply app_inv_head in E. auto. }
  cbn [app]. rewrite check_ok; [|intros [nm k] Hx; apply HS, content_files; auto].
  rewrite HC1, HC2, total_files. f_equal. 
Qed.
End Reload.

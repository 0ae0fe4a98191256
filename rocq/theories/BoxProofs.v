(* Proofs about the files and processes of a grading. *)
From Coq Require Import String Ascii List Bool Arith ZArith Lia Permutation.
From Verif Require Import GoStr InModel LitModel FeSpec FePathProps BoxModel BoxSpec.
Import ListNotations.
Local Open Scope string_scope.

(* ---- strings ---- *)
Fixpoint lastc (s : string) : option ascii := match s with "" => None | String a "" => Some a | String _ s => lastc s end.
Lemma lastc_app a c s : lastc (a ++ String c s) = lastc (String c s).
Proof. induction a as [|x a IH]; [reflexivity|]. cbn [append]. destruct a; [reflexivity|]. cbn [append] in *. exact IH. Qed.
Lemma slen_app (a b : string) : String.length (a ++ b) = (String.length a + String.length b)%nat.
Proof. induction a; cbn; auto. Qed.
Lemma app_inj_l (a b s : string) : a ++ s = b ++ s -> a = b.
Proof.
  revert b. induction a as [|x a IH]; intros [|y b] E; auto.
  - exfalso. apply (f_equal String.length) in E. cbn in E. rewrite slen_app in E. lia.
  - exfalso. apply (f_equal String.length) in E. cbn in E. rewrite slen_app in E. lia.
  - cbn in E. injection E as -> E. f_equal. auto.
Qed.
Lemma sapp_assoc (a b c : string) : (a ++ b) ++ c = a ++ b ++ c.
Proof. induction a as [|x a IH]; [reflexivity|]. cbn. f_equal. exact IH. Qed.

(* ---- paths ---- *)
Lemma path_eqb_spec p q : reflect (p = q) (path_eqb p q).
Proof.
  revert q. induction p as [|a p IH]; intros [|b q]; cbn; try (constructor; congruence).
  destruct (String.eqb_spec a b) as [->|N]; cbn; [|constructor; congruence]. destruct (IH q); constructor; congruence.
Qed.
Lemma inode_eqb_spec i j : reflect (i = j) (inode_eqb i j).
Proof.
  destruct i as [p|p n], j as [q|q m]; cbn; try (constructor; congruence).
  - destruct (path_eqb_spec p q); constructor; congruence.
  - destruct (path_eqb_spec p q); cbn; [|constructor; congruence]. destruct (Nat.eqb_spec n m); constructor; congruence.
Qed.
Lemma strip_spec p : forall q, match strip p q with Some r => q = (p ++ r)%list | None => ~ under p q end.
Proof.
  induction p as [|a p IH]; intros [|b q]; cbn; auto.
  - intros (r & E). discriminate.
  - destruct (String.eqb_spec a b) as [->|N].
    + specialize (IH q). destruct (strip p q); [congruence|]. intros (r & E). apply IH. exists r. injection E as ->. reflexivity.
    + intros (r & E). injection E as E _. congruence.
Qed.
Lemma under_app p r : under p (p ++ r)%list.
Proof. exists r. reflexivity. Qed.
Lemma apart_under (p q r : path) : apart p q -> under q r -> ~ under p r.
Proof.
  intros [A B] (x & ->) (y & E).
  assert (C : forall (p q x y : path), (q ++ x)%list = (p ++ y)%list -> under p q \/ under q p).
  { clear. induction p as [|a p IH]; intros q x y E; [left; exists q; reflexivity|]. destruct q as [|b q]; [right; exists (a :: p); reflexivity|].
    cbn in E. injection E as -> E. destruct (IH _ _ _ E) as [(r & ->)|(r & ->)]; [left; exists r; reflexivity|right; exists r; reflexivity]. }
  destruct (C _ _ _ _ E); auto.
Qed.
Lemma join_plain p x : plain x -> path_join p x = p \/ path_join p x = removelast p \/ path_join p x = (p ++ [x])%list.
Proof.
  intros H. unfold path_join. rewrite split_single by exact H. cbn [fold_left]. unfold join_seg. destruct (_ || _); [auto|]. destruct (_ =? _); auto.
Qed.
Lemma identifier_entry s : identifier s -> entry_name s.
Proof.
  intros (A & B & C). unfold entry_name. repeat split; auto; intros ->; apply C; cbn; auto.
Qed.
(* a name with an extension *)
Definition dotted (s : string) : Prop := exists a b, s = a ++ "." ++ b /\ plain a /\ plain b /\ b <> "" /\ b <> ".".
Lemma dotted_entry s : dotted s -> entry_name s.
Proof.
  intros (a & b & -> & A & B & C & D). unfold entry_name. repeat split.
  - destruct a; discriminate.
  - destruct a as [|x a]; cbn; [congruence|]. intros E. injection E as _ E. destruct a; discriminate.
  - destruct a as [|x [|y a]]; cbn; [congruence| |intros E; injection E as _ _ E; destruct a; discriminate]. intros E. injection E as _ E. congruence.
  - change ("." ++ b) with (String "." b). rewrite contains_app, contains_cons. intros [X|[X|X]]; [auto|discriminate|auto].
Qed.
Lemma dotted_case c e : plain c -> In e [".in"; ".out"; ".err"; ".meta"] -> dotted (c ++ e).
Proof.
  intros H I. assert (X : forall b, plain b -> b <> "" -> b <> "." -> dotted (c ++ "." ++ b)) by (intros b A B C; exists c, b; auto).
  destruct I as [<-|[<-|[<-|[<-|[]]]]]; [apply (X "in")|apply (X "out")|apply (X "err")|apply (X "meta")]; try discriminate; intros Y; cbn in Y; intuition discriminate.
Qed.
Lemma join_case p c e : plain c -> In e [".in"; ".out"; ".err"; ".meta"] -> path_join p (c ++ e) = (p ++ [(c ++ e)%string])%list.
Proof. intros. apply join_entry. apply dotted_entry. apply dotted_case; auto. Qed.
Ltac lit := apply join_entry; unfold entry_name; repeat split; try discriminate; intros X; cbn in X; intuition discriminate.
Lemma join_bin p : path_join p "bin" = (p ++ ["bin"])%list. Proof. lit. Qed.
Lemma join_pipes p : path_join p "pipes" = (p ++ ["pipes"])%list. Proof. lit. Qed.
Lemma join_main p : path_join p "Main" = (p ++ ["Main"])%list. Proof. lit. Qed.
Lemma join_validator p : path_join p "validator" = (p ++ ["validator"])%list. Proof. lit. Qed.
Lemma join_cases p : path_join p "cases" = (p ++ ["cases"])%list. Proof. lit. Qed.
Lemma join_empty p : path_join p "" = p. Proof. reflexivity. Qed.
Lemma join_prefixed p e x : plain x -> plain e -> e <> "" -> e <> "." -> e <> ".." -> path_join p (e ++ "." ++ x) = (p ++ [(e ++ "." ++ x)%string])%list.
Proof.
  intros A B C D E. apply join_entry. unfold entry_name. repeat split.
  - destruct e; [congruence|discriminate].
  - destruct e as [|a [|b e]]; cbn; try congruence.
  - destruct e as [|a [|b [|z e]]]; cbn; try congruence.
  - change ("." ++ x) with (String "." x). rewrite contains_app, contains_cons. intros [X|[X|X]]; [auto|discriminate|auto].
Qed.
Lemma base_plain s : plain (base s) \/ base s = "/".
Proof.
  unfold base. destruct (s =? ""); [left; intros X; cbn in X; intuition discriminate|].
  pose proof (split_parts "/" s) as F. rewrite Forall_forall in F.
  assert (G : forall l, (forall x, In x l -> plain x) -> match drop_empty l with [] => "/" | x :: _ => x end = "/" \/ plain (match drop_empty l with [] => "/" | x :: _ => x end)).
  { induction l as [|x l IH]; cbn; intros H; [auto|]. destruct x; [apply IH; intros; apply H; right; auto|]. right. apply H. left. auto. }
  destruct (G (rev (split "/" s))) as [E|E]; auto. intros x I. apply in_rev in I. exact (F x I).
Qed.
Lemma join_base p s : path_join p (base s) = p \/ path_join p (base s) = removelast p \/ path_join p (base s) = (p ++ [base s])%list.
Proof. destruct (base_plain s) as [H|H]; [apply join_plain; auto|rewrite H; left; reflexivity]. Qed.
Lemma ext_plain s : plain s -> plain (LanguageFileExtension s).
Proof.
  intros H. unfold LanguageFileExtension. destruct (existsb _ _); [intros X; cbn in X; intuition discriminate|]. destruct (existsb _ _); [intros X; cbn in X; intuition discriminate|].
  destruct (existsb _ _); [intros X; cbn in X; intuition discriminate|auto].
Qed.
Lemma ext_of_path (p : path) x e : with_ext (p ++ [x]) e = (p ++ [(x ++ e)%string])%list.
Proof. unfold with_ext. rewrite removelast_last, last_last. reflexivity. Qed.

(* ---- the run ---- *)
Section Grade.
Variable root input : path.
Variable preserve : bool.
Variable set : settings.
Variable run : request.
Variable archive_ok : bool.
Variable order1 order2 : list (string * list (string * iface)) -> list (string * list (string * iface)).
Variable order3 : list string -> list string.
Variable opens : string -> bool.
Variable there : path -> bool.
Hypothesis ORDER1 : forall l, Permutation l (order1 l).
Hypothesis ORDER2 : forall l, Permutation l (order2 l).
Hypothesis ORDER3 : forall l, Permutation l (order3 l).
Hypothesis SANE : sane set run.
Hypothesis EMPTY : empty_root root there.
Hypothesis APART : apart root input.
Notation ext := LanguageFileExtension.
Notation prepare := (prepare root input set run archive_ok order1 order2 order3).
Notation call_of := (call_of root input set run).
Notation writes := (writes root input set run).
Notation sees := (sees root input set run).
Notation step := (step root input preserve set run opens).
Notation reachable := (reachable root input preserve set run archive_ok order1 order2 order3 opens there).
Notation steps := (steps root input preserve set run opens).
Notation in_root := (in_root root).
Notation main_binary := (main_binary root set run).
Notation child_binary := (child_binary root set run).
Notation parent_binary := (parent_binary root set run).
Notation validator_binary := (validator_binary root set run).
Notation out_path := (out_path root).
Notation vdir := (vdir root).

Definition iface_name (nm : string) : Prop := exists it, interactive set = Some it /\ In nm (map fst (Interfaces it)).
Definition contestant (nm : string) : Prop := interactive set = None /\ nm = "Main" \/ iface_name nm /\ nm <> "Main".
Lemma iface_id nm : iface_name nm -> identifier nm /\ nm <> "validator".
Proof. intros (it & E & I). destruct (sane_interactive _ _ SANE it E) as (_ & _ & _ & _ & H). auto. Qed.
Lemma main_id : identifier "Main".
Proof. unfold identifier. repeat split; [discriminate| |]; intros X; cbn in X; intuition discriminate. Qed.
Lemma validator_id : identifier "validator".
Proof. unfold identifier. repeat split; [discriminate| |]; intros X; cbn in X; intuition discriminate. Qed.
Lemma contestant_id nm : contestant nm -> identifier nm /\ nm <> "validator".
Proof. intros [[_ ->]|[H _]]; [split; [apply main_id|discriminate]|apply iface_id; auto]. Qed.
Lemma main_it it : interactive set = Some it -> Main it = "Main".
Proof. intros E. apply (sane_interactive _ _ SANE it E). Qed.

(* the binaries there can be *)
Inductive bin_ok : binary -> Prop :=
| ok_main : interactive set = None -> lang run <> "cat" -> bin_ok main_binary
| ok_parent : forall it src, interactive set = Some it -> bin_ok (parent_binary it src)
| ok_child : forall nm src, iface_name nm -> nm <> "Main" -> bin_ok (child_binary nm src)
| ok_validator : forall vl, validator_name set = "custom" -> validator_lang set = Some vl -> bin_ok (validator_binary vl).

Ltac cbin := cbn [BoxModel.main_binary BoxModel.parent_binary BoxModel.child_binary BoxModel.validator_binary binPath name target language outputPathPrefix binaryType blimits receiveInput sourceFiles extraFlags extraMountPoints].
Ltac cbin_in H := cbn [BoxModel.main_binary BoxModel.parent_binary BoxModel.child_binary BoxModel.validator_binary binPath name target language outputPathPrefix binaryType blimits receiveInput sourceFiles extraFlags extraMountPoints] in H.
Lemma root_bin nm : identifier nm -> path_join (in_root nm) "bin" = (root ++ [nm; "bin"])%list.
Proof. intros H. unfold BoxModel.in_root. rewrite join_bin, (join_entry _ nm) by (apply identifier_entry; auto). rewrite <- app_assoc. reflexivity. Qed.
Lemma root_pipes nm : identifier nm -> path_join (in_root nm) "pipes" = (root ++ [nm; "pipes"])%list.
Proof. intros H. unfold BoxModel.in_root. rewrite join_pipes, (join_entry _ nm) by (apply identifier_entry; auto). rewrite <- app_assoc. reflexivity. Qed.
Lemma vdir_eq : vdir = (root ++ ["validator"; "bin"])%list.
Proof. apply root_bin. apply validator_id. Qed.
Lemma bin_name b : bin_ok b -> identifier (name b).
Proof.
  intros []; cbn; [apply main_id|rewrite (main_it it) by auto; apply main_id|apply iface_id; auto|apply validator_id].
Qed.
Lemma bin_path b : bin_ok b -> binPath b = (root ++ [name b; "bin"])%list.
Proof.
  intros H. pose proof (bin_name b H) as N. destruct H; cbin; cbin_in N; apply root_bin; auto.
Qed.
Lemma bin_contestant b : bin_ok b -> binaryType b = Contestant -> contestant (name b) /\ (forall m t, In (m, t) (extraMountPoints b) -> m = (root ++ [name b; "pipes"])%list).
Proof.
  intros [E _|it src E|nm src I N|vl E1 E2]; cbin; intros H; try discriminate.
  - split; [left; auto|cbn; tauto].
  - split; [right; auto|]. intros m t [X|[]]. injection X as <- _. apply root_pipes. apply iface_id. auto.
Qed.
Lemma bin_validator b : bin_ok b -> name b = "validator" <-> binaryType b = Validator.
Proof.
  intros [E _|it src E|nm src I N|vl E1 E2]; cbn; split; intros H; try discriminate; auto.
  - rewrite (main_it it) in H by auto. discriminate.
  - apply iface_id in I. tauto.
Qed.
Lemma bin_prefix b : bin_ok b -> outputPathPrefix b = name b /\ (binaryType b = Contestant /\ interactive set <> None \/ binaryType b = Validator) /\ name b <> "Main" \/
  outputPathPrefix b = "" /\ name b = "Main" /\ binaryType b <> Validator.
Proof.
  intros [E _|it src E|nm src I N|vl E1 E2]; cbn; auto.
  - right. repeat split; discriminate.
  - right. rewrite (main_it it) by auto. repeat split; discriminate.
  - left. destruct I as (it & X & _). repeat split; [left; split; [auto|congruence]|auto].
  - left. repeat split; [auto|discriminate].
Qed.

Lemma find_in {A} k (l : list (string * A)) v : find k l = Some v -> In (k, v) l.
Proof. induction l as [|(k' & v') l IH]; cbn; [discriminate|]. destruct (String.eqb_spec k k') as [->|N]; [intros [= ->]; auto|auto]. Qed.
Lemma children_ok it l bs : interactive set = Some it -> incl l (Interfaces it) -> NoDup (map fst l) -> child_binaries root set run it l = Some (Some bs) ->
  Forall bin_ok bs /\ NoDup (map name bs) /\ (forall b, In b bs -> name b <> "Main" /\ In (name b) (map fst l)).
Proof.
  intros E. revert bs. induction l as [|(nm & m) l IH]; cbn; intros bs HI ND H.
  - injection H as <-. repeat split; [constructor|constructor| |]; destruct H.
  - inversion ND as [|? ? N1 N2]; subst. assert (HI' : incl l (Interfaces it)) by (intros x X; apply HI; right; auto).
    destruct (String.eqb_spec nm (Main it)) as [->|NM].
    + destruct (IH _ HI' N2 H) as (A & B & C). split; [auto|]. split; [auto|]. intros b X. destruct (C b X). auto.
    + destruct (find _ m) as [i|]; [|discriminate]. destruct (normalizedSourceFiles root nm i) as [src|]; [|discriminate].
      destruct (child_binaries root set run it l) as [[bs'|]|] eqn:CB; try discriminate. injection H as <-. destruct (IH _ HI' N2 eq_refl) as (A & B & C).
      rewrite (main_it it E) in NM. repeat split.
      * constructor; [|auto]. apply ok_child; auto. exists it. split; [auto|]. apply in_map_iff. exists (nm, m). split; [auto|]. apply HI. left. auto.
      * cbn. constructor; [|auto]. intros X. apply in_map_iff in X as (b & Eb & X). destruct (C b X) as [_ Y]. rewrite Eb in Y. auto.
      * destruct H as [<-|X]; [exact NM|apply (C b X)].
      * destruct H as [<-|X]; [left; reflexivity|right; apply (C b X)].
Qed.
Lemma prepared_bins bs l : snd prepare = Ready bs l -> Forall bin_ok bs /\ NoDup (map name bs).
Proof.
  assert (V : forall ops bs0, Forall bin_ok bs0 -> NoDup (map name bs0) -> (forall b, In b bs0 -> name b <> "validator") ->
     snd (with_validator root input set run ops bs0) = Ready bs l -> Forall bin_ok bs /\ NoDup (map name bs)).
  { intros ops bs0 A B C. unfold with_validator. destruct (String.eqb_spec (validator_name set) "custom") as [E|N]; [|cbn; intros [= <- _]; auto].
    destruct (validator_lang set) as [vl|] eqn:EV; [|discriminate]. cbn. intros [= <- _]. split.
    - apply Forall_app. split; [auto|]. repeat constructor; auto.
    - rewrite map_app. cbn. apply Permutation_NoDup with (l := "validator" :: map name bs0); [apply Permutation_cons_append|]. constructor; [|auto].
      intros X. apply in_map_iff in X as (b & Eb & X). exact (C b X Eb). }
  unfold BoxModel.prepare. destruct (interactive set) as [it|] eqn:EI.
  - destruct (match find (Main it) (Interfaces it) with None => None | Some m => find (Parent it) m end) as [i|]; [|discriminate].
    destruct (normalizedSourceFiles root (Main it) i) as [src|]; [|discriminate].
    destruct (child_binaries root set run it (order1 (Interfaces it))) as [[cs|]|] eqn:CB; try discriminate. cbn zeta.
    assert (P := ORDER1 (Interfaces it)). destruct (sane_interactive _ _ SANE it EI) as (EM & _ & _ & ND & ID).
    apply children_ok in CB as (A & B & C); auto.
    + destruct (snd (interface_ops root run order3 it (order2 (Interfaces it)))); [|discriminate]. apply V.
      * constructor; [|auto]. apply ok_parent. auto.
      * cbn. constructor; [|auto]. rewrite EM. intros X. apply in_map_iff in X as (b & Eb & X). destruct (C b X). auto.
      * intros b [<-|X]; [cbn; rewrite EM; discriminate|]. destruct (C b X) as [_ Y]. apply ID.
        apply (Permutation_in (l := map fst (order1 (Interfaces it)))); [apply Permutation_map; symmetry; auto|auto].
    + intros x X. apply (Permutation_in (l := order1 (Interfaces it))); [symmetry; auto|auto].
    + apply (Permutation_NoDup (l := map fst (Interfaces it))); [apply Permutation_map; auto|auto].
  - destruct (String.eqb_spec (lang run) "cat") as [E|N].
    + destruct archive_ok; [|discriminate]. apply V; [constructor|constructor|intros b []].
    + apply V; [repeat constructor; auto|repeat constructor; cbn; auto|]. intros b [<-|[]]. discriminate.
Qed.

(* names that are given to files of the problem *)
Inductive link0 : path -> path -> Prop :=
| link_main : forall it, interactive set = Some it ->
    link0 (root ++ ["Main"; "bin"; ("Main." ++ ext (Parent it))%string])%list (input ++ ["interactive"; ("Main." ++ ext (Parent it))%string])%list
| link_validator : forall vl, validator_name set = "custom" -> validator_lang set = Some vl ->
    link0 (root ++ ["validator"; "bin"; ("validator." ++ ext vl)%string])%list (input ++ [("validator." ++ vl)%string])%list.
Definition source_place (nm : string) (p : path) : Prop :=
  p = (root ++ [nm])%list \/ p = (root ++ [nm; "bin"])%list \/
  exists x, p = (root ++ [nm; "bin"; x])%list /\ forall it, interactive set = Some it -> nm = "Main" -> x <> ("Main." ++ ext (Parent it))%string.
Inductive op_ok : op -> Prop :=
| ok_mkdir : forall p, op_ok (Mkdir p)
| ok_copy : forall a b, link0 b a -> op_ok (Copy a b)
| ok_write : forall nm p o, contestant nm \/ iface_name nm -> (o = Submission /\ contestant nm \/ exists f, o = Library nm f) -> source_place nm p -> op_ok (Write p o)
| ok_fifo : forall nm x, contestant nm -> op_ok (Mkfifo (root ++ [nm; "pipes"; x])%list).
Fixpoint copy_targets (l : list op) : list path := match l with [] => [] | Copy _ b :: l => b :: copy_targets l | _ :: l => copy_targets l end.
Lemma copy_targets_app a b : copy_targets (a ++ b) = (copy_targets a ++ copy_targets b)%list.
Proof. induction a as [|o a IH]; [reflexivity|]. cbn. destruct o; rewrite IH; reflexivity. Qed.

Lemma in_bin nm x : identifier nm -> in_root (nm ++ "/bin/" ++ x) = path_join (root ++ [nm; "bin"])%list x.
Proof.
  intros H. unfold BoxModel.in_root. change (nm ++ "/bin/" ++ x) with (nm ++ "/" ++ ("bin" ++ "/" ++ x)). rewrite join_entries by (apply identifier_entry; auto).
  rewrite join_entries; [rewrite <- app_assoc; reflexivity|]. unfold entry_name. repeat split; try discriminate. intros X. cbn in X. intuition discriminate.
Qed.
Lemma removelast_bin nm : removelast (root ++ [nm; "bin"])%list = (root ++ [nm])%list.
Proof. change (root ++ [nm; "bin"])%list with (root ++ ([nm] ++ ["bin"]))%list. rewrite app_assoc, removelast_last. reflexivity. Qed.
Lemma snoc_bin nm x : ((root ++ [nm; "bin"]) ++ [x])%list = (root ++ [nm; "bin"; x])%list.
Proof. rewrite <- app_assoc. reflexivity. Qed.
Lemma find_in_names {A} k (l : list (string * A)) v : find k l = Some v -> In k (map fst l).
Proof. intros H. apply find_in in H. apply in_map_iff. exists (k, v). auto. Qed.

Lemma interface_ops_ok it l : interactive set = Some it -> incl l (Interfaces it) ->
  Forall op_ok (fst (interface_ops root run order3 it l)) /\ copy_targets (fst (interface_ops root run order3 it l)) = [].
Proof.
  intros E. induction l as [|(nm & m) l IH]; cbn [interface_ops]; intros HI; [split; [constructor|reflexivity]|].
  assert (IN : iface_name nm). { exists it. split; [auto|]. apply in_map_iff. exists (nm, m). split; [auto|]. apply HI. left. auto. }
  pose proof (proj1 (iface_id nm IN)) as ID.
  destruct (find (if nm =? "Main" then ext (Parent it) else ext (lang run)) m) as [i|] eqn:F; [|split; [constructor|reflexivity]]. cbn zeta.
  destruct IH as [A B]. { intros x X. apply HI. right. auto. }
  set (writes0 := map (fun f => Write (in_root (nm ++ "/bin/" ++ base f)) (Library nm f)) (order3 (IfaceFiles i))).
  assert (W : Forall op_ok writes0 /\ copy_targets writes0 = []).
  { unfold writes0. split; [|induction (order3 (IfaceFiles i)); cbn; auto]. apply Forall_forall. intros o X. apply in_map_iff in X as (f & <- & X).
    apply (ok_write nm); [auto|right; exists f; auto|]. rewrite in_bin by auto. unfold source_place.
    destruct (join_base (root ++ [nm; "bin"])%list f) as [J|[J|J]]; rewrite J; [auto|rewrite removelast_bin; auto|]. rewrite snoc_bin.
    right. right. exists (base f). split; [auto|]. intros it' E' ->. rewrite E in E'. injection E' as <-.
    apply (sane_files _ _ SANE it m (ext (Parent it)) i f); auto; [apply HI; left; auto|apply find_in; auto|].
    apply (Permutation_in (l := order3 (IfaceFiles i))); [symmetry; apply ORDER3|auto]. }
  destruct W as [W1 W2]. destruct (String.eqb_spec nm "Main") as [->|N]; cbn [fst].
  - split.
    + apply Forall_app. split; [auto|]. apply Forall_app. split; [|auto]. apply Forall_forall. intros o X. apply in_flat_map in X as ((k & v) & _ & X). destruct (_ =? _); [destruct X|]. destruct X as [<-|[]]. constructor.
    + rewrite !copy_targets_app, W2, B, app_nil_r. cbn [app]. generalize (Interfaces it). intros l0. induction l0 as [|x t IHt]; [reflexivity|]. cbn [flat_map]. rewrite copy_targets_app, IHt. destruct (fst x =? "Main"); reflexivity.
  - assert (CO : contestant nm) by (right; auto). split.
    + apply Forall_app. split; [auto|]. constructor; [|constructor; [constructor|constructor; [constructor|constructor; [|constructor; [|auto]]]]].
      * apply (ok_write nm); [auto|left; auto|]. rewrite in_bin by auto. destruct (sane_interactive _ _ SANE it E) as (_ & PM & _).
        assert (PX : plain (Module it ++ "." ++ ext (lang run))).
        { unfold plain. change ("." ++ ext (lang run)) with (String "." (ext (lang run))). rewrite contains_app, contains_cons. intros [X|[X|X]]; [auto|discriminate|exact (ext_plain _ (sane_lang _ _ SANE) X)]. }
        destruct (join_plain (root ++ [nm; "bin"])%list _ PX) as [J|[J|J]]; rewrite J; unfold source_place; [auto|rewrite removelast_bin; auto|]. rewrite snoc_bin. right. right. eexists. split; [reflexivity|]. intros; congruence.
      * rewrite root_pipes by auto. rewrite (join_entry _ "in"), <- app_assoc; [apply ok_fifo; auto|]. unfold entry_name. repeat split; try discriminate. intros X. cbn in X. intuition discriminate.
      * rewrite root_pipes by auto. rewrite (join_entry _ "out"), <- app_assoc; [apply ok_fifo; auto|]. unfold entry_name. repeat split; try discriminate. intros X. cbn in X. intuition discriminate.
    + rewrite copy_targets_app, W2. cbn. auto.
Qed.
Lemma join_ext p e x : In e ["Main"; "validator"] -> plain x -> path_join p (e ++ "." ++ ext x) = (p ++ [(e ++ "." ++ ext x)%string])%list.
Proof. intros I H. apply join_prefixed; [apply ext_plain; auto| | | |]; destruct I as [<-|[<-|[]]]; try discriminate; intros X; cbn in X; intuition discriminate. Qed.
Lemma with_validator_ok ops bs : Forall op_ok ops -> NoDup (copy_targets ops) -> (forall x, ~ In (root ++ ["validator"; "bin"; x])%list (copy_targets ops)) ->
  Forall op_ok (fst (with_validator root input set run ops bs)) /\ NoDup (copy_targets (fst (with_validator root input set run ops bs))).
Proof.
  intros A B C. unfold with_validator. destruct (String.eqb_spec (validator_name set) "custom") as [E|N]; [|auto].
  destruct (validator_lang set) as [vl|] eqn:EV; cbn [fst].
  - rewrite (root_bin "validator") by apply validator_id. pose proof (sane_validator _ _ SANE vl EV) as PV.
    change ("validator." ++ ext vl) with ("validator" ++ "." ++ ext vl). rewrite join_ext by (cbn; auto). rewrite snoc_bin. split.
    + apply Forall_app. split; [auto|]. constructor; [constructor|]. constructor; [|constructor]. apply ok_copy.
      rewrite join_entry; [apply link_validator; auto|].
      unfold entry_name. repeat split; try discriminate. change ("validator." ++ vl) with ("validator." ++ vl). rewrite contains_app. intros [X|X]; [cbn in X; intuition discriminate|].
      exact (sane_validator _ _ SANE vl EV X).
    + rewrite copy_targets_app. cbn [copy_targets]. apply (Permutation_NoDup (l := (root ++ ["validator"; "bin"; ("validator" ++ "." ++ ext vl)%string])%list :: copy_targets ops)); [apply Permutation_cons_append|]. constructor; auto.
  - rewrite copy_targets_app. cbn. rewrite app_nil_r. split; [|auto]. apply Forall_app. split; [auto|]. repeat constructor.
Qed.
Lemma prepare_ok : Forall op_ok (fst prepare) /\ NoDup (copy_targets (fst prepare)).
Proof.
  unfold BoxModel.prepare. assert (Z : Forall op_ok [] /\ NoDup (copy_targets [])) by (split; constructor). destruct (interactive set) as [it|] eqn:EI.
  - destruct (match find (Main it) (Interfaces it) with None => None | Some m => find (Parent it) m end) as [i|]; [|exact Z].
    destruct (normalizedSourceFiles root (Main it) i) as [src|]; [|exact Z].
    destruct (child_binaries root set run it (order1 (Interfaces it))) as [[cs|]|]; [|exact Z|exact Z]. cbn zeta.
    destruct (interface_ops_ok it (order2 (Interfaces it)) EI) as [A B].
    { intros x X. apply (Permutation_in (l := order2 (Interfaces it))); [symmetry; auto|auto]. }
    destruct (sane_interactive _ _ SANE it EI) as (EM & _ & PP & _).
    assert (IB : in_root ("Main/bin/Main." ++ ext (Parent it)) = (root ++ ["Main"; "bin"; ("Main." ++ ext (Parent it))%string])%list).
    { change ("Main/bin/Main." ++ ext (Parent it)) with ("Main" ++ "/bin/" ++ ("Main" ++ "." ++ ext (Parent it))). rewrite in_bin by apply main_id. rewrite join_ext by (cbn; auto). apply snoc_bin. }
    rewrite IB.
    set (ops := (map (fun b => Mkdir (path_join (in_root (name b)) "bin")) (parent_binary it src :: cs) ++ _)%list).
    assert (O : Forall op_ok ops /\ copy_targets ops = [(root ++ ["Main"; "bin"; ("Main." ++ ext (Parent it))%string])%list]).
    { unfold ops. split.
      - apply Forall_app. split; [apply Forall_forall; intros o X; apply in_map_iff in X as (b & <- & _); constructor|]. apply Forall_app. split; [|auto]. constructor; [apply ok_copy|constructor].
        change ("interactive/Main." ++ ext (Parent it)) with ("interactive" ++ "/" ++ ("Main" ++ "." ++ ext (Parent it))).
        rewrite join_entries. 2:{ unfold entry_name. repeat split; try discriminate. intros X. cbn in X. intuition discriminate. }
        rewrite join_ext by (cbn; auto). rewrite <- app_assoc. apply link_main. auto.
      - rewrite !copy_targets_app, B. cbn [copy_targets]. rewrite app_nil_r. replace (copy_targets (map _ _)) with (@nil path); [reflexivity|]. generalize (parent_binary it src :: cs). induction l; cbn; auto. }
    destruct O as [O1 O2]. destruct (snd (interface_ops root run order3 it (order2 (Interfaces it)))) eqn:ES.
    + apply (with_validator_ok ops); [auto|rewrite O2; repeat constructor; cbn; auto|]. rewrite O2. intros x [X|[]]. apply app_inv_head in X. discriminate.
    + cbn [fst]. change (Forall op_ok ops /\ NoDup (copy_targets ops)). split; [auto|]. rewrite O2. repeat constructor; cbn; auto.
  - cbn zeta. rewrite (root_bin "Main") by apply main_id. change ("Main." ++ ext (lang run)) with ("Main" ++ "." ++ ext (lang run)). rewrite join_ext, snoc_bin by (cbn; auto; apply (sane_lang _ _ SANE)).
    match goal with |- context [with_validator _ _ _ _ ?o []] => set (ops := o) end.
    assert (O : Forall op_ok ops /\ copy_targets ops = []).
    { split; [|reflexivity]. constructor; [constructor|]. constructor; [|constructor]. apply (ok_write "Main"); [left; left; auto|left; split; [auto|left; auto]|]. right. right. eexists. split; [reflexivity|]. intros; congruence. }
    destruct O as [O1 O2]. assert (O3 : NoDup (copy_targets ops)) by (rewrite O2; constructor).
    assert (O4 : forall bs, Forall op_ok (fst (with_validator root input set run ops bs)) /\ NoDup (copy_targets (fst (with_validator root input set run ops bs)))).
    { intros bs. apply with_validator_ok; auto; rewrite O2; auto. }
    destruct (lang run =? "cat"); [|apply O4]. destruct archive_ok; [apply O4|auto].
Qed.

(* ---- where processes write ---- *)
Definition all_bins : list binary := match snd prepare with Ready bs _ => bs | _ => [] end.
Lemma all_ok : Forall bin_ok all_bins /\ NoDup (map name all_bins).
Proof. unfold all_bins. destruct (snd prepare) as [bs l| |] eqn:E; [apply (prepared_bins bs l E)|split; constructor|split; constructor]. Qed.
Lemma bins_ok b : In b all_bins -> bin_ok b.
Proof. intros I. destruct all_ok as [A _]. rewrite Forall_forall in A. auto. Qed.
Lemma bins_unique b b' : In b all_bins -> In b' all_bins -> name b = name b' -> b = b'.
Proof.
  destruct all_ok as [_ N]. induction all_bins as [|x l IH]; cbn; [tauto|]. cbn in N. inversion N as [|? ? N1 N2]; subst.
  intros [->|I] [->|I'] E; auto; exfalso; apply N1; apply in_map_iff; eauto.
Qed.
Definition potential (l : label) : Prop :=
  match l with
  | Compiler b => In b all_bins
  | Program b c => In b all_bins /\ binaryType b <> Validator /\ In c (cases set)
  | Judge c => In c (cases set) /\ validator_name set = "custom"
  end.
Definition rdir (l : label) : list string :=
  match l with Compiler b => [name b] | Program b _ => if name b =? "Main" then [] else [name b] | Judge _ => ["validator"] end.
Definition stem (l : label) : string := match l with Compiler _ => "compile" | Program _ c => c | Judge c => c end.
Definition exts : list string := [".out"; ".err"; ".meta"].
Definition out_at (l : label) (e : string) : path := (root ++ rdir l ++ [(stem l ++ e)%string])%list.

Lemma case_plain c : In c (cases set) -> plain c /\ c <> "compile".
Proof. apply (sane_cases _ _ SANE). Qed.
Lemma rdir_program b c : In b all_bins -> binaryType b <> Validator -> in_root (outputPathPrefix b) = (root ++ rdir (Program b c))%list.
Proof.
  intros I N. pose proof (bins_ok b I) as OK. unfold rdir, BoxModel.in_root. destruct (bin_prefix b OK) as [(E & _ & NM)|(E & NM & _)]; rewrite E.
  - destruct (String.eqb_spec (name b) "Main"); [congruence|]. apply join_entry. apply identifier_entry. apply bin_name. auto.
  - rewrite NM. cbn. rewrite app_nil_r. reflexivity.
Qed.
Lemma join_out p c e : plain c -> In e exts -> path_join p (c ++ e) = (p ++ [(c ++ e)%string])%list.
Proof. intros H I. apply join_case; auto. right. exact I. Qed.
Lemma exts_in : In ".out" exts /\ In ".err" exts /\ In ".meta" exts.
Proof. cbn. repeat split; auto. Qed.
Lemma calls l : potential l ->
  c_out (call_of l) = out_at l ".out" /\ c_err (call_of l) = out_at l ".err" /\ c_meta (call_of l) = out_at l ".meta".
Proof.
  destruct exts_in as (E1 & E2 & E3).
  destruct l as [b|b c|c]; cbn [potential BoxModel.call_of c_out c_err c_meta]; intros P.
  - unfold out_at, rdir, stem, BoxModel.in_root. rewrite (join_entry _ (name b)) by (apply identifier_entry, bin_name, bins_ok; auto).
    assert (PC : plain "compile") by (intros X; cbn in X; intuition discriminate).
    change "compile.out" with ("compile" ++ ".out"). change "compile.err" with ("compile" ++ ".err"). change "compile.meta" with ("compile" ++ ".meta").
    rewrite !join_out by auto. rewrite <- !app_assoc. auto.
  - destruct P as (I & N & C). destruct (case_plain c C) as [PC _]. unfold BoxModel.out_path. rewrite (rdir_program b c I N), !join_out by auto. unfold out_at, stem. rewrite <- !app_assoc. auto.
  - destruct P as (C & _). destruct (case_plain c C) as [PC _]. unfold BoxModel.out_path, BoxModel.in_root. rewrite join_validator, !join_out by auto. unfold out_at, stem, rdir. rewrite <- !app_assoc. auto.
Qed.
Lemma written l p : potential l -> writes l p ->
  (exists e, In e (".err.omegajail" :: exts) /\ p = out_at l e) \/ (exists b, l = Compiler b /\ under (root ++ [name b; "bin"])%list p).
Proof.
  intros P [I|[W U]].
  - destruct (calls l P) as (C1 & C2 & C3). rewrite C1, C2, C3 in I. left.
    destruct I as [<-|[<-|[<-|[<-|[]]]]]; [exists ".out"|exists ".err"|exists ".meta"|exists ".err.omegajail"]; (split; [cbn; auto|]); auto.
    unfold out_at. rewrite app_assoc, ext_of_path, <- app_assoc, sapp_assoc. reflexivity.
  - right. destruct l as [b|b c|c]; try discriminate. exists b. split; [auto|]. cbn [BoxModel.call_of c_chdir] in U. rewrite root_bin in U by (apply bin_name, bins_ok; auto). exact U.
Qed.
Lemma dot_out s e : In e (".err.omegajail" :: exts) -> contains "." (s ++ e).
Proof. intros I. apply contains_app. right. destruct I as [<-|[<-|[<-|[<-|[]]]]]; cbn; auto. Qed.
Lemma out_not_id s e nm : In e (".err.omegajail" :: exts) -> identifier nm -> s ++ e <> nm.
Proof. intros I (_ & _ & H) E. apply H. rewrite <- E. apply dot_out. auto. Qed.
Lemma out_inj s e s' e' : In e exts -> In e' (".err.omegajail" :: exts) -> s ++ e = s' ++ e' -> s = s' /\ e = e'.
Proof.
  intros I I' E. assert (e = e').
  { assert (L : lastc (s ++ e) = lastc (s' ++ e')) by (rewrite E; reflexivity).
    destruct I as [<-|[<-|[<-|[]]]]; destruct I' as [<-|[<-|[<-|[<-|[]]]]]; rewrite !lastc_app in L; cbn in L; congruence. }
  subst e'. split; [exact (app_inj_l _ _ _ E)|auto].
Qed.
Lemma rdir_name b c : rdir (Program b c) = [] /\ name b = "Main" \/ rdir (Program b c) = [name b] /\ name b <> "Main".
Proof. unfold rdir. destruct (String.eqb_spec (name b) "Main"); auto. Qed.
Lemma out_unique l l' e e' : potential l -> potential l' -> In e exts -> In e' (".err.omegajail" :: exts) -> out_at l e = out_at l' e' -> l = l' /\ e = e'.
Proof.
  intros P P' I I' E. unfold out_at in E. apply app_inv_head in E. apply app_inj_tail in E as [ER ES]. apply out_inj in ES as [ES EE]; auto. split; [|auto].
  destruct l as [b|b c|c], l' as [b'|b' c'|c']; cbn [stem potential] in *; subst.
  - injection ER as ER. f_equal. apply bins_unique; auto.
  - destruct P' as (_ & _ & C). apply case_plain in C. tauto.
  - destruct P' as (C & _). apply case_plain in C. tauto.
  - destruct P as (_ & _ & C). apply case_plain in C. tauto.
  - destruct P as (B & _), P' as (B' & _). f_equal. apply bins_unique; auto. destruct (rdir_name b c') as [[R N]|[R N]], (rdir_name b' c') as [[R' N']|[R' N']]; rewrite R, R' in ER; congruence.
  - destruct P as (B & V & _). exfalso. apply V. apply bin_validator; [apply bins_ok; auto|]. destruct (rdir_name b c') as [[R N]|[R N]]; rewrite R in ER; cbn in ER; congruence.
  - destruct P as (C & _). apply case_plain in C. tauto.
  - destruct P' as (B & V & _). exfalso. apply V. apply bin_validator; [apply bins_ok; auto|]. destruct (rdir_name b' c') as [[R N]|[R N]]; rewrite R in ER; cbn in ER; congruence.
  - reflexivity.
Qed.
(* an output is none of the other files *)
Lemma rdir_one l : potential l -> rdir l = [] \/ exists nm, rdir l = [nm] /\ identifier nm.
Proof.
  destruct l as [b|b c|c]; cbn [potential]; intros P.
  - right. exists (name b). split; [auto|]. apply bin_name, bins_ok. auto.
  - destruct P as (B & _). destruct (rdir_name b c) as [[R _]|[R _]]; [left; auto|right; exists (name b); split; [auto|apply bin_name, bins_ok; auto]].
  - right. exists "validator". split; [auto|apply validator_id].
Qed.
Lemma out_not_top l e nm : potential l -> In e (".err.omegajail" :: exts) -> identifier nm -> out_at l e <> (root ++ [nm])%list.
Proof.
  intros P I H E. unfold out_at in E. apply app_inv_head in E. destruct (rdir_one l P) as [R|(x & R & _)]; rewrite R in E; cbn in E; [|discriminate].
  injection E as E. exact (out_not_id _ _ _ I H E).
Qed.
Lemma out_not_deep l e nm d r : potential l -> In e (".err.omegajail" :: exts) -> identifier d -> out_at l e <> (root ++ nm :: d :: r)%list.
Proof.
  intros P I H E. unfold out_at in E. apply app_inv_head in E. destruct (rdir_one l P) as [R|(x & R & _)]; rewrite R in E; cbn in E; [discriminate|].
  injection E as _ E _. exact (out_not_id _ _ _ I H E).
Qed.
Lemma bin_id : identifier "bin".
Proof. unfold identifier. repeat split; [discriminate| |]; intros X; cbn in X; intuition discriminate. Qed.
Lemma pipes_id : identifier "pipes".
Proof. unfold identifier. repeat split; [discriminate| |]; intros X; cbn in X; intuition discriminate. Qed.
Lemma under2 a b q : under (root ++ [a; b])%list q <-> exists r, q = (root ++ a :: b :: r)%list.
Proof. unfold under. split; intros (r & ->); exists r; rewrite <- ?app_assoc; reflexivity. Qed.
Lemma under_root r : under root (root ++ r)%list.
Proof. exists r. auto. Qed.
Lemma input_out r : ~ under root (input ++ r)%list.
Proof. apply (apart_under root input); [exact APART|]. exists r. auto. Qed.

(* ---- what may be in a file ---- *)
Definition cat_made (o : origin) : Prop := lang run = "cat" /\ (o = Submission \/ o = Runner).
Definition meta_in : path := (root ++ ["validator"; "bin"; "meta.in"])%list.
Record good (st : list label) (q : path) (o : origin) : Prop := {
  g_cont : forall nm, contestant nm -> q = (root ++ [nm])%list \/ (exists r, q = (root ++ nm :: "bin" :: r)%list) -> own nm o;
  g_pipe : forall nm r, q = (root ++ nm :: "pipes" :: r)%list -> o = Pipe;
  g_main : forall it r, interactive set = Some it -> q = (root ++ "Main" :: "bin" :: r)%list ->
    (exists p, under input p /\ o = Initial p) \/ (exists f, o = Library "Main" f) \/ (exists b, o = MadeBy (Compiler b) /\ binaryType b = Problemsetter);
  g_val : forall r, q = (root ++ "validator" :: "bin" :: r)%list ->
    (exists p, under input p /\ o = Initial p) \/ (exists b, o = MadeBy (Compiler b) /\ binaryType b = Validator) \/
    q = meta_in /\ ((exists b c, o = MadeBy (Program b c) /\ name b = "Main") \/ cat_made o);
  g_out : forall l e, potential l -> In e exts -> q = out_at l e -> o = MadeBy l \/ cat_made o /\ rdir l = [];
  g_case : forall c e, In c (cases set) -> In e exts -> q = (root ++ [(c ++ e)%string])%list -> (exists b, o = MadeBy (Program b c) /\ name b = "Main" /\ In b all_bins) \/ cat_made o;
  g_outside : ~ under root q -> o = Initial q \/ exists b, o = MadeBy (Compiler b) /\
    (binaryType b = Problemsetter /\ (exists it, interactive set = Some it /\ q = (input ++ ["interactive"; ("Main." ++ ext (Parent it))%string])%list) \/
     binaryType b = Validator /\ (exists vl, validator_lang set = Some vl /\ q = (input ++ [("validator." ++ vl)%string])%list));
  g_made : forall l, o = MadeBy l -> In l st
}.
Lemma good_more st st' q o : incl st st' -> good st q o -> good st' q o.
Proof. intros I [A B C D E F G H]. constructor; auto. Qed.
Ltac peel := repeat match goal with
  | H : (root ++ _)%list = (root ++ _)%list |- _ => apply app_inv_head in H
  | H : (_ :: _)%list = (_ :: _)%list |- _ => injection H; clear H; intros; subst
  | H : (?x :: _)%list = [] |- _ => discriminate H
  | H : ~ under root (root ++ _)%list |- _ => exfalso; apply H; apply under_root
  end.
Lemma good_bin st nm r o :
  (contestant nm -> own nm o) ->
  (forall it, interactive set = Some it -> nm = "Main" -> (exists p, under input p /\ o = Initial p) \/ (exists f, o = Library "Main" f) \/ (exists b, o = MadeBy (Compiler b) /\ binaryType b = Problemsetter)) ->
  (nm = "validator" -> (exists p, under input p /\ o = Initial p) \/ (exists b, o = MadeBy (Compiler b) /\ binaryType b = Validator) \/
     r = ["meta.in"] /\ ((exists b c, o = MadeBy (Program b c) /\ name b = "Main") \/ cat_made o)) ->
  (forall l, o = MadeBy l -> In l st) -> good st (root ++ nm :: "bin" :: r)%list o.
Proof.
  intros A B C D. constructor; intros; peel; try discriminate; auto.
  - destruct H0 as [E|(r' & E)]; apply app_inv_head in E; [discriminate|]. injection E as -> _. auto.
  - apply (B it); auto.
  - destruct (C eq_refl) as [X|[X|(-> & X)]]; auto.
  - exfalso. exact (out_not_deep _ _ _ _ _ H (or_intror H0) bin_id (eq_sym H1)).
Qed.
Lemma good_top st nm o : identifier nm -> (contestant nm -> own nm o) -> (forall l, o = MadeBy l -> In l st) -> good st (root ++ [nm])%list o.
Proof.
  intros ID A D. constructor; intros; peel; try discriminate; auto.
  - destruct H0 as [E|(r' & E)]; apply app_inv_head in E; [|discriminate]. injection E as ->. auto.
  - exfalso. exact (out_not_top _ _ _ H (or_intror H0) ID (eq_sym H1)).
  - exfalso. exact (out_not_id _ _ _ (or_intror H0) ID eq_refl).
Qed.
Lemma good_pipes st nm r : good st (root ++ nm :: "pipes" :: r)%list Pipe.
Proof.
  constructor; intros; peel; try discriminate; auto.
  - destruct H0 as [E|(r' & E)]; apply app_inv_head in E; discriminate.
  - exfalso. exact (out_not_deep _ _ _ _ _ H (or_intror H0) pipes_id (eq_sym H1)).
Qed.
Lemma good_output st l e : potential l -> In e (".err.omegajail" :: exts) -> In l st -> good st (out_at l e) (MadeBy l).
Proof.
  intros P I S. constructor; intros.
  - exfalso. destruct H0 as [E|(r & E)]; [exact (out_not_top l e nm P I (proj1 (contestant_id nm H)) E)|exact (out_not_deep l e nm _ r P I bin_id E)].
  - exfalso. exact (out_not_deep l e nm _ r P I pipes_id H).
  - exfalso. exact (out_not_deep l e _ _ r P I bin_id H0).
  - exfalso. exact (out_not_deep l e _ _ r P I bin_id H).
  - left. destruct (out_unique l0 l e0 e) as [-> _]; auto.
  - left. unfold out_at in H1. apply app_inv_head in H1. destruct l as [b|b c'|c']; cbn [rdir stem app] in H1; try discriminate.
    destruct P as (B & V & C). destruct (String.eqb_spec (name b) "Main") as [M|M]; [|discriminate]. cbn in H1. injection H1 as H1. apply eq_sym in H1. apply out_inj in H1 as [-> _]; auto. exists b. auto.
  - exfalso. apply H. unfold out_at. apply under_root.
  - congruence.
Qed.
Lemma good_cat st c e o : In c (cases set) -> In e exts -> cat_made o -> good st (root ++ [(c ++ e)%string])%list o.
Proof.
  intros C I M. constructor; intros; peel; try discriminate; auto.
  - destruct H0 as [E|(r' & E)]; apply app_inv_head in E; [|discriminate]. injection E as E. exfalso. exact (out_not_id _ _ _ (or_intror I) (proj1 (contestant_id nm H)) E).
  - right. split; [auto|]. unfold out_at in H1. apply app_inv_head in H1. destruct (rdir_one l H) as [R|(nm & R & _)]; [auto|]. rewrite R in H1. discriminate.
  - destruct M as [_ [->| ->]]; discriminate.
Qed.
Lemma good_link1 st q o nm x : q = (root ++ [nm; "bin"; x])%list -> nm = "validator" \/ nm = "Main" /\ interactive set <> None -> (exists p, under input p /\ o = Initial p) -> good st q o.
Proof.
  intros -> N (p & U & ->). apply good_bin; try discriminate.
  - intros C. exfalso. destruct N as [->|[-> N]]; [apply contestant_id in C; tauto|]. destruct C as [[C _]|[_ C]]; auto.
  - intros; left; eauto.
  - intros; left; eauto.
Qed.

(* ---- names ---- *)
Definition birth (i : inode) : path := match i with Old p => p | New p _ => p end.
Inductive link1 : path -> path -> Prop :=
| link_in : forall c, In c (cases set) -> link1 (root ++ ["validator"; "bin"; "data.in"])%list (input ++ ["cases"; (c ++ ".in")%string])%list
| link_out : forall c, In c (cases set) -> link1 (root ++ ["validator"; "bin"; "data.out"])%list (input ++ ["cases"; (c ++ ".out")%string])%list
| link_meta : forall c, In c (cases set) -> link1 meta_in (root ++ [(c ++ ".meta")%string])%list.
Definition alias (late : bool) (q p : path) : Prop := q = p \/ link0 q p \/ late = true /\ link1 q p.
Lemma link0_shape q p : link0 q p -> exists nm x, q = (root ++ [nm; "bin"; x])%list /\ (nm = "validator" \/ nm = "Main" /\ interactive set <> None) /\ under input p.
Proof.
  intros [it E|vl E1 E2].
  - exists "Main". eexists. split; [reflexivity|]. split; [right; split; [auto|congruence]|eexists; reflexivity].
  - exists "validator". eexists. split; [reflexivity|]. split; [auto|eexists; reflexivity].
Qed.
Lemma link1_shape q p : link1 q p -> exists x, q = (root ++ ["validator"; "bin"; x])%list /\ (under input p \/ exists c, In c (cases set) /\ p = (root ++ [(c ++ ".meta")%string])%list /\ q = meta_in).
Proof.
  intros [c H|c H|c H].
  - exists "data.in". split; [auto|left; eexists; reflexivity].
  - exists "data.out". split; [auto|left; eexists; reflexivity].
  - exists "meta.in". split; [auto|right; eauto].
Qed.
Lemma alias_shape late q p : alias late q p -> q = p \/ exists nm x, q = (root ++ [nm; "bin"; x])%list /\ (nm = "validator" \/ nm = "Main" /\ interactive set <> None).
Proof.
  intros [H|[H|[_ H]]]; [auto| |].
  - apply link0_shape in H as (nm & x & A & B & _). right. eauto.
  - apply link1_shape in H as (x & A & _). right. exists "validator", x. auto.
Qed.
Lemma alias_source late q p : alias late q p -> q = p \/ under input p \/ late = true /\ q = meta_in /\ exists c, In c (cases set) /\ p = (root ++ [(c ++ ".meta")%string])%list.
Proof.
  intros [H|[H|[L H]]]; [auto| |].
  - apply link0_shape in H as (nm & x & _ & _ & U). auto.
  - apply link1_shape in H as (x & _ & [U|(c & C & -> & E)]); [auto|]. right. right. eauto 6.
Qed.
Lemma alias_later q p : alias false q p -> forall late, alias late q p.
Proof. intros [H|[H|[H _]]] late; [left; auto|right; left; auto|discriminate]. Qed.

Record fine (late : bool) (st : list label) (f : fs) : Prop := {
  f_name : forall q i, names f q = Some i -> alias late q (birth i) /\ match i with Old p => there p = true | New p n => under root p /\ n < next f end;
  f_out : forall q, ~ under root q -> names f q = if there q then Some (Old q) else None;
  f_good : forall q o, content f q = Some o -> good st q o
}.
Lemma fine_later st f : fine false st f -> forall late, fine late st f.
Proof. intros [A B C] late. constructor; auto. intros q i H. destruct (A q i H) as [X Y]. split; [apply alias_later; auto|auto]. Qed.
Lemma fine_more late st st' f : incl st st' -> fine late st f -> fine late st' f.
Proof. intros I [A B C]. constructor; auto. intros q o H. apply (good_more st); auto. Qed.
Lemma fine_start late st : fine late st (start_files there).
Proof.
  constructor; cbn.
  - intros q i. destruct (there q) eqn:T; [|discriminate]. intros [= <-]. cbn. split; [left; auto|auto].
  - auto.
  - intros q o. unfold content. cbn. destruct (there q) eqn:T; [|discriminate]. intros [= <-]. pose proof (EMPTY q T) as NU.
    constructor; intros; subst; try discriminate; try (exfalso; apply NU; eexists; reflexivity); auto.
    + exfalso. apply NU. destruct H0 as [->|(r & ->)]; eexists; reflexivity.
Qed.

Definition same (f : fs) (p q : path) : Prop := q = p \/ exists i, names f p = Some i /\ names f q = Some i.
Lemma put_names f p o q : names (put f p o) q = if path_eqb p q then Some (match names f p with Some i => i | None => New p (next f) end) else names f q.
Proof.
  unfold put. destruct (names f p) as [i|] eqn:E; cbn; [|reflexivity]. destruct (path_eqb_spec p q) as [<-|N]; auto.
Qed.
Lemma fresh late st f p q : fine late st f -> names f q <> Some (New p (next f)).
Proof. intros F E. destruct (f_name _ _ _ F q _ E) as (_ & _ & H). lia. Qed.
Lemma inode_eqb_refl i : inode_eqb i i = true.
Proof. destruct (inode_eqb_spec i i); congruence. Qed.
Lemma put_data f p o j : data (put f p o) j = if inode_eqb (match names f p with Some i => i | None => New p (next f) end) j then o else data f j.
Proof. unfold put. destruct (names f p); reflexivity. Qed.
Lemma content_put_same f p o : content (put f p o) p = Some o.
Proof. unfold content. rewrite put_names. destruct (path_eqb_spec p p); [|congruence]. rewrite put_data, inode_eqb_refl. reflexivity. Qed.
Lemma content_put late st f p o q o' : fine late st f -> content (put f p o) q = Some o' -> content f q = Some o' \/ o' = o /\ same f p q.
Proof.
  intros F. unfold content. rewrite put_names. destruct (path_eqb_spec p q) as [<-|N].
  - pose proof (content_put_same f p o) as H. unfold content in H. rewrite put_names in H. destruct (path_eqb_spec p p); [|congruence]. rewrite H. intros [= <-]. right. split; [auto|left; auto].
  - destruct (names f q) as [j|] eqn:Q; [|discriminate]. rewrite put_data. destruct (names f p) as [i|] eqn:P; match goal with |- context [inode_eqb ?a j] => destruct (inode_eqb_spec a j) as [E|E] end; auto; intros [= <-].
    + right. split; [auto|]. right. exists i. split; [auto|congruence].
    + exfalso. apply (fresh late st f p q F). congruence.
Qed.
Lemma content_keep late st f p o q : fine late st f -> ~ same f p q -> content (put f p o) q = content f q.
Proof.
  intros F N. unfold content. rewrite put_names. destruct (path_eqb_spec p q) as [<-|NE]; [exfalso; apply N; left; auto|].
  destruct (names f q) as [j|] eqn:Q; [|auto]. rewrite put_data. destruct (names f p) as [i|] eqn:P; match goal with |- context [inode_eqb ?a j] => destruct (inode_eqb_spec a j) as [E|E] end; auto.
  - exfalso. apply N. right. exists i. split; [auto|congruence].
  - exfalso. apply (fresh late st f p q F). congruence.
Qed.
Lemma same_alias late st f p q : fine late st f -> same f p q -> q = p \/ exists x, alias late p x /\ alias late q x.
Proof.
  intros F [H|(i & P & Q)]; [auto|]. right. exists (birth i). split; [apply (f_name _ _ _ F p i P)|apply (f_name _ _ _ F q i Q)].
Qed.
Lemma next_put f p o : next f <= next (put f p o).
Proof. unfold put. destruct (names f p); cbn; lia. Qed.
Lemma fine_put late st f p o : fine late st f -> under root p -> (forall q, same f p q -> good st q o) -> fine late st (put f p o).
Proof.
  intros F U G. constructor.
  - intros q i. rewrite put_names. destruct (path_eqb_spec p q) as [<-|N].
    + intros [= <-]. destruct (names f p) as [i|] eqn:P.
      * destruct (f_name _ _ _ F p i P) as [A B]. split; [auto|]. destruct i; [auto|]. pose proof (next_put f p o). destruct B. split; [auto|lia].
      * cbn. split; [left; auto|]. split; [auto|]. unfold put. rewrite P. cbn. lia.
    + intros H. destruct (f_name _ _ _ F q i H) as [A B]. split; [auto|]. destruct i; [auto|]. pose proof (next_put f p o). destruct B. split; [auto|lia].
  - intros q NU. rewrite put_names. destruct (path_eqb_spec p q) as [<-|N]; [contradiction|]. apply (f_out _ _ _ F q NU).
  - intros q o' H. apply (content_put late st) in H as [H|[-> S]]; auto. apply (f_good _ _ _ F q o' H).
Qed.
Lemma content_remove f p q : content (rename f p None) q = if path_eqb p q then None else content f q.
Proof. unfold content, rename. cbn. destruct (path_eqb p q); auto. Qed.
Lemma fine_remove late st f p : fine late st f -> under root p -> fine late st (rename f p None).
Proof.
  intros F U. constructor; cbn.
  - intros q i. destruct (path_eqb p q); [discriminate|]. apply (f_name _ _ _ F).
  - intros q NU. destruct (path_eqb_spec p q) as [<-|N]; [contradiction|]. apply (f_out _ _ _ F q NU).
  - intros q o. rewrite content_remove. destruct (path_eqb p q); [discriminate|]. apply (f_good _ _ _ F).
Qed.
Lemma fine_link late st f p i : fine late st f -> under root p -> alias late p (birth i) -> match i with Old p => there p = true | New p n => under root p /\ n < next f end ->
  good st p (data f i) -> fine late st (rename f p (Some i)).
Proof.
  intros F U A B G. constructor; cbn.
  - intros q j. destruct (path_eqb_spec p q) as [<-|N]; [intros [= <-]; auto|]. apply (f_name _ _ _ F).
  - intros q NU. destruct (path_eqb_spec p q) as [<-|N]; [contradiction|]. apply (f_out _ _ _ F q NU).
  - intros q o. unfold content, rename. cbn. destruct (path_eqb_spec p q) as [<-|N]; [intros [= <-]; auto|]. apply (f_good _ _ _ F).
Qed.
(* copying to a name that is not there *)
Lemma fine_copy late st f a b ok f' : fine late st f -> copyFile f a b ok f' -> names f b = None -> under root b -> alias late b a -> (forall i, names f a = Some i -> birth i = a) ->
  (forall o, content f a = Some o -> good st b o) -> fine late st f'.
Proof.
  intros F C NB U A BA G. destruct C as [i H _|i H| |i H].
  - apply fine_link; auto; [rewrite (BA i H); auto|apply (f_name _ _ _ F a i H)|]. apply G. unfold content. rewrite H. auto.
  - apply fine_put; auto. intros q [->|(j & J & _)]; [|congruence]. apply G. unfold content. rewrite H. auto.
  - auto.
  - apply fine_put; auto. intros q [->|(j & J & _)]; [|congruence]. apply G. unfold content. rewrite H. auto.
Qed.
Lemma copy_elsewhere late st f a b ok f' q : fine late st f -> copyFile f a b ok f' -> names f b = None -> q <> b -> names f' q = names f q /\ content f' q = content f q.
Proof.
  intros F C NB N. assert (P : path_eqb b q = false) by (destruct (path_eqb_spec b q); congruence).
  assert (X : forall o, names (put f b o) q = names f q /\ content (put f b o) q = content f q).
  { intros o. split; [rewrite put_names, P; auto|]. apply (content_keep late st); auto. intros [->|(j & J & _)]; congruence. }
  destruct C as [i H _|i H| |i H]; auto. unfold content, rename. cbn. rewrite P. auto.
Qed.
Lemma copy_there f a b f' : copyFile f a b true f' -> names f b = None -> content f' b = content f a \/ names f' b = None.
Proof.
  intros C NB. assert (P : path_eqb b b = true) by (destruct (path_eqb_spec b b); congruence). remember true as ok eqn:OK. destruct C as [i H _|i H| |i H]; try discriminate.
  - left. unfold content, rename. cbn. rewrite P, H. auto.
  - left. rewrite content_put_same. unfold content. rewrite H. auto.
  - auto.
Qed.
Lemma birth_self late st f a i : fine late st f -> names f a = Some i -> (forall nm x, a <> (root ++ [nm; "bin"; x])%list) -> birth i = a.
Proof. intros F H N. destruct (f_name _ _ _ F a i H) as [A _]. apply alias_shape in A as [A|(nm & x & A & _)]; [auto|]. exfalso. exact (N nm x A). Qed.
Lemma input_birth late st f r i : fine late st f -> names f (input ++ r)%list = Some i -> birth i = (input ++ r)%list.
Proof. intros F H. apply (birth_self late st f); auto. intros nm x E. apply (input_out r). rewrite E. apply under_root. Qed.

(* ---- the writers ---- *)
Lemma not_input p r : under root p -> p <> (input ++ r)%list.
Proof. intros U ->. exact (input_out r U). Qed.
(* a name that is not one of the links *)
Lemma same_plain late st f p q : fine late st f -> same f p q -> under root p -> (forall x, ~ link0 p x) ->
  (late = true -> (forall x, ~ link1 p x) /\ forall c, p <> (root ++ [(c ++ ".meta")%string])%list) -> q = p.
Proof.
  intros F S U N M. destruct (same_alias late st f p q F S) as [|(x & A & B)]; [auto|].
  destruct A as [<-|[A|[L A]]]; [|exfalso; exact (N x A)|exfalso; apply (proj1 (M L) x A)].
  apply alias_source in B as [B|[(r & B)|(L & _ & c & _ & E)]]; [auto| |].
  - exfalso. exact (not_input p r U B).
  - exfalso. exact (proj2 (M L) c E).
Qed.
Lemma write_shape p o : op_ok (Write p o) -> (forall x, ~ link0 p x) /\ under root p /\ forall st, good st p o.
Proof.
  intros OK. inversion OK as [| |nm p' o' NM O P|]; subst.
  assert (ID : identifier nm /\ nm <> "validator") by (destruct NM as [NM|NM]; [apply contestant_id; auto|apply iface_id; auto]). destruct ID as [ID NV].
  assert (OW : contestant nm -> own nm o). { intros C. destruct O as [[-> _]|(g & ->)]; [left; auto|right; left; eauto]. }
  assert (MB : forall st l, o = MadeBy l -> In l st) by (intros st l ->; destruct O as [[O _]|(g & O)]; discriminate).
  assert (SH : p = (root ++ [nm])%list \/ exists r, p = (root ++ nm :: "bin" :: r)%list) by (destruct P as [P|[P|(x & P & _)]]; eauto).
  split; [|split].
  - intros x L. destruct P as [->|[->|(y & -> & Y)]].
    + apply link0_shape in L as (nm' & z & E & _). apply app_inv_head in E. discriminate.
    + apply link0_shape in L as (nm' & z & E & _). apply app_inv_head in E. discriminate.
    + inversion L as [it E E1 E2|vl E1 E2 E3 E4].
      * apply app_inv_head in E1. injection E1 as EN EY. exact (Y it E (eq_sym EN) (eq_sym EY)).
      * apply app_inv_head in E3. injection E3 as EN EY. congruence.
  - destruct SH as [->|(r & ->)]; apply under_root.
  - intros st. destruct SH as [->|(r & ->)]; [apply good_top; auto|]. apply good_bin; auto; [|intros; congruence].
    intros it I ->. right. left. destruct O as [[_ C]|(g & ->)]; [|eauto]. exfalso. destruct C as [[C _]|[_ C]]; congruence.
Qed.
Lemma fine_write st f p o : fine false st f -> op_ok (Write p o) -> fine false st (put f p o).
Proof.
  intros F OK. destruct (write_shape p o OK) as (NL & U & G). apply fine_put; auto. intros q S.
  rewrite (same_plain false st f p q); auto. discriminate.
Qed.
Lemma fine_fifo st f p : fine false st f -> op_ok (Mkfifo p) -> names f p = None -> fine false st (put f p Pipe).
Proof.
  intros F OK N. inversion OK as [| | |nm x C]; subst. apply fine_put; [auto|apply under_root|]. intros q [->|(i & E & _)]; [|congruence]. apply good_pipes.
Qed.
Lemma fine_prep_copy st f a b ok f' : fine false st f -> op_ok (Copy a b) -> names f b = None -> copyFile f a b ok f' -> fine false st f'.
Proof.
  intros F OK N C. inversion OK as [|a' b' L| |]; subst. destruct (link0_shape b a L) as (nm & x & E & Q & (r & EA)).
  apply (fine_copy false st f a b ok); auto.
  - rewrite E. apply under_root.
  - right. left. auto.
  - intros i H. rewrite EA in H |- *. exact (input_birth false st f r i F H).
  - intros o H. pose proof (f_good _ _ _ F a o H) as G. assert (NU : ~ under root a) by (rewrite EA; apply input_out).
    destruct (g_outside _ _ _ G NU) as [->|(bb & -> & K)].
    + apply (good_link1 st b _ nm x); auto. exists a. split; [exists r; auto|auto].
    + rewrite E. apply good_bin; try discriminate.
      * intros CC. exfalso. destruct Q as [->|[-> Q]]; [apply contestant_id in CC; tauto|destruct CC as [[CC _]|[_ CC]]; auto].
      * intros it I ->. right. right. exists bb. split; [auto|]. destruct K as [[K _]|[_ (vl & _ & K)]]; [auto|]. exfalso. inversion L as [it' E1 E2 E3|vl' E1 E2 E3 E4]; subst.
        -- rewrite <- E3 in K. apply app_inv_head in K. discriminate.
        -- apply app_inv_head in E3. discriminate.
      * intros ->. right. left. exists bb. split; [auto|]. destruct K as [[_ (it & _ & K)]|[K _]]; [|auto]. exfalso. inversion L as [it' E1 E2 E3|vl' E1 E2 E3 E4]; subst.
        -- apply app_inv_head in E2. discriminate.
        -- rewrite <- E4 in K. apply app_inv_head in K. discriminate.
      * apply (g_made _ _ _ G).
Qed.
(* processes *)
Lemma out_shape l e : potential l -> In e (".err.omegajail" :: exts) -> (forall x, ~ link0 (out_at l e) x) /\ (forall x, ~ link1 (out_at l e) x) /\ under root (out_at l e).
Proof.
  intros P I. split; [|split].
  - intros x L. apply link0_shape in L as (nm & z & E & _). exact (out_not_deep l e _ _ _ P I bin_id E).
  - intros x L. apply link1_shape in L as (z & E & _). exact (out_not_deep l e _ _ _ P I bin_id E).
  - unfold out_at. apply under_root.
Qed.
Lemma judge_not_meta c e c' x : out_at (Judge c) e <> (root ++ [(c' ++ x)%string])%list.
Proof. intros E. apply app_inv_head in E. discriminate. Qed.
Lemma written_under l p : potential l -> writes l p -> under root p.
Proof.
  intros P W. apply written in W as [(e & I & ->)|(b & -> & U)]; auto; [apply out_shape; auto|]. apply under2 in U as (r & ->). apply under_root.
Qed.
Lemma fine_process late st f l p : fine late st f -> potential l -> In l st -> (late = true -> exists c, l = Judge c) -> writes l p -> fine late st (put f p (MadeBy l)).
Proof.
  intros F P S L W. apply fine_put; [auto|apply (written_under l); auto|]. intros q SA.
  apply written in W as [(e & I & ->)|(b & -> & U)]; [| |auto].
  - destruct (out_shape l e P I) as (A & B & C). rewrite (same_plain late st f _ q F SA); auto; [apply good_output; auto|].
    intros E. split; [auto|]. intros c. destruct (L E) as (c' & ->). apply judge_not_meta.
  - assert (LF : late = false) by (destruct late; [destruct (L eq_refl) as (c & X); discriminate|auto]). rewrite LF in *. clear L LF. cbn [potential] in P.
    pose proof (bins_ok b P) as OK. apply under2 in U as (r & ->).
    assert (HERE : good st (root ++ name b :: "bin" :: r)%list (MadeBy (Compiler b))).
    { apply good_bin.
      - intros C. right. right. right. exists b. repeat split; auto. destruct (binaryType b) eqn:T; auto; exfalso.
        + inversion OK as [EI EL EB|it src EI EB|nm src I N EB|vl E1 E2 EB]; rewrite <- EB in T, C; cbn in T, C; try discriminate. rewrite (main_it it EI) in C. destruct C as [[C _]|[_ C]]; congruence.
        + apply bin_validator in T; [|auto]. apply contestant_id in C. tauto.
      - intros it I N. right. right. exists b. split; [auto|]. inversion OK as [EI EL EB|it' src EI EB|nm src I' N' EB|vl E1 E2 EB]; rewrite <- EB in N; cbn in N; try congruence. reflexivity.
      - intros N. right. left. exists b. split; [auto|]. apply bin_validator; auto.
      - intros l E. injection E as <-. auto. }
    destruct (same_alias false st f _ q F SA) as [->|(x & A & B)]; [auto|].
    destruct A as [<-|[A|[A _]]]; [| |discriminate].
    + apply alias_source in B as [->|[(y & E)|(X & _)]]; [auto| |discriminate]. exfalso. apply (input_out y). rewrite <- E. apply under_root.
    + destruct B as [->|[B|[B _]]]; [| |discriminate].
      * (* the file of the problem itself *)
        assert (NU : ~ under root x) by (apply link0_shape in A as (_ & _ & _ & _ & (y & ->)); apply input_out).
        constructor; intros; try (exfalso; subst x; apply NU; unfold out_at; apply under_root).
        -- exfalso. apply NU. destruct H0 as [->|(z & ->)]; apply under_root.
        -- right. exists b. split; [auto|]. inversion A as [it EI E1 E2|vl EN EV E1 E2]; apply app_inv_head in E1; injection E1 as EN1 ER.
           ++ left. split; [|eauto]. inversion OK as [XI XL EB|it' src XI EB|nm src I' N' EB|vl X1 X2 EB]; rewrite <- EB in EN1; cbn in EN1; try congruence. reflexivity.
           ++ right. split; [apply bin_validator; auto|eauto].
        -- congruence.
      * assert (q = (root ++ name b :: "bin" :: r)%list) as ->; [|auto]. inversion A as [it EI E1 E2|vl EN EV E1 E2]; inversion B as [it' EI' E1' E2'|vl' EN' EV' E1' E2']; subst.
        -- rewrite EI in EI'. injection EI' as <-. reflexivity.
        -- apply app_inv_head in E2'. discriminate.
        -- apply app_inv_head in E2'. discriminate.
        -- rewrite EV in EV'. injection EV' as <-. reflexivity.
Qed.

(* ---- the invariant ---- *)
Definition late_place (a : place) : bool :=
  match a with Preparing _ _ | Compiling _ | CompilingNow _ _ | Cases _ | RunningCase _ _ _ => false | _ => true end.
Definition programs (cs : list string) : list label := flat_map (fun c => map (fun b => Program b c) (regular all_bins)) cs.
Definition judges_of (cs : list string) : list label := if validator_name set =? "custom" then map Judge cs else [].
Definition pending (a : place) : list label :=
  match a with
  | Preparing _ _ => map Compiler all_bins ++ programs (cases set) ++ judges_of (cases set)
  | Compiling l | CompilingNow _ l => map Compiler l ++ programs (cases set) ++ judges_of (cases set)
  | Cases cs => programs cs ++ judges_of (cases set)
  | RunningCase c l cs => map (fun b => Program b c) l ++ programs cs ++ judges_of (cases set)
  | Validating cs => judges_of cs
  | Linking c _ cs => Judge c :: judges_of cs
  | JudgingNow _ cs => judges_of cs
  | _ => []
  end%list.
Definition full (c : string) : list (path * path) := file_links root input (start_files there) c.
Definition linked (f : fs) (c : string) (l : list (path * path)) : Prop := forall a b, In (a, b) l -> content f b = content f a \/ names f b = None.
Definition placed (s : state) : Prop :=
  match at_ s with
  | Preparing ops e => e = snd prepare /\ Forall op_ok ops /\ NoDup (copy_targets ops) /\ (forall b, In b (copy_targets ops) -> names (files s) b = None) /\ live s = []
  | Compiling l => live s = [] /\ bins s = all_bins
  | CompilingNow b l => live s = [Compiler b] /\ bins s = all_bins
  | Cases cs => live s = [] /\ bins s = all_bins /\ incl cs (cases set)
  | RunningCase c l cs => Forall (fun x => exists b, x = Program b c) (live s) /\ bins s = all_bins /\ In c (cases set) /\ incl cs (cases set)
  | Validating cs => live s = [] /\ incl cs (cases set)
  | Linking c ls cs => live s = [] /\ In c (cases set) /\ incl cs (cases set) /\ exists dn, full c = (dn ++ ls)%list /\ linked (files s) c dn
  | JudgingNow c cs => live s = [Judge c] /\ In c (cases set) /\ incl cs (cases set) /\ linked (files s) c (full c)
  | _ => live s = []
  end.
Definition named (n : string) : Prop :=
  (exists l e, potential l /\ In e exts /\ in_root n = out_at l e /\ In n (generated_by l)) \/
  lang run = "cat" /\ exists c e, In c (cases set) /\ In e exts /\ n = c ++ e.
Record inv (s : state) : Prop := {
  i_fine : fine (late_place (at_ s)) (started s) (files s);
  i_placed : placed s;
  i_nodup : NoDup (started s ++ pending (at_ s));
  i_potential : Forall potential (started s ++ pending (at_ s));
  i_live : incl (live s) (started s);
  i_named : Forall named (generated s);
  i_archive : forall z, archive s = Some z -> Forall (fun x => named (fst x) /\ good (started s) (in_root (fst x)) (snd x)) z
}.

Lemma in_programs l cs : In l (programs cs) -> exists b c, l = Program b c /\ In b all_bins /\ binaryType b <> Validator /\ In c cs.
Proof.
  unfold programs, regular. intros I. apply in_flat_map in I as (c & C & I). apply in_map_iff in I as (b & <- & I). apply filter_In in I as [I T].
  exists b, c. repeat split; auto. intros E. rewrite E in T. discriminate.
Qed.
Lemma in_judges l cs : In l (judges_of cs) -> exists c, l = Judge c /\ In c cs /\ validator_name set = "custom".
Proof.
  unfold judges_of. destruct (String.eqb_spec (validator_name set) "custom"); [|intros []]. intros I. apply in_map_iff in I as (c & <- & I). eauto.
Qed.
Lemma NoDup_app2 {A} (a b : list A) : NoDup a -> NoDup b -> (forall x, In x a -> ~ In x b) -> NoDup (a ++ b).
Proof.
  induction a as [|x a IH]; cbn; intros NA NB D; [auto|]. inversion NA; subst. constructor.
  - intros I. apply in_app_iff in I as [I|I]; [auto|]. exact (D x (or_introl eq_refl) I).
  - apply IH; [auto|auto|]. intros y I. apply D. right. auto.
Qed.
Lemma NoDup_map_inj {A B} (g : A -> B) l : (forall x y, In x l -> In y l -> g x = g y -> x = y) -> NoDup l -> NoDup (map g l).
Proof.
  induction l as [|x l IH]; cbn; intros H N; [constructor|]. inversion N; subst. constructor.
  - intros I. apply in_map_iff in I as (y & E & I). apply H in E; auto. congruence.
  - apply IH; auto.
Qed.
Lemma NoDup_unmap {A B} (g : A -> B) l : NoDup (map g l) -> NoDup l.
Proof. induction l as [|x l IH]; cbn; intros N; [constructor|]. inversion N; subst. constructor; auto. intros I. apply H1. apply in_map. auto. Qed.
Lemma programs_nodup cs : NoDup cs -> NoDup (programs cs).
Proof.
  assert (R : NoDup (regular all_bins)). { apply NoDup_filter. destruct all_ok as [_ N]. apply (NoDup_unmap name); auto. }
  induction cs as [|c cs IH]; cbn; intros N; [constructor|]. inversion N; subst. apply NoDup_app2; auto.
  - apply NoDup_map_inj; auto. intros x y _ _ E. congruence.
  - intros l I J. apply in_programs in J as (b & c' & -> & _ & _ & J). apply in_map_iff in I as (b' & E & _). injection E as _ ->. auto.
Qed.
Lemma judges_nodup cs : NoDup cs -> NoDup (judges_of cs).
Proof. unfold judges_of. destruct (_ =? _); [|constructor]. apply NoDup_map_inj. intros x y _ _ E. congruence. Qed.
Lemma pending_start : NoDup (map Compiler all_bins ++ programs (cases set) ++ judges_of (cases set)) /\ Forall potential (map Compiler all_bins ++ programs (cases set) ++ judges_of (cases set)).
Proof.
  pose proof (sane_distinct _ _ SANE) as ND. split.
  - apply NoDup_app2.
    + apply NoDup_map_inj; [intros x y _ _ E; congruence|]. destruct all_ok as [_ N]. apply (NoDup_unmap name); auto.
    + apply NoDup_app2; [apply programs_nodup; auto|apply judges_nodup; auto|]. intros l I J. apply in_programs in I as (b & c & -> & _). apply in_judges in J as (c' & E & _). discriminate.
    + intros l I J. apply in_map_iff in I as (b & <- & _). apply in_app_iff in J as [J|J]; [apply in_programs in J as (? & ? & ? & _)|apply in_judges in J as (? & ? & _)]; discriminate.
  - apply Forall_app. split; [apply Forall_forall; intros l I; apply in_map_iff in I as (b & <- & I); exact I|]. apply Forall_app. split; apply Forall_forall; intros l I.
    + apply in_programs in I as (b & c & -> & B & V & C). repeat split; auto.
    + apply in_judges in I as (c & -> & C & V). split; auto.
Qed.
Lemma inv_start : inv (start root input set run archive_ok order1 order2 order3 there).
Proof.
  destruct pending_start as [N P]. destruct prepare_ok as [OPS ND]. constructor; cbn; auto.
  - apply fine_start.
  - unfold placed. cbn. repeat split; auto. intros b I.
    assert (X : exists a, In (Copy a b) (fst prepare)). { revert I. generalize (fst prepare). induction l as [|o l IH]; cbn; [tauto|]. destruct o; cbn; intros I; try (destruct (IH I) as (a & X); exists a; auto; fail). destruct I as [<-|I]; [eexists; left; reflexivity|destruct (IH I) as (a & X); exists a; auto]. }
    destruct X as (a & X). rewrite Forall_forall in OPS. apply OPS in X. inversion X as [|a' b' L| |]; subst. apply link0_shape in L as (nm & x & -> & _).
    destruct (there _) eqn:T; [|auto]. exfalso. apply (EMPTY _ T). apply under_root.
  - intros x [].
  - intros z E. discriminate.
Qed.

(* ---- the validator's links ---- *)
Lemma full_eq c f : In c (cases set) -> file_links root input f c =
  ([((input ++ ["cases"; (c ++ ".in")%string])%list, (root ++ ["validator"; "bin"; "data.in"])%list)] ++
   match names f (input ++ ["cases"; (c ++ ".out")%string])%list with Some _ => [((input ++ ["cases"; (c ++ ".out")%string])%list, (root ++ ["validator"; "bin"; "data.out"])%list)] | None => [] end ++
   [((root ++ [(c ++ ".meta")%string])%list, meta_in)])%list.
Proof.
  intros C. destruct (case_plain c C) as [P _]. destruct exts_in as (E1 & E2 & E3). unfold file_links. rewrite vdir_eq, join_cases.
  rewrite (join_case _ c ".in") by (cbn; auto). rewrite (join_case _ c ".out") by (cbn; auto). unfold BoxModel.out_path, BoxModel.in_root. rewrite join_empty, join_out by auto. rewrite <- !app_assoc.
  replace (path_join (root ++ ["validator"; "bin"])%list "data.in") with (root ++ ["validator"; "bin"; "data.in"])%list by (symmetry; rewrite <- snoc_bin; lit).
  replace (path_join (root ++ ["validator"; "bin"])%list "data.out") with (root ++ ["validator"; "bin"; "data.out"])%list by (symmetry; rewrite <- snoc_bin; lit).
  replace (path_join (root ++ ["validator"; "bin"])%list "meta.in") with meta_in by (symmetry; unfold meta_in; rewrite <- snoc_bin; lit).
  reflexivity.
Qed.
Lemma full_same late st f c : fine late st f -> In c (cases set) -> file_links root input f c = full c.
Proof.
  intros F C. unfold full. rewrite !full_eq by auto. cbn [start_files names]. rewrite (f_out _ _ _ F) by apply input_out. reflexivity.
Qed.
Lemma full_link c a b : In c (cases set) -> In (a, b) (full c) -> link1 b a.
Proof.
  intros C I. unfold full in I. rewrite full_eq in I by auto. apply in_app_iff in I as [[I|[]]|I]; [injection I as <- <-; constructor; auto|]. apply in_app_iff in I as [I|[I|[]]].
  - destruct (names _ _); [|destruct I]. destruct I as [I|[]]. injection I as <- <-. constructor; auto.
  - injection I as <- <-. constructor; auto.
Qed.
Lemma full_nodup c : In c (cases set) -> NoDup (map snd (full c)).
Proof.
  intros C. unfold full. rewrite full_eq by auto. assert (X : forall x y, x <> y -> (root ++ ["validator"; "bin"; x])%list <> (root ++ ["validator"; "bin"; y])%list) by (intros x y N E; apply app_inv_head in E; congruence).
  destruct (names _ _); cbn [app map snd]; unfold meta_in; repeat (apply NoDup_cons; [cbn [In]; intros I; repeat destruct I as [I|I]; try contradiction; revert I; apply X; discriminate|]); apply NoDup_nil.
Qed.
Lemma link1_apart a b a' b' : link1 b a -> link1 b' a' -> a <> b'.
Proof.
  intros L L' E. apply link1_shape in L' as (x & Eb & _). apply link1_shape in L as (_ & _ & [(r & Ea)|(c & _ & Ea & _)]).
  - apply (input_out r). rewrite <- Ea, E, Eb. apply under_root.
  - rewrite E, Eb in Ea. apply app_inv_head in Ea. discriminate.
Qed.
Lemma fine_links st f a b ok f' : fine true st f -> link1 b a -> copyFile (rename f b None) a b ok f' -> fine true st f'.
Proof.
  intros F L C. destruct (link1_shape b a L) as (x & Eb & Sa). assert (U : under root b) by (rewrite Eb; apply under_root).
  pose proof (fine_remove true st f b F U) as F1. assert (NB : names (rename f b None) b = None) by (cbn; destruct (path_eqb_spec b b); congruence).
  apply (fine_copy true st (rename f b None) a b ok); auto.
  - right. right. auto.
  - intros i H. apply (birth_self true st _ a i F1 H). intros nm y E. destruct Sa as [(r & Sa)|(c & _ & Sa & _)].
    + apply (input_out r). rewrite <- Sa, E. apply under_root.
    + rewrite Sa in E. apply app_inv_head in E. discriminate.
  - intros o H. pose proof (f_good _ _ _ F1 a o H) as G. destruct Sa as [(r & Sa)|(c & C1 & Sa & EB)].
    + destruct (g_outside _ _ _ G) as [->|(bb & -> & K)]; [rewrite Sa; apply input_out| |].
      * apply (good_link1 st b _ "validator" x); auto. exists a. split; [exists r; auto|auto].
      * exfalso. assert (NU : ~ under root a) by (rewrite Sa; apply input_out). inversion L as [c HC E1 E2|c HC E1 E2|c HC E1 E2].
        -- rewrite <- E2 in K. destruct K as [[_ (it & _ & K)]|[_ (vl & _ & K)]]; apply app_inv_head in K; discriminate.
        -- rewrite <- E2 in K. destruct K as [[_ (it & _ & K)]|[_ (vl & _ & K)]]; apply app_inv_head in K; discriminate.
        -- apply NU. rewrite <- E2. apply under_root.
    + rewrite EB. destruct exts_in as (_ & _ & E3). unfold meta_in. apply good_bin.
      * intros X. apply contestant_id in X. tauto.
      * intros; discriminate.
      * intros _. right. right. split; [auto|]. destruct (g_case _ _ _ G c ".meta" C1 E3 Sa) as [(bb & -> & N & _)|X]; [left; eauto|auto].
      * apply (g_made _ _ _ G).
Qed.

(* ---- the steps ---- *)
Lemma perm_keep {A} (P : A -> Prop) l l' rest : Permutation l (l' ++ rest) -> NoDup l -> Forall P l -> NoDup l' /\ Forall P l'.
Proof.
  intros E N F. split.
  - apply (Permutation_NoDup E) in N. clear - N. induction l' as [|x l' IH]; [constructor|]. cbn in N. inversion N; subst. constructor; auto. intros I. apply H1. apply in_app_iff. auto.
  - apply (Permutation_Forall E) in F. apply Forall_app in F. tauto.
Qed.
Lemma fine_up b st f : fine b st f -> fine true st f.
Proof. intros F. destruct b; [auto|apply fine_later; auto]. Qed.
Lemma inv_go s f a rest : inv s -> fine (late_place a) (started s) f -> placed (go s f a) -> Permutation (pending (at_ s)) (pending a ++ rest) -> inv (go s f a).
Proof.
  intros [A B C D E F G] FI PL PE. destruct (perm_keep potential (started s ++ pending (at_ s)) (started s ++ pending a) rest) as [X Y]; auto.
  - rewrite <- app_assoc. apply Permutation_app_head. auto.
  - constructor; auto.
Qed.
Lemma inv_launch s l a rest : inv s -> late_place a = late_place (at_ s) -> placed (launch s l a) -> Permutation (pending (at_ s)) (l :: pending a ++ rest) -> inv (launch s l a).
Proof.
  intros [A B C D E F G] FI PL PE. destruct (perm_keep potential (started s ++ pending (at_ s)) (l :: started s ++ pending a) rest) as [X Y]; auto.
  - cbn. rewrite <- app_assoc. etransitivity; [apply Permutation_app_head; exact PE|]. symmetry. apply Permutation_middle.
  - constructor; cbn; auto.
    + rewrite FI. apply (fine_more _ (started s)); [intros x I; right; auto|auto].
    + intros x [<-|I]; [left; auto|right; auto].
    + intros z Z. specialize (G z Z). apply Forall_forall. intros x I. rewrite Forall_forall in G. destruct (G x I). split; [auto|]. apply (good_more (started s)); [intros y J; right; auto|auto].
Qed.
Lemma inv_finish s f lv gen a rest : inv s -> fine (late_place a) (started s) f -> incl lv (live s) -> Forall named gen -> placed (finish (go s f (at_ s)) lv gen a) ->
  Permutation (pending (at_ s)) (pending a ++ rest) -> inv (finish (go s f (at_ s)) lv gen a).
Proof.
  intros [A B C D E F G] FI LV GE PL PE. destruct (perm_keep potential (started s ++ pending (at_ s)) (started s ++ pending a) rest) as [X Y]; auto.
  - rewrite <- app_assoc. apply Permutation_app_head. auto.
  - constructor; cbn; auto.
    + intros x I. apply E. auto.
    + apply Forall_app. auto.
Qed.
Lemma finish_eq s lv gen a : finish s lv gen a = finish (go s (files s) (at_ s)) lv gen a.
Proof. destruct s. reflexivity. Qed.
Lemma targets_link ops b : Forall op_ok ops -> In b (copy_targets ops) -> exists a, link0 b a.
Proof.
  induction ops as [|o l IH]; cbn; [tauto|]. intros F I. inversion F as [|? ? O F']; subst. destruct o; auto. destruct I as [<-|I]; [|auto]. inversion O; subst. eauto.
Qed.
Lemma zipped_all f l z : zipped root opens f l z -> Forall (fun x => In (fst x) l /\ content f (in_root (fst x)) = Some (snd x)) z.
Proof.
  induction 1 as [|n l z SK Z IH|n l z o E OP Z IH]; [constructor| |].
  - eapply Forall_impl; [|exact IH]. intros x [A B]. split; [right; auto|auto].
  - constructor; [split; [left; auto|auto]|]. eapply Forall_impl; [|exact IH]. intros x [A B]. split; [right; auto|auto].
Qed.
Lemma generated_paths l : potential l -> map in_root (generated_by l) = map (out_at l) exts.
Proof.
  intros P. destruct exts_in as (I1 & I2 & I3). destruct l as [b|b c|c]; cbn [potential] in P; unfold generated_by, out_at, rdir, stem, join2, BoxModel.in_root, exts.
  - pose proof (bin_name b (bins_ok b P)) as ID. destruct (String.eqb_spec (name b) ""); [destruct ID; congruence|].
    assert (J : forall e, In e exts -> path_join root (name b ++ "/" ++ "compile" ++ e) = (root ++ [name b] ++ [("compile" ++ e)%string])%list).
    { intros e0 I0. rewrite join_entries by (apply identifier_entry; auto). rewrite join_out; auto; [rewrite <- app_assoc; auto|]. intros X; cbn in X; intuition discriminate. }
    cbn [map]. rewrite <- (J ".out"), <- (J ".err"), <- (J ".meta") by auto. reflexivity.
  - destruct P as (B & V & C). pose proof (bins_ok b B) as OK. pose proof (bin_name b OK) as ID. destruct (case_plain c C) as [PC _].
    destruct (bin_prefix b OK) as [(E & _ & N)|(E & N & _)]; rewrite E.
    + destruct (String.eqb_spec (name b) ""); [destruct ID; congruence|]. destruct (String.eqb_spec (name b) "Main"); [congruence|].
      cbn [map]. rewrite !join_entries by (apply identifier_entry; auto). rewrite !join_out by auto. rewrite <- !app_assoc. reflexivity.
    + rewrite N. cbn [String.eqb map]. rewrite !join_out by auto. reflexivity.
  - destruct P as (C & V). destruct (case_plain c C) as [PC _].
    assert (J : forall e, In e exts -> path_join root ("validator" ++ "/" ++ c ++ e) = (root ++ ["validator"] ++ [(c ++ e)%string])%list).
    { intros e0 I0. rewrite join_entries by (apply identifier_entry, validator_id). rewrite join_out by auto. rewrite <- app_assoc. reflexivity. }
    cbn [map]. rewrite <- (J ".out"), <- (J ".err"), <- (J ".meta") by auto. reflexivity.
Qed.
Lemma generated_named l : potential l -> Forall named (generated_by l).
Proof.
  intros P. apply Forall_forall. intros n I. pose proof (in_map in_root _ _ I) as J. rewrite (generated_paths l P) in J. apply in_map_iff in J as (e & E & J).
  left. exists l, e. auto.
Qed.
Lemma fine_remove_all late st f : fine late st f -> fine late st (remove_all f root).
Proof.
  intros F. constructor; cbn.
  - intros q i. destruct (strip root q); [discriminate|]. apply (f_name _ _ _ F).
  - intros q NU. pose proof (strip_spec root q) as S. destruct (strip root q) as [r|]; [exfalso; apply NU; exists r; auto|]. apply (f_out _ _ _ F q NU).
  - intros q o. unfold content, remove_all. cbn. pose proof (f_good _ _ _ F q o) as G. unfold content in G. destruct (strip root q); [discriminate|auto].
Qed.
Lemma judge_keeps st f c p a b : fine true st f -> potential (Judge c) -> writes (Judge c) p -> link1 b a -> ~ same f p a /\ ~ same f p b.
Proof.
  intros F P W L. apply written in W as [(e & I & ->)|(x & X & _)]; [|discriminate|auto]. destruct (out_shape (Judge c) e P I) as (A & B & U).
  assert (S : forall q, same f (out_at (Judge c) e) q -> q = out_at (Judge c) e).
  { intros q S. apply (same_plain true st f); auto. intros _. split; [auto|]. intros c'. apply judge_not_meta. }
  apply link1_shape in L as (x & Eb & Ea). split; intros X; apply S in X.
  - destruct Ea as [(r & ->)|(c' & _ & -> & _)]; [exact (not_input _ r U (eq_sym X))|exact (judge_not_meta c e c' ".meta" (eq_sym X))].
  - rewrite Eb in X. exact (out_not_deep (Judge c) e _ _ _ P I bin_id (eq_sym X)).
Qed.
Lemma judge_linked st f c p o : fine true st f -> potential (Judge c) -> In c (cases set) -> writes (Judge c) p -> linked f c (full c) ->
  linked (put f p o) c (full c) /\ linked (rename f p None) c (full c).
Proof.
  intros F P C W L. split; intros a b I; pose proof (full_link c a b C I) as LK; destruct (judge_keeps st f c p a b F P W LK) as [NA NB]; specialize (L a b I).
  - rewrite !(content_keep true st) by auto. destruct L as [L|L]; [auto|]. right. rewrite put_names. destruct (path_eqb_spec p b) as [<-|N]; [exfalso; apply NB; left; auto|auto].
  - rewrite !content_remove. cbn. destruct (path_eqb_spec p b) as [<-|N]; [exfalso; apply NB; left; auto|]. destruct (path_eqb_spec p a) as [<-|N']; [exfalso; apply NA; left; auto|]. auto.
Qed.
Lemma live_potential s l : inv s -> In l (live s) -> potential l /\ In l (started s).
Proof.
  intros [A B C D E F G] I. apply E in I. split; [|auto]. rewrite Forall_app in D. destruct D as [D _]. rewrite Forall_forall in D. auto.
Qed.
Lemma process_placed s l f : inv s -> In l (live s) -> (forall c, l = Judge c -> linked (files s) c (full c) -> linked f c (full c)) -> placed (go s f (at_ s)) /\ (late_place (at_ s) = true -> exists c, l = Judge c).
Proof.
  intros IV I K. pose proof (i_placed s IV) as PL. unfold placed in *. cbn [at_ go live files bins]. destruct (at_ s); cbn [late_place]; try (split; [|discriminate]); auto.
  - destruct PL as (_ & _ & _ & _ & L). rewrite L in I. destruct I.
  - destruct PL as [L _]. rewrite L in I. destruct I.
  - destruct PL as (L & _). rewrite L in I. destruct I.
  - destruct PL as (L & C & CS & LK). rewrite L in I. destruct I as [<-|[]]. split; [|eauto]. repeat split; auto.
  - rewrite PL in I. destruct I.
  - rewrite PL in I. destruct I.
  - rewrite PL in I. destruct I.
Qed.
Lemma named_cat c e : lang run = "cat" -> In c (cases set) -> In e exts -> named (c ++ e).
Proof. intros L C I. right. split; [auto|]. eauto. Qed.
Lemma fine_cat st f c present a b d : fine false st f -> lang run = "cat" -> In c (cases set) -> fine false st (cat_files root f c present a b d).
Proof.
  intros F L C. destruct (case_plain c C) as [PC _]. destruct exts_in as (I1 & I2 & I3).
  assert (K : forall f e o, fine false st f -> In e exts -> o = Submission \/ o = Runner -> fine false st (put f (out_path "" c e) o)).
  { intros g e o G I O. unfold BoxModel.out_path, BoxModel.in_root. rewrite join_empty, join_out by auto. apply fine_put; [auto|apply under_root|]. intros q S.
    rewrite (same_plain false st g _ q G S); [apply good_cat; auto; split; auto|apply under_root| |discriminate].
    intros x X. apply link0_shape in X as (nm & z & E & _). apply app_inv_head in E. discriminate. }
  unfold cat_files, put_if. assert (F1 : fine false st (if a then put f (out_path "" c ".out") (if present then Submission else Runner) else f)) by (destruct a; [apply K; auto; destruct present; auto|auto]).
  revert F1. generalize (if a then put f (out_path "" c ".out") (if present then Submission else Runner) else f). intros f1 F1.
  assert (F2 : fine false st (if b then put f1 (out_path "" c ".meta") Runner else f1)) by (destruct b; [apply K; auto|auto]).
  revert F2. generalize (if b then put f1 (out_path "" c ".meta") Runner else f1). intros f2 F2. destruct d; [apply K; auto|auto].
Qed.
Lemma perm_nil (l : list label) : Permutation l ([] ++ l).
Proof. reflexivity. Qed.
Lemma perm_same (l : list label) : Permutation l (l ++ []).
Proof. rewrite app_nil_r. reflexivity. Qed.
Lemma inv_step s s' : inv s -> step s s' -> inv s'.
Proof.
  intros IV ST. pose proof (i_fine s IV) as F. pose proof (i_placed s IV) as PL. unfold placed in PL.
  destruct ST; try rewrite H in PL; try (rewrite H in F; cbn [late_place] in F).
  - (* makes_dir *) destruct PL as (E & O & ND & NB & L). inversion O; subst. apply (inv_go s _ _ []); auto; [|rewrite H; apply perm_same]. unfold placed. cbn. auto.
  - (* copies *) destruct PL as (E & O & ND & NB & L). inversion O; subst. cbn in ND. inversion ND as [|? ? N1 N2]; subst. assert (NBb : names (files s) b = None) by (apply NB; cbn; auto).
    apply (inv_go s _ _ []); auto; [cbn; apply (fine_prep_copy _ (files s) a b true f); auto| |rewrite H; apply perm_same].
    unfold placed. cbn. repeat split; auto. intros b' I. destruct (copy_elsewhere false (started s) (files s) a b true f b' F H0 NBb) as [X _]; [intros ->; auto|]. rewrite X. apply NB. cbn. auto.
  - (* copy_error *) destruct PL as (E & O & ND & NB & L). inversion O; subst. assert (NBb : names (files s) b = None) by (apply NB; cbn; auto).
    apply (inv_go s _ _ (pending (at_ s))); [auto| | |apply perm_nil]; [apply (fine_up false); apply (fine_prep_copy _ (files s) a b false f); auto|exact L].
  - (* writes_file *) destruct PL as (E & O & ND & NB & L). inversion O as [|? ? O1 O2]; subst. apply (inv_go s _ _ []); auto; [cbn; apply fine_write; auto| |rewrite H; apply perm_same].
    unfold placed. cbn. repeat split; auto. intros b I. rewrite put_names. destruct (path_eqb_spec p b) as [<-|N]; [|apply NB; auto].
    exfalso. destruct (targets_link os p O2 I) as (a & X). destruct (write_shape p o O1) as (Y & _). exact (Y a X).
  - (* makes_fifo *) destruct PL as (E & O & ND & NB & L). inversion O as [|? ? O1 O2]; subst. apply (inv_go s _ _ []); auto; [cbn; apply fine_fifo; auto| |rewrite H; apply perm_same].
    unfold placed. cbn. repeat split; auto. intros b I. rewrite put_names. destruct (path_eqb_spec p b) as [<-|N]; [|apply NB; auto].
    exfalso. destruct (targets_link os p O2 I) as (a & X). inversion O1; subst. apply link0_shape in X as (nm' & y & X & _). apply app_inv_head in X. discriminate.
  - (* op_fails *) destruct PL as (E & O & ND & NB & L). apply (inv_go s _ _ (pending (at_ s))); [auto| | |apply perm_nil]; [apply (fine_up false); auto|exact L].
  - (* prepared *) destruct PL as (E & O & ND & NB & L). assert (AB : all_bins = bs) by (unfold all_bins; rewrite <- E; auto).
    destruct IV as [A B C D G J K]. rewrite H in C, D. cbn [pending] in C, D. rewrite AB in C, D. constructor; cbn; auto.
  - (* not_prepared *) destruct PL as (E & O & ND & NB & L). apply (inv_go s _ _ (pending (at_ s))); [auto| | |apply perm_nil]; [apply (fine_up false); auto|exact L].
  - (* process_writes *) destruct (live_potential s l IV H) as [P I].
    destruct (process_placed s l (put (files s) p (MadeBy l)) IV H) as [X Y].
    { intros c -> LK. apply (judge_linked (started s) (files s) c p); auto; [apply (fine_up _ _ _ F)|apply P]. }
    apply (inv_go s _ _ []); auto; [|apply perm_same]. apply fine_process; auto.
  - (* process_removes *) destruct (live_potential s l IV H) as [P I].
    destruct (process_placed s l (rename (files s) p None) IV H) as [X Y].
    { intros c -> LK. apply (judge_linked (started s) (files s) c p Pipe); auto; [apply (fine_up _ _ _ F)|apply P]. }
    apply (inv_go s _ _ []); auto; [|apply perm_same]. apply fine_remove; auto. apply (written_under l); auto.
  - (* compile *) destruct PL as (L & B). apply (inv_launch s _ _ []); auto; [rewrite H; auto| |rewrite H; cbn; rewrite app_nil_r; reflexivity]. unfold placed. cbn. rewrite L. auto.
  - (* compiled *) destruct PL as (L & B). rewrite finish_eq. apply (inv_finish s _ _ _ _ []); [auto|exact F|intros x []| |unfold placed; cbn; auto|rewrite H; apply perm_same].
    apply generated_named. apply (live_potential s); auto. rewrite L. left. auto.
  - (* compile_error *) destruct PL as (L & B). rewrite finish_eq. apply (inv_finish s _ _ _ _ (pending (at_ s))); [auto|apply (fine_up false); auto|intros x []| |reflexivity|apply perm_nil].
    apply generated_named. apply (live_potential s); auto. rewrite L. left. auto.
  - (* all_compiled *) destruct PL as (L & B). apply (inv_go s _ _ []); auto; [unfold placed; cbn; repeat split; auto; apply incl_refl|rewrite H; apply perm_same].
  - (* leaves_out *) destruct PL as (L & B & I). apply (inv_go s _ _ (map (fun b => Program b c) (regular all_bins))); auto; [unfold placed; cbn; repeat split; auto; intros x X; apply I; right; auto|].
    rewrite H. cbn. rewrite <- app_assoc. apply Permutation_app_comm.
  - (* output_only *) destruct PL as (L & B & I). assert (C : In c (cases set)) by (apply I; left; auto).
    apply (inv_finish s _ _ _ _ (map (fun b => Program b c) (regular all_bins))); auto.
    + apply fine_cat; auto.
    + apply incl_refl.
    + destruct exts_in as (I1 & I2 & I3). constructor; [|constructor; [|constructor; [|constructor]]]; apply named_cat; auto.
    + unfold placed. cbn. repeat split; auto. intros x X; apply I; right; auto.
    + rewrite H. cbn. rewrite <- app_assoc. apply Permutation_app_comm.
  - (* begins_case *) destruct PL as (L & B & I). apply (inv_go s _ _ []); auto.
    + unfold placed. cbn. rewrite L. repeat split; auto; [apply I; left; auto|intros x X; apply I; right; auto].
    + rewrite H, B. cbn. rewrite <- app_assoc. apply perm_same.
  - (* starts_program *) destruct PL as (L & B & C & I). apply (inv_launch s _ _ []); auto; [rewrite H; auto| |].
    + unfold placed. cbn. repeat split; auto. constructor; eauto.
    + rewrite H. cbn. rewrite app_nil_r, !map_app. cbn. rewrite <- !app_assoc. symmetry. apply Permutation_middle.
  - (* program_ends *) destruct PL as (L & B & C & I). rewrite finish_eq. rewrite H0 in L. apply Forall_app in L as [L1 L2]. inversion L2; subst.
    apply (inv_finish s _ _ _ _ []); auto; [rewrite H; auto| | | |apply perm_same].
    + rewrite H0. intros x X. apply in_app_iff. apply in_app_iff in X as [X|X]; [auto|right; right; auto].
    + apply generated_named. apply (live_potential s); auto. rewrite H0. apply in_app_iff. right. left. auto.
    + unfold placed. cbn. rewrite H. repeat split; auto. apply Forall_app. auto.
  - (* case_done *) destruct PL as (L & B & C & I). apply (inv_go s _ _ []); auto; [unfold placed; cbn; auto|rewrite H; apply perm_same].
  - (* cases_done *) destruct PL as (L & B & I). apply (inv_go s _ _ []); auto; [apply (fine_up false); auto|unfold placed; cbn; split; [auto|apply incl_refl]|rewrite H; apply perm_same].
  - (* not_validated *) destruct PL as (L & I). apply (inv_go s _ _ (judges_of [c])); auto; [unfold placed; cbn; split; auto; intros x X; apply I; right; auto|].
    rewrite H. cbn. unfold judges_of. destruct (_ =? _); [|reflexivity]. cbn. apply Permutation_cons_append.
  - (* validates *) destruct PL as (L & I). assert (C : In c (cases set)) by (apply I; left; auto). rewrite (full_same true (started s)) by auto. apply (inv_go s _ _ []); auto.
    + unfold placed. cbn [at_ go live files]. repeat split; auto; [intros x X; apply I; right; auto|]. exists []. split; [auto|]. intros a b [].
    + rewrite H. cbn. unfold judges_of. rewrite H0. cbn. rewrite app_nil_r. reflexivity.
  - (* links *) destruct PL as (L & C & I & dn & E & LK). assert (IN : In (a, b) (full c)) by (rewrite E; apply in_app_iff; right; left; auto).
    pose proof (full_link c a b C IN) as LN. apply (inv_go s _ _ []); auto; [apply (fine_links (started s) (files s) a b true); auto| |rewrite H; apply perm_same].
    unfold placed. cbn [at_ go live files]. repeat split; auto. exists (dn ++ [(a, b)])%list. split; [rewrite <- app_assoc; auto|].
    assert (U : under root b) by (apply link1_shape in LN as (x & -> & _); apply under_root).
    pose proof (fine_remove true (started s) (files s) b F U) as F1. assert (NB : names (rename (files s) b None) b = None) by (cbn; destruct (path_eqb_spec b b); congruence).
    assert (K : forall q, q <> b -> names f q = names (files s) q /\ content f q = content (files s) q).
    { intros q N. destruct (copy_elsewhere true (started s) _ a b true f q F1 H0 NB N) as [X Y]. rewrite X, Y, content_remove. cbn. destruct (path_eqb_spec b q); [congruence|auto]. }
    intros a' b' J. apply in_app_iff in J as [J|[J|[]]].
    + assert (IN' : In (a', b') (full c)) by (rewrite E; apply in_app_iff; auto). pose proof (full_link c a' b' C IN') as LN'.
      assert (NBB : b' <> b). { intros ->. pose proof (full_nodup c C) as N. rewrite E, map_app in N. cbn in N. apply NoDup_remove_2 in N. apply N. apply in_app_iff. left. apply in_map_iff. exists (a', b). auto. }
      destruct (K b' NBB) as [X1 X2]. destruct (K a' (link1_apart a' b' a b LN' LN)) as [_ Y]. rewrite X1, X2, Y. apply LK. auto.
    + injection J as <- <-. destruct (copy_there _ _ _ _ H0 NB) as [X|X]; [|auto]. left. rewrite X. rewrite content_remove. destruct (path_eqb_spec b a) as [->|N]; [exfalso; exact (link1_apart a a a a LN LN eq_refl)|]. symmetry. apply (K a). congruence.
  - (* link_error *) destruct PL as (L & C & I & dn & E & LK). assert (IN : In (a, b) (full c)) by (rewrite E; apply in_app_iff; right; left; auto).
    pose proof (full_link c a b C IN) as LN. apply (inv_finish s _ _ _ _ [Judge c]); auto; [apply (fine_links (started s) (files s) a b false); auto|apply incl_refl| |unfold placed; cbn; auto|].
    + apply generated_named. pose proof (i_potential s IV) as P. rewrite H in P. cbn in P. apply Forall_app in P as [_ P]. inversion P; auto.
    + rewrite H. cbn. apply Permutation_cons_append.
  - (* judges *) destruct PL as (L & C & I & dn & E & LK). apply (inv_launch s _ _ []); auto; [rewrite H; auto| |rewrite H; cbn; rewrite app_nil_r; reflexivity].
    unfold placed. cbn [at_ launch live files]. rewrite L. repeat split; auto. rewrite app_nil_r in E. rewrite E. auto.
  - (* judged *) destruct PL as (L & C & I & LK). rewrite finish_eq. apply (inv_finish s _ _ _ _ []); [auto|exact F|intros x []| |unfold placed; cbn; auto|rewrite H; apply perm_same].
    apply generated_named. apply (live_potential s); auto. rewrite L. left. auto.
  - (* validated *) destruct PL as (L & I). apply (inv_go s _ _ (pending (at_ s))); [auto|auto|exact L|apply perm_nil].
  - (* uploads *) destruct IV as [A B C D G J K]. rewrite H in C, D. cbn in C, D. constructor; cbn; auto.
    intros z' E. injection E as <-. apply zipped_all in H0. eapply Forall_impl; [|exact H0]. intros x [X Y]. rewrite Forall_forall in J. split; [auto|]. apply (f_good _ _ _ F). auto.
  - (* upload_fails *) apply (inv_go s _ _ (pending (at_ s))); [auto|auto|exact PL|apply perm_nil].
  - (* cleans_up *) apply (inv_go s _ _ (pending (at_ s))); [auto| |exact PL|apply perm_nil]. cbn. destruct preserve; [auto|apply fine_remove_all; auto].
Qed.
Lemma inv_reachable s : reachable s -> inv s.
Proof. induction 1 as [|s s' R IH S]; [apply inv_start|apply (inv_step s); auto]. Qed.
Lemma gone s : reachable s -> at_ s = Gone -> preserve = false -> forall p, under root p -> names (files s) p = None.
Proof.
  induction 1 as [|s s' R IH S]; [discriminate|]. pose proof (inv_reachable s R) as IV. intros A P.
  assert (LV : forall l, at_ s = Gone -> ~ In l (live s)). { intros l E I. pose proof (i_placed s IV) as PL. unfold placed in PL. rewrite E in PL. rewrite PL in I. destruct I. }
  destruct S; cbn in A; try discriminate A; try (rewrite A in *; discriminate); try (exfalso; exact (LV l A H)).
  cbn. rewrite P. cbn. intros p U. pose proof (strip_spec root p) as X. destruct (strip root p); [auto|contradiction].
Qed.

(* ---- what has been started ---- *)
Definition is_compiler (l : label) : Prop := exists b, l = Compiler b.
Definition is_judge (l : label) : Prop := exists c, l = Judge c.
Definition all_built (s : state) : Prop := incl (map Compiler all_bins) (started s).
Definition before (s : state) : Prop :=
  match at_ s with
  | Preparing _ _ => started s = []
  | Compiling l => (exists dn, all_bins = dn ++ l /\ incl (map Compiler dn) (started s)) /\ Forall is_compiler (started s)
  | CompilingNow b l => (exists dn, all_bins = dn ++ b :: l /\ incl (map Compiler dn) (started s)) /\ In (Compiler b) (started s) /\ Forall is_compiler (started s)
  | Cases _ => all_built s /\ Forall (fun l => ~ is_judge l) (started s)
  | RunningCase _ _ _ => all_built s /\ lang run <> "cat" /\ Forall (fun l => ~ is_judge l) (started s)
  | Validating _ | Linking _ _ _ | JudgingNow _ _ | Uploading => all_built s
  | Finished | Gone => all_built s \/ Forall is_compiler (started s)
  end%list.
Lemma before_step s s' : inv s -> before s -> step s s' -> before s'.
Proof.
  intros IV B ST. pose proof (i_placed s IV) as PL. unfold before, all_built, placed in *.
  assert (AP : forall (P : label -> Prop) x l, P x -> Forall P l -> Forall P (x :: l)) by (intros; constructor; auto).
  assert (CJ : forall l, Forall is_compiler l -> Forall (fun l => ~ is_judge l) l) by (intros l; apply Forall_impl; intros x (b & ->) (c & X); discriminate).
  assert (IL : forall (a : list label) x l, incl a l -> incl a (x :: l)) by (intros a x l H y I; right; auto).
  assert (NL : forall P : Prop, P -> P) by auto.
  destruct ST; try rewrite H in B; try rewrite H in PL; cbn; try tauto.
  - right. rewrite B. constructor.
  - right. rewrite B. constructor.
  - destruct PL as (E & _). rewrite B. split; [|constructor]. exists []. unfold all_bins. rewrite <- E. split; [auto|intros x []].
  - right. rewrite B. constructor.
  - destruct B as [(dn & E & I) F]. split; [exists dn; split; [auto|apply IL; auto]|]. split; [auto|]. apply AP; [eexists; reflexivity|auto].
  - destruct B as ((dn & E & I) & J & F). split; [|auto]. exists (dn ++ [b])%list. rewrite <- app_assoc. split; [auto|]. rewrite map_app. intros x X. apply in_app_iff in X as [X|[<-|[]]]; auto.
  - destruct B as [(dn & E & I) F]. rewrite app_nil_r in E. subst dn. auto.
  - destruct B as (A & L & F). repeat split; [apply IL; auto|auto|]. apply AP; [intros (c' & X); discriminate|auto].
  - rewrite H. cbn. auto.
  - apply IL; auto.
Qed.
Lemma before_reachable s : reachable s -> before s.
Proof.
  induction 1 as [|s s' R IH S]; [reflexivity|]. apply (before_step s); auto. apply inv_reachable. auto.
Qed.

Lemma program_started s b c : reachable s -> In (Program b c) (started s) -> lang run <> "cat" /\ all_built s.
Proof.
  induction 1 as [|s s' R IH S]; [intros []|]. pose proof (before_reachable s R) as B. unfold before, all_built in *.
  intros I. assert (IH' : In (Program b c) (started s) -> lang run <> "cat" /\ incl (map Compiler all_bins) (started s')).
  { intros J. destruct (IH J) as [X Y]. split; [auto|]. destruct S; cbn; auto; intros x Z; right; auto. }
  destruct S; cbn in I; auto; destruct I as [I|I]; auto; try discriminate. rewrite H in B. cbn. split; [tauto|]. intros x X. right. apply B. auto.
Qed.
Lemma judge_started s c : reachable s -> In (Judge c) (started s) -> all_built s /\ late_place (at_ s) = true.
Proof.
  induction 1 as [|s s' R IH S]; [intros []|]. pose proof (before_reachable s R) as B. unfold before, all_built in *.
  intros I. assert (NJ : In (Judge c) (started s) -> late_place (at_ s) = true) by (intros J; apply IH; auto).
  assert (BJ : In (Judge c) (started s) -> incl (map Compiler all_bins) (started s')).
  { intros J. destruct (IH J) as [X Y]. destruct S; cbn; auto; intros x Z; right; auto. }
  destruct S; cbn [started go launch finish] in I; try (match type of I with _ \/ _ => destruct I as [I|I] | In _ (_ :: _) => destruct I as [I|I] end; try discriminate I); try (pose proof (NJ I) as NJ'; try rewrite H in NJ'; cbn in NJ'; first [discriminate NJ'|split; [apply BJ; exact I|cbn; auto; rewrite ?H; auto]]).
  rewrite H in B. cbn. split; [|auto]. intros x X. right. apply B. auto.
Qed.

(* ---- a contestant's directory does not change any more ---- *)
Lemma steps_reachable s s' : reachable s -> steps s s' -> reachable s'.
Proof. induction 2 as [|s1 s2 S IH T]; [auto|]. eapply reach_step; eauto. Qed.
Definition settled (s : state) : Prop := match at_ s with Preparing _ _ | Compiling _ | CompilingNow _ _ => False | _ => True end.
Lemma settled_step s s' : settled s -> step s s' -> settled s'.
Proof. unfold settled. intros P S. destruct S; try rewrite H in P; cbn; auto; try contradiction. rewrite H. auto. Qed.
Lemma kept_step s s' nm r : reachable s -> settled s -> contestant nm -> step s s' -> at_ s' <> Gone ->
  content (files s') (root ++ nm :: "bin" :: r)%list = content (files s) (root ++ nm :: "bin" :: r)%list.
Proof.
  intros R P C S G. pose proof (inv_reachable s R) as IV. pose proof (i_fine s IV) as F. pose proof (i_placed s IV) as PL. set (q := (root ++ nm :: "bin" :: r)%list).
  assert (NAL : forall late i, names (files s) q = Some i -> alias late q (birth i) -> birth i = q).
  { intros late i N A. apply alias_shape in A as [A|(nm' & x & A & V)]; [auto|]. exfalso. apply app_inv_head in A. injection A as -> _. destruct V as [->|[-> V]]; [apply contestant_id in C; tauto|]. destruct C as [[C _]|[_ C]]; auto. }
  assert (OUT : forall p, under root p -> (forall x, ~ link0 p x) -> (forall x, ~ link1 p x) -> p <> q -> ~ same (files s) p q).
  { intros p U N0 N1 NE S0. destruct (same_alias _ _ _ p q F S0) as [X|(x & A & B)]; [congruence|]. destruct S0 as [X|(i & Np & Nq)]; [congruence|].
    destruct (f_name _ _ _ F q i Nq) as [Aq _]. apply (NAL _ _ Nq) in Aq. destruct (f_name _ _ _ F p i Np) as [Ap _]. rewrite Aq in Ap. destruct Ap as [Ap|[Ap|[_ Ap]]]; [auto|exact (N0 _ Ap)|exact (N1 _ Ap)]. }
  assert (WR : forall l p, In l (live s) -> writes l p -> ~ same (files s) p q /\ p <> q).
  { intros l p I W. destruct (live_potential s l IV I) as [PO _]. destruct (written l p PO W) as [(e & Ie & ->)|(b & -> & U)].
    - destruct (out_shape l e PO Ie) as (A & B & U). assert (NE : out_at l e <> q) by (intros X; exact (out_not_deep l e _ _ _ PO Ie bin_id X)). split; [apply OUT; auto|auto].
    - exfalso. unfold settled, placed in *. destruct (at_ s); try contradiction; (match type of PL with _ /\ _ => destruct PL as [L _] | _ => rename PL into L end); try (rewrite L in I; destruct I as [I|[]]; discriminate I); try (rewrite L in I; destruct I; fail).
      rewrite Forall_forall in L. apply L in I as (b' & I). discriminate. }
  assert (PUT : forall f p o, (forall x, names f x = names (files s) x -> True) -> ~ same (files s) p q -> content (put (files s) p o) q = content (files s) q).
  { intros f p o _ N. apply (content_keep _ _ _ p o q F N). }
  unfold settled in P. destruct S; try rewrite H in P; try contradiction; try reflexivity; cbn [files go launch finish].
  - destruct (WR l p H H0) as [X _]. apply (content_keep _ _ _ p _ q F X).
  - destruct (WR l p H H0) as [X Y]. rewrite content_remove. destruct (path_eqb_spec p q); [contradiction|auto].
  - (* output_only *) unfold placed in PL. rewrite H in PL. rewrite H in F. cbn [late_place] in F. destruct PL as (_ & _ & I). assert (CC : In c (cases set)) by (apply I; left; auto). destruct (case_plain c CC) as [PC _]. destruct exts_in as (I1 & I2 & I3).
    assert (K : forall f e o, fine false (started s) f -> In e exts -> o = Submission \/ o = Runner -> fine false (started s) (put f (out_path "" c e) o) /\ content (put f (out_path "" c e) o) q = content f q).
    { intros f e o Ff Ie Oo. unfold BoxModel.out_path, BoxModel.in_root. rewrite join_empty, join_out by auto.
      assert (NL : forall x, ~ link0 (root ++ [(c ++ e)%string])%list x) by (intros x X; apply link0_shape in X as (? & ? & X & _); apply app_inv_head in X; discriminate).
      assert (SP : forall q', same f (root ++ [(c ++ e)%string])%list q' -> q' = (root ++ [(c ++ e)%string])%list) by (intros q' S0; apply (same_plain false (started s) f); auto; [apply under_root|discriminate]).
      split.
      - apply fine_put; [auto|apply under_root|]. intros q' S0. rewrite (SP q' S0). apply good_cat; auto. split; auto.
      - apply (content_keep false (started s)); auto. intros S0. apply SP in S0. apply app_inv_head in S0. discriminate. }
    unfold cat_files, put_if. assert (O1 : (if present then Submission else Runner) = Submission \/ (if present then Submission else Runner) = Runner) by (destruct present; auto).
    set (f1 := if a then put (files s) (out_path "" c ".out") (if present then Submission else Runner) else files s).
    assert (F1 : fine false (started s) f1 /\ content f1 q = content (files s) q) by (unfold f1; destruct a; [apply K; auto|auto]).
    set (f2 := if b then put f1 (out_path "" c ".meta") Runner else f1).
    assert (F2 : fine false (started s) f2 /\ content f2 q = content (files s) q). { destruct F1 as [X Y]. unfold f2; destruct b; [|auto]. rewrite <- Y. apply K; auto. }
    destruct F2 as [X Y]. rewrite <- Y. destruct d; [|auto]. apply K; auto.
  - (* links *) unfold placed in PL. rewrite H in PL, F. destruct PL as (L & CC & I & dn & E & LK). assert (IN : In (a, b) (full c)) by (rewrite E; apply in_app_iff; right; left; auto).
    pose proof (full_link c a b CC IN) as LN. apply link1_shape in LN as (x & Eb & _). assert (U : under root b) by (rewrite Eb; apply under_root).
    pose proof (fine_remove true (started s) (files s) b F U) as F1'. assert (NB : names (rename (files s) b None) b = None) by (cbn; destruct (path_eqb_spec b b); congruence).
    assert (NE : q <> b). { rewrite Eb. intros X. apply app_inv_head in X. injection X as -> _. apply contestant_id in C. tauto. }
    destruct (copy_elsewhere true (started s) _ a b true f q F1' H0 NB NE) as [_ ->]. rewrite content_remove. destruct (path_eqb_spec b q); [congruence|auto].
  - (* link_error *) unfold placed in PL. rewrite H in PL, F. destruct PL as (L & CC & I & dn & E & LK). assert (IN : In (a, b) (full c)) by (rewrite E; apply in_app_iff; right; left; auto).
    pose proof (full_link c a b CC IN) as LN. apply link1_shape in LN as (x & Eb & _). assert (U : under root b) by (rewrite Eb; apply under_root).
    pose proof (fine_remove true (started s) (files s) b F U) as F1'. assert (NB : names (rename (files s) b None) b = None) by (cbn; destruct (path_eqb_spec b b); congruence).
    assert (NE : q <> b). { rewrite Eb. intros X. apply app_inv_head in X. injection X as -> _. apply contestant_id in C. tauto. }
    destruct (copy_elsewhere true (started s) _ a b false f q F1' H0 NB NE) as [_ ->]. rewrite content_remove. destruct (path_eqb_spec b q); [congruence|auto].
Qed.
Lemma gone_last s s' : reachable s -> at_ s = Gone -> step s s' -> at_ s' = Gone.
Proof.
  intros R A S. pose proof (i_placed s (inv_reachable s R)) as PL. unfold placed in PL. rewrite A in PL. destruct S; try (rewrite A in H; discriminate H); cbn; auto.
Qed.
Lemma kept s s' nm r : reachable s -> settled s -> contestant nm -> steps s s' -> at_ s' <> Gone ->
  content (files s') (root ++ nm :: "bin" :: r)%list = content (files s) (root ++ nm :: "bin" :: r)%list.
Proof.
  intros R P C. assert (K : forall s', steps s s' -> settled s'). { induction 1 as [|s1 s2 S1 IH T]; [auto|]. apply (settled_step s1); auto. }
  induction 1 as [|s1 s2 S1 IH T]; [auto|]. intros G. assert (R1 : reachable s1) by (apply (steps_reachable s); auto).
  rewrite <- IH; [apply kept_step; auto|]. intros X. apply G. exact (gone_last s1 s2 R1 X T).
Qed.

(* ---- the names of the generated files are distinct ---- *)
Definition awaited (s : state) : list label := (live s ++ pending (at_ s))%list.
Definition left_cases (a : place) : list string :=
  match a with Preparing _ _ | Compiling _ | CompilingNow _ _ => cases set | Cases cs => cs | _ => [] end.
Record gen_inv (s : state) : Prop := {
  n_awaited : NoDup (awaited s);
  n_generated : NoDup (map in_root (generated s));
  n_apart : forall q l e, In q (map in_root (generated s)) -> In l (awaited s) -> In e exts -> q <> out_at l e;
  n_cat : lang run = "cat" -> NoDup (left_cases (at_ s)) /\ forall q c e, In q (map in_root (generated s)) -> In c (left_cases (at_ s)) -> In e exts -> q <> (root ++ [(c ++ e)%string])%list
}.
Definition shrinks (a b : place) : Prop := incl (left_cases b) (left_cases a) /\ (NoDup (left_cases a) -> NoDup (left_cases b)).
Lemma gen_same s s' rest : gen_inv s -> generated s' = generated s -> Permutation (awaited s) (awaited s' ++ rest) -> (lang run = "cat" -> shrinks (at_ s) (at_ s')) -> gen_inv s'.
Proof.
  intros [A B C D] G P L. destruct (perm_keep (fun _ => True) _ _ _ P A) as [ND _]; [apply Forall_forall; auto|].
  constructor; rewrite ?G; auto.
  - intros q l e I J. apply C; auto. apply (Permutation_in _ (Permutation_sym P)). apply in_app_iff. auto.
  - intros K. destruct (D K) as [X Y], (L K) as [M N]. split; [auto|]. intros q c e I J. apply Y; auto.
Qed.
Lemma shrinks_refl a : shrinks a a.
Proof. split; [apply incl_refl|auto]. Qed.
Lemma out_nodup l : potential l -> NoDup (map (out_at l) exts).
Proof.
  intros P. apply NoDup_map_inj; [|unfold exts; repeat constructor; cbn; intuition discriminate].
  intros e e' I I' E. apply (out_unique l l e e'); auto. right. auto.
Qed.
Lemma gen_done s s' l rest : gen_inv s -> Forall potential (awaited s) -> generated s' = (generated s ++ generated_by l)%list -> Permutation (awaited s) (l :: awaited s' ++ rest) ->
  (lang run = "cat" -> shrinks (at_ s) (at_ s') /\ rdir l <> []) -> gen_inv s'.
Proof.
  intros [A B C D] PO G P L. change (l :: awaited s' ++ rest)%list with ((l :: awaited s') ++ rest)%list in P. destruct (perm_keep potential _ _ _ P A PO) as [ND PO']. inversion ND as [|? ? N1 N2]; subst. inversion PO' as [|? ? PL PW]; subst.
  assert (IN : forall x, In x (l :: awaited s') -> In x (awaited s)) by (intros x I; apply (Permutation_in _ (Permutation_sym P)); apply in_app_iff; auto).
  constructor; auto.
  - rewrite G, map_app, (generated_paths l PL). apply NoDup_app2; [auto|apply out_nodup; auto|]. intros q I J. apply in_map_iff in J as (e & <- & J). apply (C _ l e I); auto. apply IN. left. auto.
  - rewrite G, map_app, (generated_paths l PL). intros q l' e I J K. apply in_app_iff in I as [I|I]; [apply C; auto; apply IN; right; auto|]. apply in_map_iff in I as (e' & <- & I). intros E. rewrite Forall_forall in PW.
    apply out_unique in E as [-> _]; auto. right. auto.
  - rewrite G, map_app, (generated_paths l PL). intros K. destruct (D K) as [X Y], (L K) as [[M N] R]. split; [auto|]. intros q c e I J J'. apply in_app_iff in I as [I|I]; [apply Y; auto|].
    apply in_map_iff in I as (e' & <- & _). intros E. unfold out_at in E. apply app_inv_head in E. destruct (rdir_one l PL) as [Z|(nm & Z & _)]; [auto|]. rewrite Z in E. discriminate.
Qed.
Lemma awaited_potential s : inv s -> Forall potential (awaited s).
Proof.
  intros IV. unfold awaited. pose proof (i_potential s IV) as P. rewrite Forall_app in *. destruct P as [P Q]. split; [|auto]. rewrite Forall_forall in *. intros x I. apply P. apply (i_live s IV). auto.
Qed.
Lemma gen_start : gen_inv (start root input set run archive_ok order1 order2 order3 there).
Proof.
  destruct pending_start as [N _]. constructor; cbn; auto; [constructor|]. intros _. split; [apply (sane_distinct _ _ SANE)|auto].
Qed.
Lemma gen_step s s' : inv s -> before s -> gen_inv s -> step s s' -> gen_inv s'.
Proof.
  intros IV BF GI ST. pose proof (i_placed s IV) as PL. pose proof (awaited_potential s IV) as PO. unfold placed in PL. unfold before in BF.
  assert (TL : forall c cs, shrinks (Cases (c :: cs)) (Cases cs)) by (intros c cs; split; [intros x X; right; auto|intros N; inversion N; auto]).
  assert (NO : forall a b, left_cases b = [] -> shrinks a b) by (intros a b E; split; rewrite E; [intros x []|constructor]).
  assert (SA : forall a b, left_cases b = left_cases a -> shrinks a b) by (intros a b E; split; rewrite E; [apply incl_refl|auto]).
  destruct ST; try rewrite H in PL; try rewrite H in BF.
  - apply (gen_same s _ []); [exact GI|reflexivity|unfold awaited; cbn [live at_ go]; rewrite H; apply perm_same|]. intros _. apply SA. rewrite H. reflexivity.
  - apply (gen_same s _ []); [exact GI|reflexivity|unfold awaited; cbn [live at_ go]; rewrite H; apply perm_same|]. intros _. apply SA. rewrite H. reflexivity.
  - apply (gen_same s _ (pending (at_ s))); [exact GI|reflexivity|unfold awaited; cbn [live at_ go pending]; rewrite app_nil_r; reflexivity|]. intros _. apply NO. reflexivity.
  - apply (gen_same s _ []); [exact GI|reflexivity|unfold awaited; cbn [live at_ go]; rewrite H; apply perm_same|]. intros _. apply SA. rewrite H. reflexivity.
  - apply (gen_same s _ []); [exact GI|reflexivity|unfold awaited; cbn [live at_ go]; rewrite H; apply perm_same|]. intros _. apply SA. rewrite H. reflexivity.
  - apply (gen_same s _ (pending (at_ s))); [exact GI|reflexivity|unfold awaited; cbn [live at_ go pending]; rewrite app_nil_r; reflexivity|]. intros _. apply NO. reflexivity.
  - apply (gen_same s _ []); [exact GI|reflexivity|unfold awaited; cbn [live at_]; rewrite H, app_nil_r|intros _; apply SA; rewrite H; reflexivity].
    destruct PL as (E & _). assert (AB : all_bins = bs) by (unfold all_bins; rewrite <- E; auto). cbn [pending]. rewrite AB. reflexivity.
  - apply (gen_same s _ (pending (at_ s))); [exact GI|reflexivity|unfold awaited; cbn [live at_ go pending]; rewrite app_nil_r; reflexivity|]. intros _. apply NO. reflexivity.
  - apply (gen_same s _ []); [exact GI|reflexivity|apply perm_same|]. intros _. apply shrinks_refl.
  - apply (gen_same s _ []); [exact GI|reflexivity|apply perm_same|]. intros _. apply shrinks_refl.
  - (* compile *) apply (gen_same s _ []); [exact GI|reflexivity|unfold awaited; cbn [live at_ launch]; rewrite H, app_nil_r; cbn [pending map app]; symmetry; apply Permutation_middle|]. intros _. apply SA. rewrite H. reflexivity.
  - (* compiled *) destruct PL as [L _]. apply (gen_done s _ (Compiler b) []); [exact GI|exact PO|reflexivity|unfold awaited; cbn [live at_ finish]; rewrite H, L, app_nil_r; reflexivity|]. intros _. split; [apply SA; rewrite H; reflexivity|discriminate].
  - (* compile_error *) destruct PL as [L _]. apply (gen_done s _ (Compiler b) (pending (at_ s))); [exact GI|exact PO|reflexivity|unfold awaited; cbn [live at_ finish]; rewrite L; reflexivity|]. intros _. split; [apply NO; reflexivity|discriminate].
  - (* all_compiled *) apply (gen_same s _ []); [exact GI|reflexivity|unfold awaited; cbn [live at_ go]; rewrite H; apply perm_same|]. intros _. apply SA. rewrite H. reflexivity.
  - (* leaves_out *) apply (gen_same s _ (map (fun b => Program b c) (regular all_bins))); [exact GI|reflexivity| |intros _; rewrite H; apply TL]. unfold awaited. cbn [live at_ go]. rewrite H. cbn [pending].
    change (programs (c :: cs)) with (map (fun b => Program b c) (regular all_bins) ++ programs cs)%list. rewrite <- !app_assoc. apply Permutation_app_head. rewrite (app_assoc (programs cs)). apply Permutation_app_comm.
  - (* output_only *) destruct PL as (L & _ & I). assert (CC : In c (cases set)) by (apply I; left; auto). destruct (case_plain c CC) as [PC _]. destruct GI as [A B C D]. destruct (D H0) as [D1 D2]. rewrite H in D1, D2. cbn [left_cases] in D1, D2. inversion D1 as [|? ? D3 D4]; subst.
    assert (IR : map in_root [(c ++ ".out")%string; (c ++ ".err")%string; (c ++ ".meta")%string] = map (fun e => (root ++ [(c ++ e)%string])%list) exts).
    { destruct exts_in as (I1 & I2 & I3). cbn [map exts]. unfold BoxModel.in_root. rewrite !join_out by auto. reflexivity. }
    assert (P : Permutation (awaited s) (awaited (finish (go s (cat_files root (files s) c present a b d) (at_ s)) (live s) [(c ++ ".out")%string; (c ++ ".err")%string; (c ++ ".meta")%string] (Cases cs)) ++ map (fun b => Program b c) (regular all_bins))).
    { unfold awaited. cbn [live at_ go finish]. rewrite H. cbn [pending].
      change (programs (c :: cs)) with (map (fun b => Program b c) (regular all_bins) ++ programs cs)%list. rewrite <- !app_assoc. apply Permutation_app_head. rewrite (app_assoc (programs cs)). apply Permutation_app_comm. }
    destruct (perm_keep potential _ _ _ P A PO) as [ND PO'].
    constructor; [exact ND| | |]; cbn [generated finish go at_ left_cases].
    + rewrite map_app, IR. apply NoDup_app2; [auto| |].
      * apply NoDup_map_inj; [|unfold exts; repeat constructor; cbn; intuition discriminate]. intros e e' J J' E. apply app_inv_head in E. injection E as E. apply (out_inj c e c e'); auto. right. auto.
      * intros q J J'. apply in_map_iff in J' as (e & <- & J'). exact (D2 _ c e J (or_introl eq_refl) J' eq_refl).
    + rewrite map_app, IR. intros q l e J K K'. apply in_app_iff in J as [J|J].
      * apply C; auto. apply (Permutation_in _ (Permutation_sym P)). apply in_app_iff. auto.
      * apply in_map_iff in J as (e' & <- & J). intros E. unfold out_at in E. apply app_inv_head in E.
        unfold awaited in K. cbn [live at_ go finish] in K. rewrite L in K. cbn [app pending] in K. apply in_app_iff in K as [K|K].
        -- apply in_programs in K as (b' & c' & -> & Ib & V & Ic). cbn [rdir stem] in E. destruct (name b' =? "Main"); [|discriminate]. injection E as E. apply out_inj in E as [-> _]; [contradiction|auto|right; auto].
        -- apply in_judges in K as (c' & -> & _). discriminate.
    + intros _. split; [auto|]. rewrite map_app, IR. intros q c' e J K K'. apply in_app_iff in J as [J|J]; [apply D2; [auto|right; auto|auto]|].
      apply in_map_iff in J as (e' & <- & J). intros E. apply app_inv_head in E. injection E as E. apply out_inj in E as [-> _]; [contradiction|auto|right; auto].
  - (* begins_case *) destruct PL as (L & B & _). apply (gen_same s _ []); [exact GI|reflexivity| |intros _; apply NO; reflexivity]. unfold awaited. cbn [live at_ go]. rewrite H, B. cbn [pending programs flat_map]. rewrite app_nil_r, <- app_assoc. reflexivity.
  - (* starts_program *) apply (gen_same s _ []); [exact GI|reflexivity| |intros _; apply NO; reflexivity]. unfold awaited. cbn [live at_ launch]. rewrite H. cbn [pending]. rewrite app_nil_r, !map_app. cbn [map]. rewrite <- !app_assoc. cbn [app]. symmetry.
    etransitivity; [|apply Permutation_app_head; apply Permutation_middle]. apply Permutation_middle.
  - (* program_ends *) destruct BF as (_ & NC & _). apply (gen_done s _ l []); [exact GI|exact PO|reflexivity| |contradiction]. unfold awaited. cbn [live at_ finish]. rewrite H0, app_nil_r, <- !app_assoc. cbn [app]. symmetry. apply Permutation_middle.
  - (* case_done *) destruct BF as (_ & NC & _). apply (gen_same s _ []); [exact GI|reflexivity| |contradiction]. unfold awaited. cbn [live at_ go]. rewrite H. apply perm_same.
  - apply (gen_same s _ []); [exact GI|reflexivity|unfold awaited; cbn [live at_ go]; rewrite H; apply perm_same|]. intros _. apply NO. reflexivity.
  - (* not_validated *) apply (gen_same s _ (judges_of [c])); [exact GI|reflexivity| |intros _; apply NO; reflexivity]. unfold awaited. cbn [live at_ go]. rewrite H. cbn [pending]. unfold judges_of. rewrite <- app_assoc. apply Permutation_app_head. destruct (_ =? _); [|reflexivity]. cbn. apply Permutation_cons_append.
  - (* validates *) apply (gen_same s _ []); [exact GI|reflexivity| |intros _; apply NO; reflexivity]. unfold awaited. cbn [live at_ go]. rewrite H. cbn [pending]. unfold judges_of. rewrite H0. cbn. rewrite app_nil_r. reflexivity.
  - apply (gen_same s _ []); [exact GI|reflexivity|unfold awaited; cbn [live at_ go]; rewrite H; apply perm_same|]. intros _. apply NO. reflexivity.
  - (* link_error *) apply (gen_done s _ (Judge c) []); [exact GI|exact PO|reflexivity| |intros _; split; [apply NO; reflexivity|discriminate]]. unfold awaited. cbn [live at_ finish go]. rewrite H. cbn [pending]. rewrite app_nil_r. symmetry. apply Permutation_middle.
  - (* judges *) apply (gen_same s _ []); [exact GI|reflexivity| |intros _; apply NO; reflexivity]. unfold awaited. cbn [live at_ launch]. rewrite H. cbn [pending]. rewrite app_nil_r. symmetry. apply Permutation_middle.
  - (* judged *) destruct PL as (L & _). apply (gen_done s _ (Judge c) []); [exact GI|exact PO|reflexivity|unfold awaited; cbn [live at_ finish]; rewrite H, L, app_nil_r; reflexivity|]. intros _. split; [apply NO; reflexivity|discriminate].
  - apply (gen_same s _ (pending (at_ s))); [exact GI|reflexivity|unfold awaited; cbn [live at_ go pending]; rewrite app_nil_r; reflexivity|]. intros _. apply NO. reflexivity.
  - apply (gen_same s _ (pending (at_ s))); [exact GI|reflexivity|unfold awaited; cbn [live at_ pending]; rewrite app_nil_r; reflexivity|]. intros _. apply NO. reflexivity.
  - apply (gen_same s _ (pending (at_ s))); [exact GI|reflexivity|unfold awaited; cbn [live at_ go pending]; rewrite app_nil_r; reflexivity|]. intros _. apply NO. reflexivity.
  - apply (gen_same s _ (pending (at_ s))); [exact GI|reflexivity|unfold awaited; cbn [live at_ go pending]; rewrite app_nil_r; reflexivity|]. intros _. apply NO. reflexivity.
Qed.
Lemma gen_reachable s : reachable s -> gen_inv s.
Proof. induction 1 as [|s s' R IH S]; [apply gen_start|]. apply (gen_step s); auto; [apply inv_reachable|apply before_reachable]; auto. Qed.
Lemma zipped_nodup f l z : zipped root opens f l z -> NoDup (map in_root l) -> NoDup (map fst z) /\ incl (map fst z) l.
Proof.
  induction 1 as [|n l z SK Z IH|n l z o E OP Z IH]; cbn; intros N.
  - split; [constructor|intros x []].
  - inversion N; subst. destruct IH as [A B]; auto. split; [auto|]. intros x I. right. auto.
  - inversion N as [|? ? N1 N2]; subst. destruct IH as [A B]; auto. split.
    + constructor; [|auto]. intros I. apply N1. apply in_map. auto.
    + intros x [<-|I]; [left; auto|right; auto].
Qed.
Lemma archive_nodup s z : reachable s -> archive s = Some z -> NoDup (map fst z).
Proof.
  intros R. revert z. induction R as [|s s' R IH S]; intros z E; [discriminate|]. pose proof (gen_reachable s R) as G. destruct S; cbn in E; auto.
  injection E as <-. apply (zipped_nodup _ _ _ H0). apply (n_generated s G).
Qed.

(* ---- exactly which programs there are ---- *)
Inductive exact : binary -> Prop :=
| x_main : interactive set = None -> exact main_binary
| x_parent : forall it i src, interactive set = Some it -> interface it "Main" (Parent it) i -> required root "Main" i src -> exact (parent_binary it src)
| x_child : forall it nm i src, interactive set = Some it -> nm <> "Main" -> interface it nm (ext (lang run)) i -> required root nm i src -> exact (child_binary nm src)
| x_validator : forall vl, validator_name set = "custom" -> validator_lang set = Some vl -> exact (validator_binary vl).
Lemma sources_required nm i src : identifier nm -> normalizedSourceFiles root nm i = Some src -> required root nm i src.
Proof.
  intros ID. unfold normalizedSourceFiles, required. destruct (MakefileRules i) as [|r rs]; [discriminate|]. intros [= <-]. exists r, rs. split; [auto|].
  rewrite root_bin by auto. reflexivity.
Qed.
Lemma children_exact it l bs b : interactive set = Some it -> incl l (Interfaces it) -> child_binaries root set run it l = Some (Some bs) -> In b bs -> exact b.
Proof.
  intros EI. revert bs. induction l as [|[nm m] l IH]; intros bs S; cbn [child_binaries]; [intros [= <-] []|].
  assert (S' : incl l (Interfaces it)) by (intros x X; apply S; right; auto). destruct (String.eqb_spec nm (Main it)) as [E|N]; [intros H; apply IH; auto|].
  destruct (find (ext (lang run)) m) as [i|] eqn:FI; [|discriminate]. destruct (normalizedSourceFiles root nm i) as [src|] eqn:NS; [|discriminate].
  destruct (child_binaries root set run it l) as [[bs'|]|] eqn:CB; try discriminate. intros [= <-] [<-|I]; [|apply (IH bs'); auto].
  assert (IN : In (nm, m) (Interfaces it)) by (apply S; left; auto).
  assert (ID : identifier nm) by (apply (sane_interactive _ _ SANE it EI); apply in_map_iff; exists (nm, m); auto).
  rewrite (main_it it EI) in N. apply (x_child it nm i src); auto; [exists m; auto|apply sources_required; auto].
Qed.
Lemma bins_exact b : In b all_bins -> exact b.
Proof.
  unfold all_bins, BoxModel.prepare.
  assert (V : forall ops bs, (forall b, In b bs -> exact b) -> In b (match snd (with_validator root input set run ops bs) with Ready bs _ => bs | _ => [] end) -> exact b).
  { intros ops bs K. unfold with_validator. destruct (String.eqb_spec (validator_name set) "custom") as [E|N]; cbn [snd]; [|auto].
    destruct (validator_lang set) as [vl|] eqn:EV; cbn [snd]; [|intros []]. intros I. apply in_app_iff in I as [I|[<-|[]]]; [auto|constructor; auto]. }
  destruct (interactive set) as [it|] eqn:EI.
  - destruct (find (Main it) (Interfaces it)) as [m|] eqn:FM; [|intros []]. destruct (find (Parent it) m) as [i|] eqn:FP; [|intros []].
    destruct (normalizedSourceFiles root (Main it) i) as [src|] eqn:NS; [|intros []]. destruct (child_binaries root set run it (order1 (Interfaces it))) as [[bs|]|] eqn:CB; try (intros []).
    destruct (snd (interface_ops root run order3 it (order2 (Interfaces it)))); cbn [snd]; [|intros []]. apply V. rewrite (main_it it EI) in *.
    intros b' [<-|I].
    + apply (x_parent it i src); auto; [exists m; split; [apply find_in; auto|auto]|apply sources_required; [apply main_id|auto]].
    + apply (children_exact it (order1 (Interfaces it)) bs); auto. intros x X. apply (Permutation_in _ (Permutation_sym (ORDER1 _)) X).
  - destruct (lang run =? "cat"); [destruct archive_ok; [|intros []]; apply V; intros b' []|]. apply V. intros b' [<-|[]]. constructor. auto.
Qed.
Lemma limits_contestant : contestant_limits set run (limits_of_run set run).
Proof.
  unfold contestant_limits, sanitized, limits_of_run, c_like. destruct (interactive set) as [it|] eqn:EI.
  - repeat split; auto. right. repeat split; auto. intros (X & _). discriminate.
  - assert (EX : existsb (String.eqb (lang run)) ["c"; "cpp"; "cpp11"] = true <-> In (lang run) ["c"; "cpp"; "cpp11"]).
    { rewrite existsb_exists. split; [intros (x & I & E); apply String.eqb_eq in E; rewrite E; auto|intros I; exists (lang run); split; [auto|apply String.eqb_refl]]. }
    destruct (String.eqb_spec (lang run) "cat") as [EC|NC]; cbn [negb andb].
    + repeat split; auto. right. repeat split; auto. intros (_ & _ & X). rewrite EC in X. cbn in X. intuition discriminate.
    + destruct (debug run); cbn [andb]; [|repeat split; auto; right; repeat split; auto; intros (_ & X & _); discriminate].
      destruct (existsb _ _) eqn:EB; cbn [ExtraWallTime MemoryLimit OutputLimit OverallWallTimeLimit TimeLimit]; (repeat split; auto); [left|right]; repeat split; auto; try (apply EX; auto; fail); try (unfold Second; ring); try (intros (_ & _ & X); apply EX in X; congruence).
Qed.
Lemma limits_judge : judge_limits set run (validatorLimits (limits_of_run set run) (validator_limits set)).
Proof.
  unfold judge_limits, validatorLimits. destruct (validator_limits set) as [v|]; [auto|]. exists (limits_of_run set run). split; [apply limits_contestant|]. reflexivity.
Qed.
Lemma parent_mounts it : interactive set = Some it -> generateParentMountpoints root it = map (pipes_of root) (List.filter (fun nm => negb (nm =? "Main")) (map fst (Interfaces it))).
Proof.
  intros EI. unfold generateParentMountpoints. rewrite (main_it it EI).
  assert (K : forall l, incl l (Interfaces it) -> flat_map (fun x : string * list (string * iface) => if fst x =? "Main" then [] else generateMountpoint root (fst x)) l = map (pipes_of root) (List.filter (fun nm => negb (nm =? "Main")) (map fst l))).
  { induction l as [|[nm m] l IH]; intros S; [reflexivity|]. cbn [flat_map fst map List.filter]. rewrite IH by (intros x X; apply S; right; auto). destruct (nm =? "Main"); cbn [negb app]; [auto|]. cbn [map]. unfold generateMountpoint, pipes_of.
    rewrite root_pipes by (apply iface_id; exists it; split; [auto|apply in_map_iff; exists (nm, m); split; [auto|apply S; left; auto]]). reflexivity. }
  apply K. apply incl_refl.
Qed.
Lemma target_entry nm : targetName (lang run) nm = entry_target run nm.
Proof. unfold targetName, entry_target. cbn [existsb]. destruct (lang run =? "py"), (lang run =? "py2"), (lang run =? "py3"), (lang run =? "java"); reflexivity. Qed.
Lemma program_results b c : potential (Program b c) -> results root (call_of (Program b c)) (rdir (Program b c)) c.
Proof. intros P. destruct (calls _ P) as (A & B & C). unfold results. rewrite A, B, C. auto. Qed.
Lemma compiler_results b : potential (Compiler b) -> results root (call_of (Compiler b)) [name b] "compile".
Proof. intros P. destruct (calls _ P) as (A & B & C). unfold results. rewrite A, B, C. auto. Qed.
Lemma case_in c : In c (cases set) -> path_join (path_join input "cases") (c ++ ".in") = (input ++ ["cases"; (c ++ ".in")%string])%list.
Proof. intros C. destruct (case_plain c C) as [PC _]. rewrite join_cases, (join_case _ c ".in") by (cbn; auto). rewrite <- app_assoc. reflexivity. Qed.
Ltac ccall := cbn [BoxModel.call_of c_limits c_lang c_chdir c_stdin c_target c_params c_mounts c_writable c_sources]; cbin.
Definition is_ready : Prop := match snd prepare with Ready _ _ => True | _ => False end.
Lemma ready_validator : is_ready -> validator_name set = "custom" -> exists vl, validator_lang set = Some vl.
Proof.
  unfold is_ready, BoxModel.prepare. intros R V.
  assert (W : forall ops bs, match snd (with_validator root input set run ops bs) with Ready _ _ => True | _ => False end -> exists vl, validator_lang set = Some vl).
  { intros ops bs. unfold with_validator. rewrite V. cbn [String.eqb Ascii.eqb Bool.eqb]. destruct (validator_lang set); cbn; [eauto|tauto]. }
  destruct (interactive set) as [it|].
  - destruct (match find (Main it) (Interfaces it) with None => None | Some m => find (Parent it) m end); [|destruct R]. destruct (normalizedSourceFiles root (Main it) i); [|destruct R].
    destruct (child_binaries root set run it (order1 (Interfaces it))) as [[bs|]|]; try destruct R. destruct (snd (interface_ops _ _ _ _ _)); [|destruct R]. exact (W _ _ R).
  - destruct (lang run =? "cat"); [destruct archive_ok; [|destruct R]|]; exact (W _ _ R).
Qed.
Lemma ready_started s l : reachable s -> In l (started s) -> is_ready.
Proof.
  intros R. assert (K : match at_ s with Preparing _ _ => started s = [] | Finished | Gone => started s = [] \/ is_ready | _ => is_ready end).
  { induction R as [|s s' R IH S]; [reflexivity|]. pose proof (i_placed s (inv_reachable s R)) as PL. unfold placed in PL.
    destruct S; try rewrite H in IH; try rewrite H in PL; cbn; auto; [|rewrite H; auto]. unfold is_ready. destruct PL as (E & _). rewrite <- E. exact Logic.I. }
  intros I. destruct (at_ s); auto; try (rewrite K in I; destruct I); destruct K as [K|K]; auto; rewrite K in I; destruct I.
Qed.
Lemma asked_ok l : is_ready -> potential l -> asked root input set run l (call_of l).
Proof.
  intros RD P. pose proof P as P0. destruct l as [b|b c|c]; cbn [potential] in P.
  - pose proof (compiler_results b P0) as R. pose proof (bins_exact b P) as X. destruct X as [EI|it i src EI IF RQ|it nm i src EI N IF RQ|vl E1 E2].
    + apply asked_compile; auto. unfold builds. ccall. rewrite root_bin by apply main_id. rewrite (join_ext _ "Main" (lang run)) by (cbn; auto; apply (sane_lang _ _ SANE)). rewrite <- app_assoc. repeat split; auto.
    + cbin_in R. rewrite (main_it it EI) in R. apply (asked_compile_problemsetter root input set run it _ i src); auto; [apply (main_it it EI)|]. unfold builds, cpp11. ccall. rewrite (main_it it EI), root_bin by apply main_id. rewrite target_entry. repeat split; auto.
    + apply (asked_compile_part root input set run it _ nm i src); auto. assert (ID : identifier nm) by (apply (bin_name _ (bins_ok _ P))). unfold builds. ccall. rewrite root_bin by auto. rewrite target_entry. repeat split; auto.
    + apply (asked_compile_validator root input set run _ vl); auto. unfold builds, cpp11. ccall. rewrite root_bin by apply validator_id. rewrite (join_ext _ "validator" vl) by (cbn; auto; apply (sane_validator _ _ SANE); auto). rewrite <- app_assoc. repeat split; auto.
  - destruct P as (I & V & C). pose proof (program_results b c P0) as R. pose proof (bins_exact b I) as X. destruct X as [EI|it i src EI IF RQ|it nm i src EI N IF RQ|vl E1 E2].
    + apply (asked_run root input set run _ _ _ (limits_of_run set run)); auto; [|apply limits_contestant]. unfold runs. ccall. rewrite root_bin by apply main_id. rewrite case_in by auto. repeat split; auto.
    + unfold rdir in R. cbin_in R. rewrite (main_it it EI) in R. apply (asked_run_problemsetter root input set run it _ _ _ (validatorLimits (problem_limits set) (validator_limits set))); auto; [apply (main_it it EI)| |].
      * unfold runs, cpp11. ccall. rewrite (main_it it EI), root_bin by apply main_id. rewrite target_entry, (parent_mounts it EI), case_in by auto. repeat split; auto.
      * pose proof limits_judge as LJ. unfold limits_of_run in LJ. rewrite EI in LJ. exact LJ.
    + assert (ID : identifier nm) by (apply (bin_name _ (bins_ok _ I))). unfold rdir in R. cbin_in R. destruct (String.eqb_spec nm "Main"); [congruence|].
      apply (asked_run_part root input set run it _ nm i c _ (problem_limits set)); auto.
      * unfold runs. ccall. rewrite root_bin by auto. rewrite target_entry. unfold generateMountpoint, pipes_of. rewrite root_pipes by auto. repeat split; auto.
      * pose proof limits_contestant as LC. unfold limits_of_run in LC. rewrite EI in LC. exact LC.
    + exfalso. apply V. reflexivity.
  - destruct P as (C & V). destruct (calls _ P0) as (A1 & A2 & A3). destruct (case_plain c C) as [PC _]. destruct exts_in as (I1 & _).
    destruct (ready_validator RD V) as (vl & VL).
    apply (asked_judge root input set run c vl _ (validatorLimits (limits_of_run set run) (validator_limits set))); auto; [|apply limits_judge|unfold results; rewrite A1, A2, A3; auto].
    unfold runs. ccall. rewrite VL, root_bin by apply validator_id. unfold BoxModel.out_path, BoxModel.in_root. rewrite join_empty, join_out by auto. repeat split; auto.
Qed.

(* ---- the programs of a case ---- *)
Lemma everyone s b c b' : reachable s -> In (Program b c) (started s) -> In b' (regular all_bins) ->
  In (Program b' c) (started s) \/ exists l cs, at_ s = RunningCase c l cs /\ In b' l.
Proof.
  intros R. revert b b' c. assert (K : forall c, match at_ s with RunningCase c' l cs => c = c' -> forall b', In b' (regular all_bins) -> In (Program b' c) (started s) \/ In b' l | _ => True end /\
    ((exists b, In (Program b c) (started s)) -> match at_ s with RunningCase c' _ _ => c <> c' -> forall b', In b' (regular all_bins) -> In (Program b' c) (started s) | _ => forall b', In b' (regular all_bins) -> In (Program b' c) (started s) end)).
  { induction R as [|s s' R IH S]; intros c0; [split; [exact Logic.I|intros (b & [])]|]. pose proof (i_placed s (inv_reachable s R)) as PL. unfold placed in PL. pose proof (before_reachable s R) as BF. unfold before in BF.
    destruct (IH c0) as [A B]. clear IH.
    destruct S; try rewrite H in A; try rewrite H in B; try rewrite H in PL; try rewrite H in BF; cbn [started at_ go launch finish]; try (split; [exact Logic.I|exact B]); try (split; [exact A|exact B]).
    - (* compile *) split; [exact Logic.I|]. intros (b' & [X|I]); [discriminate|]. intros b0 I0. right. apply B; eauto.
    - (* begins_case *) destruct PL as (_ & PB & _). rewrite PB. split; [intros _ b' I; auto|]. intros I _. apply B. auto.
    - (* starts_program *) split.
      + intros -> b' I. destruct (A eq_refl b' I) as [X|X]; [left; right; auto|]. apply in_app_iff in X as [X|[<-|X]]; [right; apply in_app_iff; auto|left; left; auto|right; apply in_app_iff; auto].
      + intros (b' & [X|I]) N b0 I0; [injection X as _ E; congruence|]. right. apply B; eauto.
    - (* program_ends *) rewrite H. cbn. auto.
    - (* case_done *) split; [exact Logic.I|]. intros I b' I'. destruct (String.eqb_spec c0 c) as [->|N]; [|apply B; auto]. destruct (A eq_refl b' I') as [X|[]]. auto.
    - (* judges *) split; [exact Logic.I|]. intros (b' & [X|I]); [discriminate|]. intros b0 I0. right. apply B; eauto. }
  intros b b' c I I'. destruct (K c) as [A B]. clear K. destruct (at_ s); try (left; apply B; eauto; fail).
  destruct (String.eqb_spec c c0) as [->|N]; [|left; apply B; eauto]. destruct (A eq_refl b' I') as [X|X]; [auto|right; eauto].
Qed.
Lemma started_potential s l : reachable s -> In l (started s) -> potential l.
Proof. intros R I. pose proof (i_potential s (inv_reachable s R)) as P. apply Forall_app in P as [P _]. rewrite Forall_forall in P. auto. Qed.

(* ---- the claims ---- *)
Lemma in_bins s l b : reachable s -> In l (started s) -> binary_of l = Some b -> In b all_bins.
Proof. intros R I E. apply (started_potential s l R) in I. destruct l as [b'|b' c|c]; cbn in E, I; [injection E as <-; auto|injection E as <-; tauto|discriminate]. Qed.
Lemma chdir_of l b : In b all_bins -> binary_of l = Some b -> c_chdir (call_of l) = (root ++ [name b; "bin"])%list.
Proof.
  intros I E. pose proof (bins_ok b I) as OK. destruct l as [b'|b' c|c]; cbn in E; try discriminate; injection E as ->; cbn [BoxModel.call_of c_chdir]; [apply root_bin, bin_name; auto|apply bin_path; auto].
Qed.
Lemma live_started s l : reachable s -> In l (live s) -> In l (started s).
Proof. intros R. apply (i_live s (inv_reachable s R)). Qed.
Lemma sources_of l b p : In b all_bins -> binary_of l = Some b -> In p (c_sources (call_of l)) -> p = (root ++ [name b])%list \/ exists r, p = (root ++ name b :: "bin" :: r)%list.
Proof.
  intros I E J. pose proof (bins_ok b I) as OK. pose proof (bin_name b OK) as ID. destruct l as [b'|b' c|c]; cbn in E; try discriminate; injection E as ->; cbn [BoxModel.call_of c_sources] in J; [|destruct J].
  pose proof (bins_exact b I) as X. 
  assert (K : forall nm i src, identifier nm -> required root nm i src -> In p src -> p = (root ++ [nm])%list \/ exists r, p = (root ++ nm :: "bin" :: r)%list).
  { intros nm i src IDn (r & rs & _ & ->) Jn. apply in_map_iff in Jn as (q & <- & _). destruct (join_base (root ++ [nm; "bin"])%list q) as [->|[->| ->]].
    - right. exists []. auto.
    - left. apply removelast_bin.
    - right. exists [base q]. apply snoc_bin. }
  destruct X as [EI|it i src EI IF RQ|it nm i src EI N IF RQ|vl E1 E2]; cbin_in J; cbin; cbin_in ID.
  - destruct J as [<-|[]]. right. rewrite root_bin by apply main_id. rewrite (join_ext _ "Main" (lang run)) by (cbn; auto; apply (sane_lang _ _ SANE)). rewrite <- app_assoc. eexists. reflexivity.
  - rewrite (main_it it EI). apply (K "Main" i src); auto. apply main_id.
  - apply (K nm i src); auto.
  - destruct J as [<-|[]]. right. rewrite root_bin by apply validator_id. rewrite (join_ext _ "validator" vl) by (cbn; auto; apply (sane_validator _ _ SANE); auto). rewrite <- app_assoc. eexists. reflexivity.
Qed.
Lemma p_sees s l b p o : reachable s -> In l (live s) -> binary_of l = Some b -> binaryType b = Contestant ->
  sees l p \/ In p (c_sources (call_of l)) -> content (files s) p = Some o -> own (name b) o.
Proof.
  intros R I E T S C. pose proof (live_started s l R I) as ST. pose proof (in_bins s l b R ST E) as IB. pose proof (bins_ok b IB) as OK. destruct (bin_contestant b OK T) as [CN MP].
  pose proof (f_good _ _ _ (i_fine s (inv_reachable s R)) p o C) as G.
  assert (D : (p = (root ++ [name b])%list \/ exists r, p = (root ++ name b :: "bin" :: r)%list) \/ exists r, p = (root ++ name b :: "pipes" :: r)%list).
  { destruct S as [[S|(m & t & J & S)]|S].
    - rewrite (chdir_of l b IB E) in S. apply under2 in S. auto.
    - right. assert (M : m = (root ++ [name b; "pipes"])%list). { destruct l as [b'|b' c|c]; cbn in E; try discriminate; injection E as ->; cbn [BoxModel.call_of c_mounts] in J; [destruct J|]. apply (MP m t J). }
      rewrite M in S. apply under2 in S. auto.
    - left. apply (sources_of l b p IB E S). }
  destruct D as [D|(r & D)]; [apply (g_cont _ _ _ G); auto|]. right. right. left. apply (g_pipe _ _ _ G _ _ D).
Qed.
Lemma not_problem_source (x : string) (q : path) : q = (input ++ ["cases"; x])%list ->
  ~ (exists it, interactive set = Some it /\ q = (input ++ ["interactive"; ("Main." ++ ext (Parent it))%string])%list) /\ ~ (exists vl, validator_lang set = Some vl /\ q = (input ++ [("validator." ++ vl)%string])%list).
Proof. intros ->. split; intros (y & _ & X); apply app_inv_head in X; discriminate. Qed.
Lemma case_file s x o : reachable s -> content (files s) (input ++ ["cases"; x])%list = Some o -> o = Initial (input ++ ["cases"; x])%list.
Proof.
  intros R C. pose proof (f_good _ _ _ (i_fine s (inv_reachable s R)) _ o C) as G. destruct (g_outside _ _ _ G (input_out _)) as [X|(b & _ & K)]; [auto|].
  exfalso. destruct (not_problem_source x _ eq_refl) as [N1 N2]. destruct K as [[_ K]|[_ K]]; auto.
Qed.
Lemma p_stdin s l b p : reachable s -> In l (started s) -> binary_of l = Some b -> binaryType b = Contestant -> c_stdin (call_of l) = Some p ->
  interactive set = None /\ exists c, l = Program b c /\ In c (cases set) /\ p = (input ++ ["cases"; (c ++ ".in")%string])%list /\ forall o, content (files s) p = Some o -> o = Initial p.
Proof.
  intros R I E T S. pose proof (in_bins s l b R I E) as IB. pose proof (started_potential s l R I) as P. pose proof (bins_exact b IB) as X. destruct l as [b'|b' c|c]; cbn in E; try discriminate; injection E as ->; cbn [BoxModel.call_of c_stdin] in S; try discriminate.
  destruct P as (_ & _ & C). destruct X as [EI|it i src EI IF RQ|it nm i src EI N IF RQ|vl E1 E2]; cbin_in T; cbin_in S; try discriminate.
  split; [auto|]. exists c. rewrite case_in in S by auto. injection S as <-. repeat split; auto. intros o. apply case_file; auto.
Qed.
Lemma p_settled s b c : reachable s -> In (Program b c) (started s) -> settled s.
Proof.
  intros R I. pose proof (before_reachable s R) as B. unfold before, settled in *. destruct (at_ s); auto.
  - rewrite B in I. destruct I.
  - destruct B as [_ B]. rewrite Forall_forall in B. apply B in I as (x & I). discriminate.
  - destruct B as (_ & _ & B). rewrite Forall_forall in B. apply B in I as (x & I). discriminate.
Qed.
Lemma p_unchanged s s' b c p : reachable s -> In (Program b c) (started s) -> binaryType b = Contestant -> steps s s' -> at_ s' <> Gone ->
  under (c_chdir (call_of (Program b c))) p -> content (files s') p = content (files s) p.
Proof.
  intros R I T S G U. pose proof (in_bins s (Program b c) b R I eq_refl) as IB. pose proof (bins_ok b IB) as OK. destruct (bin_contestant b OK T) as [CN _].
  rewrite (chdir_of (Program b c) b IB eq_refl) in U. apply under2 in U as (r & ->). apply kept; auto. apply (p_settled s b c R I).
Qed.
Lemma p_problemsetter s l b p o : reachable s -> In l (live s) -> binary_of l = Some b -> binaryType b = Problemsetter -> sees l p -> content (files s) p = Some o ->
  (exists q, under input q /\ o = Initial q) \/ (exists f, o = Library "Main" f) \/ (exists b', o = MadeBy (Compiler b') /\ binaryType b' = Problemsetter) \/ o = Pipe.
Proof.
  intros R I E T S C. pose proof (live_started s l R I) as ST. pose proof (in_bins s l b R ST E) as IB. pose proof (bins_ok b IB) as OK.
  pose proof (f_good _ _ _ (i_fine s (inv_reachable s R)) p o C) as G. pose proof (bins_exact b IB) as X.
  destruct X as [EI|it i src EI IF RQ|it nm i src EI N IF RQ|vl E1 E2]; cbin_in T; try discriminate.
  destruct S as [S|(m & t & J & S)].
  - rewrite (chdir_of l _ IB E) in S. apply under2 in S as (r & S). cbin_in S. rewrite (main_it it EI) in S. destruct (g_main _ _ _ G it r EI S) as [X|[X|X]]; auto.
  - right. right. right. destruct l as [b'|b' c|c]; cbn in E; try discriminate; injection E as ->; cbn [BoxModel.call_of c_mounts] in J; [destruct J|]. cbin_in J. rewrite (parent_mounts it EI) in J.
    apply in_map_iff in J as (nm & J & _). injection J as <- _. apply under2 in S as (r & S). apply (g_pipe _ _ _ G _ _ S).
Qed.

Lemma judge_live s c : reachable s -> In (Judge c) (live s) -> In c (cases set) /\ linked (files s) c (full c).
Proof.
  intros R I. pose proof (i_placed s (inv_reachable s R)) as PL. unfold placed in PL. destruct (at_ s);
    try (match type of PL with _ /\ _ => destruct PL as [L PL] | _ => rename PL into L end; rewrite L in I; cbn in I; intuition discriminate).
  - destruct PL as (_ & _ & _ & _ & L). rewrite L in I. destruct I.
  - destruct PL as (L & _). rewrite Forall_forall in L. destruct (L _ I) as (b & X). discriminate X.
  - destruct PL as (L & C & _ & LK). rewrite L in I. destruct I as [I|[]]. injection I as EQ. rewrite <- EQ. auto.
Qed.
Lemma result_made s l e o : reachable s -> In l (started s) -> In e exts -> content (files s) (out_at l e) = Some o -> o = MadeBy l.
Proof.
  intros R I Ie C. pose proof (f_good _ _ _ (i_fine s (inv_reachable s R)) _ o C) as G. pose proof (started_potential s l R I) as P.
  destruct (g_out _ _ _ G l e P Ie eq_refl) as [X|[[CT _] RD]]; [auto|]. exfalso. destruct l as [b|b c|c]; cbn in RD; try discriminate. destruct (program_started s b c R I) as [N _]. auto.
Qed.
Lemma case_result s c e o : reachable s -> In c (cases set) -> In e exts -> content (files s) (root ++ [(c ++ e)%string])%list = Some o ->
  lang run <> "cat" /\ (exists b, o = MadeBy (Program b c) /\ name b = "Main" /\ In (Program b c) (started s)) \/ lang run = "cat" /\ (o = Submission \/ o = Runner).
Proof.
  intros R C I H. pose proof (f_good _ _ _ (i_fine s (inv_reachable s R)) _ o H) as G. destruct (g_case _ _ _ G c e C I eq_refl) as [(b & -> & N & _)|X]; [left|right; auto].
  pose proof (g_made _ _ _ G _ eq_refl) as ST. destruct (program_started s b c R ST) as [NC _]. split; [auto|]. exists b. auto.
Qed.
Lemma p_finds s c : reachable s -> In (Judge c) (live s) ->
  let found n := content (files s) (root ++ ["validator"; "bin"; n])%list in
  (forall o, found "data.in" = Some o -> o = Initial (input ++ ["cases"; (c ++ ".in")%string])%list) /\
  (there (input ++ ["cases"; (c ++ ".out")%string])%list = true -> forall o, found "data.out" = Some o -> o = Initial (input ++ ["cases"; (c ++ ".out")%string])%list) /\
  (forall o, found "meta.in" = Some o -> content (files s) (root ++ [(c ++ ".meta")%string])%list = Some o).
Proof.
  intros R I found. destruct (judge_live s c R I) as [C L]. unfold full in L. rewrite full_eq in L by auto. unfold linked in L.
  assert (K : forall a b, In (a, b) ([((input ++ ["cases"; (c ++ ".in")%string])%list, (root ++ ["validator"; "bin"; "data.in"])%list)] ++
     match names (start_files there) (input ++ ["cases"; (c ++ ".out")%string])%list with Some _ => [((input ++ ["cases"; (c ++ ".out")%string])%list, (root ++ ["validator"; "bin"; "data.out"])%list)] | None => [] end ++
     [((root ++ [(c ++ ".meta")%string])%list, meta_in)])%list -> forall o, content (files s) b = Some o -> content (files s) a = Some o).
  { intros a b J o H. destruct (L a b J) as [X|X]; [congruence|]. unfold content in H. rewrite X in H. discriminate. }
  split; [|split].
  - intros o H. apply (case_file s); auto. apply (K _ _ (or_introl eq_refl) o H).
  - intros T o H. apply (case_file s); auto. refine (K _ _ _ o H). apply in_app_iff. right. apply in_app_iff. left. cbn [start_files names]. rewrite T. left. auto.
  - intros o H. refine (K _ _ _ o H). apply in_app_iff. right. apply in_app_iff. right. left. reflexivity.
Qed.
Lemma p_else s c p o : reachable s -> In (Judge c) (live s) -> sees (Judge c) p -> content (files s) p = Some o ->
  p = meta_in \/ (exists q, under input q /\ o = Initial q) \/ exists b, o = MadeBy (Compiler b) /\ binaryType b = Validator.
Proof.
  intros R I S C. destruct S as [S|(m & t & [] & _)]. cbn [BoxModel.call_of c_chdir] in S. rewrite root_bin in S by apply validator_id. apply under2 in S as (r & S).
  pose proof (f_good _ _ _ (i_fine s (inv_reachable s R)) p o C) as G. destruct (g_val _ _ _ G r S) as [X|[X|[X _]]]; auto.
Qed.
Lemma p_outside s p : reachable s -> ~ under root p -> names (files s) p = names (start_files there) p /\
  (content (files s) p = content (start_files there) p \/
   exists b, content (files s) p = Some (MadeBy (Compiler b)) /\
    (binaryType b = Problemsetter /\ (exists it, interactive set = Some it /\ p = (input ++ ["interactive"; ("Main." ++ ext (Parent it))%string])%list) \/
     binaryType b = Validator /\ (exists vl, validator_lang set = Some vl /\ p = (input ++ [("validator." ++ vl)%string])%list))).
Proof.
  intros R N. pose proof (i_fine s (inv_reachable s R)) as F. pose proof (f_out _ _ _ F p N) as E. split; [exact E|].
  unfold content at 2. cbn [start_files names data]. destruct (there p) eqn:T.
  - destruct (content (files s) p) as [o|] eqn:C; [|unfold content in C; rewrite E in C; discriminate].
    destruct (g_outside _ _ _ (f_good _ _ _ F p o C) N) as [->|(b & -> & K)]; [auto|right; exists b; auto].
  - left. unfold content. rewrite E. auto.
Qed.
Lemma p_results s l p o : reachable s -> In l (started s) -> In p [c_out (call_of l); c_err (call_of l); c_meta (call_of l)] -> content (files s) p = Some o -> o = MadeBy l.
Proof.
  intros R I J C. pose proof (started_potential s l R I) as P. destruct (calls l P) as (A1 & A2 & A3). rewrite A1, A2, A3 in J. destruct exts_in as (E1 & E2 & E3).
  destruct J as [<-|[<-|[<-|[]]]]; [apply (result_made s l ".out")|apply (result_made s l ".err")|apply (result_made s l ".meta")]; auto.
Qed.
Lemma p_writes s l p : reachable s -> In l (live s) -> writes l p -> under root p.
Proof. intros R I. apply written_under. apply (live_potential s); auto. apply inv_reachable. auto. Qed.
Lemma p_archive s z n o : reachable s -> archive s = Some z -> In (n, o) z ->
  (exists l, In l (started s) /\ In n (generated_by l) /\ o = MadeBy l) \/
  lang run = "cat" /\ (o = Submission \/ o = Runner) /\ exists c e, In c (cases set) /\ In e exts /\ n = c ++ e.
Proof.
  intros R Z I. pose proof (inv_reachable s R) as IV. pose proof (i_archive s IV z Z) as A. rewrite Forall_forall in A. destruct (A _ I) as [NM G]. cbn [fst snd] in NM, G.
  destruct NM as [(l & e & P & Ie & E & J)|(CT & c & e & C & Ie & E)].
  - destruct (g_out _ _ _ G l e P Ie E) as [->|[[CT O] RD]]; [left; exists l; repeat split; auto; apply (g_made _ _ _ G); auto|].
    right. repeat split; auto. destruct l as [b|b c|c]; cbn in RD; try discriminate. destruct P as (IB & V & C). exists c, e. repeat split; auto.
    destruct (name b =? "Main") eqn:NM; [|discriminate]. apply String.eqb_eq in NM.
    cbn [generated_by] in J. assert (PR : outputPathPrefix b = "") by (destruct (bin_prefix b (bins_ok b IB)) as [(_ & _ & X)|(X & _)]; [congruence|auto]). rewrite PR in J. cbn [join2 String.eqb] in J.
    destruct (case_plain c C) as [PC _]. unfold BoxModel.in_root, out_at in E. cbn [rdir stem] in E. rewrite NM in E. cbn [String.eqb Ascii.eqb Bool.eqb app] in E. destruct exts_in as (I1 & I2 & I3).
    destruct J as [<-|[<-|[<-|[]]]]; rewrite join_out in E by auto; apply app_inv_head in E; injection E as E; exact E.
  - right. destruct exts_in as (I1 & I2 & I3). destruct (case_plain c C) as [PC _].
    assert (X : in_root n = (root ++ [(c ++ e)%string])%list) by (rewrite E; unfold BoxModel.in_root; apply join_out; auto).
    destruct (g_case _ _ _ G c e C Ie X) as [(b & -> & NM & _)|[_ O]]; [|repeat split; auto; exists c, e; auto].
    exfalso. pose proof (g_made _ _ _ G _ eq_refl) as ST. destruct (program_started s b c R ST) as [NC _]. auto.
Qed.
Lemma p_alone s : reachable s ->
  live s = [] \/ (exists b, live s = [Compiler b]) \/ (exists c, live s = [Judge c]) \/ exists c, Forall (fun l => exists b, l = Program b c) (live s).
Proof.
  intros R. pose proof (i_placed s (inv_reachable s R)) as PL. unfold placed in PL. destruct (at_ s); try (left; tauto); try (right; left; exists b; tauto).
  - right. right. right. exists c. tauto.
  - right. right. left. exists c. tauto.
Qed.
Lemma p_order_program s b c : reachable s -> In (Program b c) (started s) -> lang run <> "cat" /\ (forall l, In l (live s) -> forall b', l <> Compiler b') /\ In (Compiler b) (started s).
Proof.
  intros R I. destruct (program_started s b c R I) as [N A]. split; [auto|]. split.
  - intros l J b' ->. pose proof (p_settled s b c R I) as SE. pose proof (i_placed s (inv_reachable s R)) as PL. unfold settled, placed in *.
    destruct (at_ s); try contradiction; (match type of PL with _ /\ _ => destruct PL as [L PL] | _ => rename PL into L end); try (rewrite L in J; cbn in J; intuition discriminate).
    rewrite Forall_forall in L. destruct (L _ J) as (b0 & X). discriminate X.
  - apply A. apply in_map. apply (in_bins s _ b R I eq_refl).
Qed.
Lemma p_order_judge s c : reachable s -> In (Judge c) (started s) -> forall l, In l (live s) -> exists c', l = Judge c'.
Proof.
  intros R I l J. destruct (judge_started s c R I) as [_ LT]. pose proof (i_placed s (inv_reachable s R)) as PL. unfold placed in *.
  destruct (at_ s); try discriminate LT; (match type of PL with _ /\ _ => destruct PL as [L PL] | _ => rename PL into L end); rewrite L in J; cbn in J; try contradiction; destruct J as [<-|[]]; eauto.
Qed.
Lemma p_judge_built s c : reachable s -> In (Judge c) (started s) -> exists b, In (Compiler b) (started s) /\ binaryType b = Validator.
Proof.
  intros R I. destruct (judge_started s c R I) as [A _]. pose proof (ready_started s _ R I) as RD. destruct (started_potential s _ R I) as [_ V].
  assert (X : exists b, In b all_bins /\ binaryType b = Validator).
  { unfold is_ready, all_bins, BoxModel.prepare in *.
    assert (W : forall ops bs, match snd (with_validator root input set run ops bs) with Ready _ _ => True | _ => False end -> exists b, In b (match snd (with_validator root input set run ops bs) with Ready bs _ => bs | _ => [] end) /\ binaryType b = Validator).
    { intros ops bs. unfold with_validator. rewrite V. cbn [String.eqb Ascii.eqb Bool.eqb]. destruct (validator_lang set) as [vl|]; cbn [snd]; [|tauto]. intros _. eexists. split; [apply in_app_iff; right; left; reflexivity|reflexivity]. }
    destruct (interactive set) as [it|].
    - destruct (match find (Main it) (Interfaces it) with None => None | Some m => find (Parent it) m end); [|destruct RD]. destruct (normalizedSourceFiles root (Main it) i); [|destruct RD].
      destruct (child_binaries root set run it (order1 (Interfaces it))) as [[bs|]|]; try destruct RD. destruct (snd (interface_ops _ _ _ _ _)); [|destruct RD]. exact (W _ _ RD).
    - destruct (lang run =? "cat"); [destruct archive_ok; [|destruct RD]|]; exact (W _ _ RD). }
  destruct X as (b & IB & T). exists b. split; [|auto]. apply A. apply in_map. auto.
Qed.
Lemma p_asked s l : reachable s -> In l (started s) -> asked root input set run l (call_of l).
Proof. intros R I. apply asked_ok; [apply (ready_started s l R I)|apply (started_potential s l R I)]. Qed.
Lemma p_once s : reachable s -> NoDup (started s).
Proof. intros R. pose proof (i_nodup s (inv_reachable s R)) as N. revert N. generalize (pending (at_ s)). induction (started s) as [|x l IH]; intros r N; [constructor|]. cbn in N. inversion N; subst. constructor; [intros I; apply H1; apply in_app_iff; auto|apply (IH r); auto]. Qed.
Lemma p_together s b c b' : reachable s -> In (Program b c) (started s) -> In (Compiler b') (started s) -> binaryType b' <> Validator ->
  In (Program b' c) (started s) \/ exists l cs, at_ s = RunningCase c l cs /\ In b' l.
Proof.
  intros R I I' T. apply (everyone s b c b' R I). unfold regular. apply filter_In. split; [apply (in_bins s _ b' R I' eq_refl)|]. destruct (binaryType b'); auto; congruence.
Qed.
(* ---- nothing is left out of the archive (C68) ---- *)
Lemma told s l : reachable s -> In l (started s) -> In l (live s) \/ incl (generated_by l) (generated s).
Proof.
  induction 1 as [|s s' R IH S]; [intros []|]. pose proof (i_placed s (inv_reachable s R)) as PL. unfold placed in PL.
  assert (FIN : forall lv gen, (forall x, In x (live s) -> In x lv \/ incl (generated_by x) gen) -> In l (started s) ->
                  In l lv \/ incl (generated_by l) (generated s ++ gen)).
  { intros lv gen H I. destruct (IH I) as [L|G]; [destruct (H l L) as [X|X]; [auto|right; apply incl_appr; auto]|right; apply incl_appl; auto]. }
  assert (LAU : forall x, In l (x :: started s) -> In l (x :: live s) \/ incl (generated_by l) (generated s)).
  { intros x [->|I]; [left; left; auto|]. destruct (IH I) as [L|G]; [left; right; auto|auto]. }
  destruct S; cbn [started live generated go launch finish]; try exact IH; try (apply LAU); try (apply FIN); rewrite ?H in PL.
  - destruct PL as [L _]. rewrite L. intros x [<-|[]]. right. apply incl_refl.
  - destruct PL as [L _]. rewrite L. intros x [<-|[]]. right. apply incl_refl.
  - intros x X. auto.
  - rewrite H0. intros x X. apply in_app_iff in X as [X|[<-|X]]; [left; apply in_app_iff; auto|right; apply incl_refl|left; apply in_app_iff; auto].
  - intros x X. auto.
  - destruct PL as [L _]. rewrite L. intros x [<-|[]]. right. apply incl_refl.
Qed.
Lemma not_bin nm d r c e : In e exts -> (root ++ nm :: d :: r)%list <> (root ++ [(c ++ e)%string])%list.
Proof. intros _ E. apply app_inv_head in E. discriminate. Qed.
Lemma told_cat s c e : reachable s -> lang run = "cat" -> In c (cases set) -> In e exts ->
  names (files s) (root ++ [(c ++ e)%string])%list <> None -> In (c ++ e) (generated s).
Proof.
  intros R LC CC IE. induction R as [|s s' R IH S].
  { cbn [files start start_files names]. intros N. exfalso. destruct (there (root ++ [(c ++ e)%string])%list) eqn:T; [|auto]. apply (EMPTY _ T). apply under_root. }
  set (q := (root ++ [(c ++ e)%string])%list) in *.
  pose proof (inv_reachable s R) as IV. pose proof (i_placed s IV) as PL. pose proof (i_fine s IV) as F. unfold placed in PL.
  assert (PUT : forall p o, p <> q -> names (put (files s) p o) q <> None -> names (files s) q <> None).
  { intros p o N. rewrite put_names. destruct (path_eqb_spec p q); [contradiction|auto]. }
  assert (GEN : forall gen, (names (files s) q <> None -> In (c ++ e) (generated s ++ gen))).
  { intros gen N. apply in_app_iff. auto. }
  assert (LNK0 : forall a b, link0 b a -> b <> q).
  { intros a b L. apply link0_shape in L as (nm & x & -> & _). apply not_bin. auto. }
  assert (LNK1 : forall a b, link1 b a -> b <> q).
  { intros a b L. apply link1_shape in L as (x & -> & _). apply not_bin. auto. }
  assert (CP : forall a b ok f, link0 b a -> names (files s) b = None -> copyFile (files s) a b ok f -> names f q <> None -> names (files s) q <> None).
  { intros a b ok f L N C. destruct (copy_elsewhere _ _ _ _ _ _ _ q F C N) as [-> _]; [|auto]. intros X. exact (LNK0 a b L (eq_sym X)). }
  assert (WR : forall l p, In l (live s) -> writes l p -> p <> q).
  { intros l p L W E. destruct (live_potential s l IV L) as [P ST]. destruct (written l p P W) as [(e' & IE' & ->)|(b & -> & (r & ->))].
    - destruct l as [b|b c'|c'].
      + unfold out_at in E. apply app_inv_head in E. discriminate.
      + destruct (program_started s b c' R ST). contradiction.
      + unfold out_at in E. apply app_inv_head in E. discriminate.
    - unfold q in E. rewrite <- app_assoc in E. cbn [app] in E. exact (not_bin _ _ _ c e IE E). }
  assert (RN : forall p, names (rename (files s) p None) q <> None -> names (files s) q <> None).
  { intros p. cbn. destruct (path_eqb p q); [intros X; exfalso; apply X; reflexivity|auto]. }
  destruct S; cbn [files generated go launch finish]; try exact IH; try (exact (GEN _)); rewrite ?H in PL.
  - intros N. apply IH. destruct PL as (_ & OK & _ & FR & _). inversion OK as [|? ? O _]; subst. inversion O; subst. eapply CP; eauto. apply FR. left. auto.
  - intros N. apply IH. destruct PL as (_ & OK & _ & FR & _). inversion OK as [|? ? O _]; subst. inversion O; subst. eapply CP; eauto. apply FR. left. auto.
  - intros N. apply IH. refine (PUT _ _ _ N). destruct PL as (_ & OK & _). inversion OK as [|? ? O _]; subst. inversion O as [| |nm p' o' NM OO P|]; subst.
    assert (ID : identifier nm) by (destruct NM as [NM|NM]; [apply contestant_id; auto|apply iface_id; auto]).
    destruct P as [->|[->|(x & -> & _)]]; [|apply not_bin; auto|apply not_bin; auto]. intros E. apply app_inv_head in E. injection E as E. apply (out_not_id c e nm); auto. right. auto.
  - intros N. apply IH. refine (PUT _ _ _ N). destruct PL as (_ & OK & _). inversion OK as [|? ? O _]; subst. inversion O; subst. apply not_bin. auto.
  - intros N. apply IH. refine (PUT _ _ _ N). eapply WR; eauto.
  - intros N. apply IH. eapply RN; eauto.
  - (* output_only *) rename c0 into c'. destruct PL as (_ & _ & IC). assert (CC' : In c' (cases set)) by (apply IC; left; auto). destruct (case_plain c' CC') as [PC' _].
    destruct exts_in as (E1 & E2 & E3). intros N. apply in_app_iff.
    destruct (string_dec c c') as [<-|NE].
    + right. destruct IE as [<-|[<-|[<-|[]]]]; cbn; auto.
    + left. apply IH. revert N. unfold cat_files, put_if, BoxModel.out_path. rewrite join_empty, !join_out by auto.
      assert (DIF : forall e', In e' exts -> (root ++ [(c' ++ e')%string])%list <> q).
      { intros e' I' X. apply app_inv_head in X. injection X as X. apply out_inj in X as [-> _]; auto. right. auto. }
      destruct d, b, a; rewrite ?put_names; repeat (match goal with |- context [path_eqb ?x q] => destruct (path_eqb_spec x q) as [X|_]; [exfalso; revert X; apply DIF; auto|] end); auto.
  - intros N. apply IH. destruct PL as (_ & CC' & _ & dn & FD & _).
    assert (L1 : link1 b a) by (apply (full_link c0); auto; rewrite FD; apply in_app_iff; right; left; auto).
    assert (NB : names (rename (files s) b None) b = None) by (cbn; destruct (path_eqb_spec b b); congruence).
    apply (RN b). destruct (copy_elsewhere _ (started s) _ _ _ _ _ q (fine_remove _ _ _ b F ltac:(apply link1_shape in L1 as (x & -> & _); apply under_root)) H0 NB) as [<- _]; [intros X; exact (LNK1 a b L1 (eq_sym X))|auto].
  - intros N. apply in_app_iff. left. apply IH. destruct PL as (_ & CC' & _ & dn & FD & _).
    assert (L1 : link1 b a) by (apply (full_link c0); auto; rewrite FD; apply in_app_iff; right; left; auto).
    assert (NB : names (rename (files s) b None) b = None) by (cbn; destruct (path_eqb_spec b b); congruence).
    apply (RN b). destruct (copy_elsewhere _ (started s) _ _ _ _ _ q (fine_remove _ _ _ b F ltac:(apply link1_shape in L1 as (x & -> & _); apply under_root)) H0 NB) as [<- _]; [intros X; exact (LNK1 a b L1 (eq_sym X))|auto].
  - intros N. apply IH. revert N. destruct preserve; cbn; auto. pose proof (strip_spec root q) as X. destruct (strip root q); [intros Y; exfalso; apply Y; reflexivity|auto].
Qed.
Lemma zipped_full f l z n o : zipped root opens f l z -> In n l -> content f (in_root n) = Some o -> In (n, o) z \/ opens n = false.
Proof.
  induction 1 as [|m l z SK Z IH|m l z o' E OP Z IH]; [intros []| |]; intros I C.
  - destruct I as [->|I]; [|auto]. destruct SK as [SK|SK]; [congruence|auto].
  - destruct I as [->|I]; [left; left; congruence|]. destruct (IH I C); [left; right; auto|auto].
Qed.
Lemma p_complete s z n o : reachable s -> archive s = Some z -> at_ s = Finished -> In n (generated s) -> content (files s) (in_root n) = Some o -> In (n, o) z \/ opens n = false.
Proof.
  intros R. revert z. induction R as [|s s' R IH S]; intros z; [discriminate|].
  assert (LV : at_ s = Finished -> live s = []) by (intros E; pose proof (i_placed s (inv_reachable s R)) as PL; unfold placed in PL; rewrite E in PL; exact PL).
  assert (AR : forall w, archive s = Some w -> at_ s = Finished \/ at_ s = Gone).
  { clear - R. induction R as [|s s' R IH S]; intros w; [discriminate|]. destruct S; cbn; intros A; try (destruct (IH _ A) as [X|X]; rewrite X in H; discriminate); auto; try (destruct (IH _ A) as [X|X]; rewrite X in *; auto; fail). }
  destruct S; cbn [archive at_ generated files go launch finish]; intros A P; try discriminate P; try (destruct (AR _ A) as [X|X]; congruence).
  - rewrite (LV P) in H. destruct H.
  - rewrite (LV P) in H. destruct H.
  - injection A as <-. intros I C. eapply zipped_full; eauto.
Qed.
End Grade.

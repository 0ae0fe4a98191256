(* C33: the digest of a stream does not depend on how it is read. *)
From Coq Require Import List ZArith Lia.
From Verif Require Import HrModel.
Import ListNotations.

Section Proofs.
Context {byte : Type}.
Implicit Types (r : reader byte) (h : hash_reader byte).

(* The bytes a reader has to offer. *)
Definition stream r : list byte := concat (pieces r).
Definition measure r : nat := length (stream r) + length (pieces r).

Lemma read_stream b r c e r' : read b r = (c, e, r') -> stream r = c ++ stream r'.
Proof.
  unfold read, stream. destruct r as [ps w]. cbn. destruct ps as [|p ps]; intros E; [injection E as <- <- <-; auto|].
  destruct (Nat.leb (length p) b); injection E as <- <- <-; cbn; [auto|]. rewrite app_assoc, firstn_skipn. auto.
Qed.
Lemma read_measure b r c r' : b <> 0 -> read b r = (c, false, r') -> measure r' < measure r.
Proof.
  intros B E. pose proof (read_stream _ _ _ _ _ E) as S. unfold measure. rewrite S, app_length. unfold read in E. destruct r as [ps w]. cbn in *. destruct ps as [|p ps]; [discriminate|].
  destruct (Nat.leb_spec (length p) b).
  - injection E as <- E <-. cbn. lia.
  - injection E as <- <-. cbn. rewrite firstn_length_le; lia.
Qed.
Lemma read_end b r c r' : read b r = (c, true, r') -> stream r' = [].
Proof.
  unfold read, stream. destruct r as [ps w]. cbn. destruct ps as [|p ps]; intros E; [injection E as <- <-; auto|].
  destruct (Nat.leb (length p) b); [|discriminate]. destruct ps; [|discriminate]. injection E as <- _ <-. auto.
Qed.
Lemma drain_spec h h' : drain h h' -> hasher h' = hasher h ++ stream (under h) /\ stream (under h') = [] /\
  length_ h' = (length_ h + 2 * Z.of_nat (length (stream (under h))))%Z.
Proof.
  induction 1 as [h c h' E|h c h' h'' E D IH]; unfold Read in E; destruct (read 256 (under h)) as [[c0 e] r] eqn:ER; injection E as <- -> <-; cbn [hasher under length_] in *;
    pose proof (read_stream _ _ _ _ _ ER) as S.
  - pose proof (read_end _ _ _ _ ER) as N. rewrite N, app_nil_r in S. rewrite S. split; [auto|]. split; [auto|]. lia.
  - destruct IH as (A & B & C). rewrite S, A, <- app_assoc. split; [auto|]. split; [auto|]. rewrite C, app_length. lia.
Qed.
Lemma drain_total h : exists h', drain h h'.
Proof.
  remember (measure (under h)) as n eqn:M. revert h M. induction n as [n IH] using lt_wf_ind. intros h ->.
  destruct (Read 256 h) as [[c e] h1] eqn:E. destruct e; [eexists; eapply drain_end; eauto|].
  unfold Read in E. destruct (read 256 (under h)) as [[c0 e] r] eqn:ER. injection E as <- -> <-. cbn in *.
  pose proof (read_measure 256 _ _ _ ltac:(discriminate) ER) as L.
  edestruct (IH (measure r) L) as (h' & D); [|eexists; eapply drain_more; [unfold Read; rewrite ER; reflexivity|exact D]]. reflexivity.
Qed.
Lemma drain_fun h h1 h2 : drain h h1 -> drain h h2 -> h1 = h2.
Proof.
  intros D. revert h2. induction D as [h c h' E|h c h' h'' E D IH]; intros h2 D2; inversion D2 as [x c2 x' E2|x c2 x' x'' E2 D3]; subst; rewrite E in E2; try discriminate; injection E2 as <- <-; auto.
Qed.
Lemma reads_spec bs h : forall bytes h', reads bs h = (bytes, h') ->
  hasher h' = hasher h ++ bytes /\ stream (under h) = bytes ++ stream (under h') /\ length_ h' = (length_ h + Z.of_nat (length bytes))%Z.
Proof.
  revert h. induction bs as [|b bs IH]; intros h bytes h' E; cbn in E.
  - injection E as <- <-. rewrite app_nil_r. cbn. split; [auto|]. split; [auto|lia].
  - unfold Read in E. destruct (read b (under h)) as [[c e] r] eqn:ER. destruct (reads bs _) as [cs h2] eqn:E2. injection E as <- <-.
    destruct (IH _ _ _ E2) as (A & B & C). cbn in A, B, C. pose proof (read_stream _ _ _ _ _ ER) as S.
    rewrite A, S, B, C, <- !app_assoc, app_length. split; [auto|]. split; [auto|]. lia.
Qed.
End Proofs.

(* However the stream was read so far (and however the reader cuts it), Sum is the
   digest of the whole stream; it terminates, and a second Sum is the same. *)
Theorem C33_sum : forall (byte : Type) (digest : list byte -> list byte) r bs bytes h prefix,
  reads bs (NewHashReader r) = (bytes, h) ->
  (exists res h', Sum digest prefix h res h') /\
  (forall res h', Sum digest prefix h res h' -> res = prefix ++ digest (concat (pieces r))) /\
  (forall res h' res2 h'', Sum digest prefix h res h' -> Sum digest prefix h' res2 h'' -> res2 = res).
Proof.
  intros byte digest r bs bytes h prefix E. destruct (reads_spec _ _ _ _ E) as (A & B & _). cbn in A, B.
  assert (X : forall h', drain h h' -> hasher h' = concat (pieces r)). { intros h' D. destruct (drain_spec _ _ D) as (X & _). rewrite X, A, <- B. auto. }
  split; [|split].
  - destruct (drain_total h) as (h' & D). eexists _, h'. split; [exact D|reflexivity].
  - intros res h' [D ->]. rewrite (X h' D). auto.
  - intros res h' res2 h'' [D ->] [D2 ->]. destruct (drain_spec _ _ D) as (_ & S & _). destruct (drain_spec _ _ D2) as (Y & _). rewrite Y, S, app_nil_r. auto.
Qed.
Print Assumptions C33_sum.

(* Reading passes the stream on, and Length counts what was read. *)
Theorem C33_reads : forall (byte : Type) (r : reader byte) bs bytes h, reads bs (NewHashReader r) = (bytes, h) ->
  (exists rest, concat (pieces r) = bytes ++ rest) /\ Length h = Z.of_nat (length bytes).
Proof.
  intros byte r bs bytes h E. destruct (reads_spec _ _ _ _ E) as (_ & B & C). cbn in B, C. split; [exists (stream (under h)); exact B|]. unfold Length. rewrite C. lia.
Qed.
Print Assumptions C33_reads.

(* The bytes read before the error or the end are returned, if enough is read. *)
Theorem C33_reads_all : forall (byte : Type) (r : reader byte) b, b <> 0 ->
  exists n h, reads (repeat b n) (NewHashReader r) = (concat (pieces r), h).
Proof.
  intros byte r b B. assert (X : forall n (h : hash_reader byte), measure (under h) <= n -> exists k h', reads (repeat b k) h = (stream (under h), h')).
  { induction n as [|n IH]; intros h M.
    - exists 0, h. cbn. unfold measure in M. destruct (stream (under h)); [auto|cbn in M; lia].
    - destruct (read b (under h)) as [[c e] r'] eqn:E. pose proof (read_stream _ _ _ _ _ E) as ST. destruct e.
      + exists 1. cbn. unfold Read. rewrite E. rewrite (read_end _ _ _ _ E), app_nil_r in ST. rewrite app_nil_r, <- ST. eauto.
      + pose proof (read_measure b _ _ _ B E) as L. set (h1 := {| hasher := hasher h ++ c; under := r'; length_ := length_ h + Z.of_nat (length c) |}).
        destruct (IH h1) as (k & h' & E'); [cbn; lia|]. exists (S k), h'. cbn [repeat reads]. unfold Read. rewrite E. fold h1. rewrite E', ST. auto. }
  destruct (X _ (NewHashReader r) (le_n _)) as (k & h & E). exists k, h. exact E.
Qed.
Print Assumptions C33_reads_all.

(* Length after Sum counts twice what Sum itself had to read. *)
Theorem C33_length_after_sum : forall (byte : Type) (digest : list byte -> list byte) r bs bytes h prefix res h',
  reads bs (NewHashReader r) = (bytes, h) -> Sum digest prefix h res h' ->
  Length h' = (2 * Z.of_nat (length (concat (pieces r))) - Z.of_nat (length bytes))%Z.
Proof.
  intros byte digest r bs bytes h prefix res h' E [D _]. destruct (reads_spec _ _ _ _ E) as (_ & B & C). destruct (drain_spec _ _ D) as (_ & _ & L). cbn in B, C.
  unfold stream at 1 in B. cbn in B. unfold Length. rewrite L, C, B, app_length. lia.
Qed.
Print Assumptions C33_length_after_sum.
Theorem C33_length_refuted : exists (r : reader nat) digest res h, Sum digest [] (NewHashReader r) res h /\
  concat (pieces r) = [1; 2; 3] /\ Length h = 6%Z.
Proof.
  exists {| pieces := [[1; 2]; []; [3]]; with_last := true |}, (fun x => x). destruct (drain_total (NewHashReader {| pieces := [[1; 2]; []; [3]]; with_last := true |})) as (h & D).
  exists (hasher h), h. split; [split; auto|]. split; [reflexivity|].
  apply (C33_length_after_sum nat (fun x => x) {| pieces := [[1; 2]; []; [3]]; with_last := true |} [] [] (NewHashReader {| pieces := [[1; 2]; []; [3]]; with_last := true |}) [] (hasher h) h); [reflexivity|]. split; auto.
Qed.
Print Assumptions C33_length_refuted.

(* A concrete case. *)
Example ex_reads : reads [1; 5; 2] (NewHashReader {| pieces := [[1; 2; 3]; [4]]; with_last := false |}) =
  ([1; 2; 3; 4], {| hasher := [1; 2; 3; 4]; under := {| pieces := []; with_last := false |}; length_ := 4 |}).
Proof. reflexivity. Qed.

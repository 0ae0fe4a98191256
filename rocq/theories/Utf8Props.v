(* C14: the characters of a stream, and which of them belong to tokens. *)
From Coq Require Import List Arith NArith ZArith Bool Lia.
From Verif Require Import TokModel TokSpec TokProofs Utf8Spec.
Import ListNotations.
Local Open Scope N_scope.

Lemma inr_iff lo hi b : inr lo hi b = true <-> lo <= b <= hi.
Proof. unfold inr. rewrite andb_true_iff, !N.leb_le. tauto. Qed.
Ltac inr_true := match goal with |- context [inr ?a ?b ?c] => replace (inr a b c) with true by (symmetry; apply inr_iff; zify; Z.to_euclidean_division_equations; lia) end.
Ltac testb :=
  match goal with
  | |- context [?a <? ?b] => first
     [ replace (a <? b) with true by (symmetry; apply N.ltb_lt; zify; Z.to_euclidean_division_equations; lia)
     | replace (a <? b) with false by (symmetry; apply N.ltb_ge; zify; Z.to_euclidean_division_equations; lia)
     | destruct (N.ltb_spec a b) ]
  | |- context [?a <=? ?b] => first
     [ replace (a <=? b) with true by (symmetry; apply N.leb_le; zify; Z.to_euclidean_division_equations; lia)
     | replace (a <=? b) with false by (symmetry; apply N.leb_gt; zify; Z.to_euclidean_division_equations; lia)
     | destruct (N.leb_spec a b) ]
  | |- context [?a =? ?b] => first
     [ replace (a =? b) with true by (symmetry; apply N.eqb_eq; zify; Z.to_euclidean_division_equations; lia)
     | replace (a =? b) with false by (symmetry; apply N.eqb_neq; zify; Z.to_euclidean_division_equations; lia)
     | destruct (N.eqb_spec a b) ]
  end.
Ltac fin := inr_true; try inr_true; try inr_true; cbn [andb]; f_equal; zify; Z.to_euclidean_division_equations; lia.

Lemma decode_utf8 r rest : scalar r -> decode (utf8 r ++ rest) = (r, length (utf8 r)).
Proof.
  intros HR. unfold scalar in HR. unfold utf8.
  destruct (N.ltb_spec r 0x80); [|destruct (N.ltb_spec r 0x800); [|destruct (N.ltb_spec r 0x10000)]];
    cbn [app length decode]; unfold first.
  - repeat testb. reflexivity.
  - repeat testb; fin.
  - repeat testb; fin.
  - repeat testb; fin.
Qed.

Ltac nodiv := zify; Z.to_euclidean_division_equations; lia.
Lemma decode_sound b t : 
  decode (b :: t) = (RuneError, 1%nat) \/
  exists r rest, scalar r /\ b :: t = utf8 r ++ rest.
Proof.
  unfold decode. destruct (first b) as [| |lo hi|lo hi|lo hi] eqn:F; unfold first in F.
  - right. exists b, t. destruct (N.ltb_spec b 0x80); [|repeat match type of F with (if ?x then _ else _) = _ => destruct x; try discriminate end].
    unfold scalar, utf8. destruct (N.ltb_spec b 0x80); [|lia]. split; [lia|reflexivity].
  - auto.
  - destruct t as [|b1 t]; auto. destruct (inr lo hi b1) eqn:I; auto. right. apply inr_iff in I.
    exists ((b - 0xC0) * 64 + (b1 - 0x80)), t.
    assert (0xC2 <= b <= 0xDF /\ lo = 0x80 /\ hi = 0xBF) as (B & -> & ->).
    { repeat match type of F with (if ?x then _ else _) = _ => destruct x eqn:?; try discriminate end. injection F as <- <-.
      rewrite ?N.ltb_ge, ?N.leb_le in *. lia. }
    unfold scalar, utf8. repeat testb. split; [lia|]. cbn [app]. repeat (f_equal; try nodiv).
  - destruct t as [|b1 [|b2 t]]; auto. destruct (inr lo hi b1 && inr 0x80 0xBF b2) eqn:I; auto. right.
    apply andb_true_iff in I. destruct I as [I1 I2]. apply inr_iff in I1, I2.
    exists ((b - 0xE0) * 4096 + (b1 - 0x80) * 64 + (b2 - 0x80)), t.
    assert (0xE0 <= b <= 0xEF /\ 0x80 <= b1 <= 0xBF /\ (b = 0xE0 -> 0xA0 <= b1) /\ (b = 0xED -> b1 <= 0x9F)) as (B & B1 & Ba & Bb).
    { repeat match type of F with (if ?x then _ else _) = _ => destruct x eqn:?; try discriminate end; injection F as <- <-;
      rewrite ?N.ltb_ge, ?N.leb_le, ?N.leb_gt, ?N.eqb_eq, ?N.eqb_neq in *; lia. }
    clear I1 F. unfold scalar, utf8.
    repeat testb. split; [lia|]. cbn [app]. repeat (f_equal; try nodiv).
  - destruct t as [|b1 [|b2 [|b3 t]]]; auto. destruct (inr lo hi b1 && inr 0x80 0xBF b2 && inr 0x80 0xBF b3) eqn:I; auto. right.
    apply andb_true_iff in I. destruct I as [I I3]. apply andb_true_iff in I. destruct I as [I1 I2]. apply inr_iff in I1, I2, I3.
    exists ((b - 0xF0) * 262144 + (b1 - 0x80) * 4096 + (b2 - 0x80) * 64 + (b3 - 0x80)), t.
    assert (0xF0 <= b <= 0xF4 /\ 0x80 <= b1 <= 0xBF /\ (b = 0xF0 -> 0x90 <= b1) /\ (b = 0xF4 -> b1 <= 0x8F)) as (B & B1 & Ba & Bb).
    { repeat match type of F with (if ?x then _ else _) = _ => destruct x eqn:?; try discriminate end; injection F as <- <-;
      rewrite ?N.ltb_ge, ?N.leb_le, ?N.leb_gt, ?N.eqb_eq, ?N.eqb_neq in *; lia. }
    clear I1 F. unfold scalar, utf8.
    repeat testb. split; [lia|]. cbn [app]. repeat (f_equal; try nodiv).
Qed.

(* The characters of a stream: the empty stream has none; an encoded scalar
   value is that character; a byte that starts no encoded scalar value is the
   one-byte character U+FFFD.  (Every non-empty stream is of exactly one of the
   last two forms, so this determines them.) *)
Theorem C14_characters :
  chars [] = [] /\
  (forall r rest, scalar r -> chars (utf8 r ++ rest) = (r, utf8 r) :: chars rest) /\
  (forall b rest, (forall r rest', scalar r -> b :: rest <> utf8 r ++ rest') ->
     chars (b :: rest) = (0xFFFD, [b]) :: chars rest).
Proof.
  split; [reflexivity|]. split.
  - intros r rest HR. rewrite chars_eq by (unfold utf8; repeat (destruct (_ <? _)); discriminate).
    rewrite decode_utf8 by auto. cbn [fst snd]. rewrite firstn_app, Nat.sub_diag, firstn_all, skipn_app, Nat.sub_diag, skipn_all.
    cbn [firstn skipn]. rewrite app_nil_r. reflexivity.
  - intros b rest H. rewrite chars_eq by discriminate. destruct (decode_sound b rest) as [D|(r & rest' & HS & E)].
    + rewrite D. reflexivity.
    + exfalso. eapply H; eauto.
Qed.
Print Assumptions C14_characters.

Corollary C14_characters_of_text : forall rs, Forall scalar rs ->
  chars (concat (map utf8 rs)) = map (fun r => (r, utf8 r)) rs.
Proof.
  induction 1 as [|r rs H HS IH]; [reflexivity|]. cbn [map concat]. rewrite (proj1 (proj2 C14_characters)) by auto.
  rewrite IH. reflexivity.
Qed.
Print Assumptions C14_characters_of_text.

(* Which characters belong to tokens. *)
Theorem C14_token_characters : forall r,
  (IsNonWhitespace r = true <-> ~ In r (white_space ++ java_separators)) /\
  (IsNumeric r = true <-> In r numeric_chars).
Proof.
  assert (R : forall lo hi x, inr lo hi x = true <-> lo <= x <= hi) by apply inr_iff.
  intros r. split.
  - unfold IsNonWhitespace. rewrite andb_true_iff, !negb_true_iff.
    rewrite <- !not_true_iff_false. unfold IsSpace. rewrite !orb_true_iff, !R, !N.eqb_eq.
    unfold white_space, java_separators. cbn [app In]. lia.
  - unfold IsNumeric. rewrite !orb_true_iff, !R, !N.eqb_eq. unfold numeric_chars. cbn [In]. lia.
Qed.
Print Assumptions C14_token_characters.

(* U+20AC then a stray continuation byte *)
Example C14_characters_example :
  utf8 0x20AC = [0xE2; 0x82; 0xAC] /\ scalar 0x20AC /\
  chars [0xE2; 0x82; 0xAC; 0xAC; 65] = [(0x20AC, [0xE2; 0x82; 0xAC]); (0xFFFD, [0xAC]); (65, [65])] /\
  IsNonWhitespace 13 = false /\ IsNonWhitespace 0x20AC = true.
Proof. unfold scalar. repeat split; try reflexivity; lia. Qed.

(* What "the tokens of a byte stream" means, without any buffering. *)
From Coq Require Import List Arith NArith ZArith Bool.
From Verif Require Import TokModel.
Import ListNotations.

(* The characters of a byte string: decode one rune after the other from the
   complete string (invalid bytes are one-byte U+FFFD characters). *)
Fixpoint chars_n (n : nat) (bs : bytes) : list (N * bytes) :=
  match n with
  | O => []
  | S n' =>
    match bs with
    | [] => []
    | _ => let (r, w) := decode bs in (r, firstn w bs) :: chars_n n' (skipn w bs)
    end
  end.
Definition chars (bs : bytes) : list (N * bytes) := chars_n (length bs) bs.

(* [tokenized P cs ts]: ts are the maximal non-empty runs of characters of cs
   satisfying P, in order. *)
Inductive tokenized (P : N -> bool) : list (N * bytes) -> list (list (N * bytes)) -> Prop :=
| tk_nil : tokenized P [] []
| tk_sep c cs ts : P (fst c) = false -> tokenized P cs ts -> tokenized P (c :: cs) ts
| tk_tok w cs ts : w <> [] -> Forall (fun c => P (fst c) = true) w ->
    (cs = [] \/ exists c cs', cs = c :: cs' /\ P (fst c) = false) ->
    tokenized P cs ts -> tokenized P (w ++ cs) (w :: ts).

(* The bytes of a list of characters. *)
Definition text (cs : list (N * bytes)) : bytes := concat (map snd cs).

(* Executable version. *)
Definition flush (cur : bytes) : list bytes := match cur with [] => [] | _ => [cur] end.
Fixpoint words (P : N -> bool) (cur : bytes) (cs : list (N * bytes)) : list bytes :=
  match cs with
  | [] => flush cur
  | (r, b) :: cs' => if P r then words P (cur ++ b) cs' else flush cur ++ words P [] cs'
  end.
Definition toks (P : N -> bool) (bs : bytes) : list bytes := words P [] (chars bs).

(* The reader never returns (0, nil) more than 100 times in a row. *)
Fixpoint no_stall (k : nat) (cs : list bytes) : Prop :=
  match cs with
  | [] => True
  | [] :: cs' => k < 100 /\ no_stall (S k) cs'
  | _ :: cs' => no_stall 0 cs'
  end.

(* Token predicates for which partial UTF-8 sequences are harmless: U+FFFD is
   part of tokens, or no non-ASCII rune is. *)
Definition goodP (P : N -> bool) : Prop :=
  P RuneError = true \/ (forall r, (128 <= r)%N -> P r = false).

(* Line and column (1-based, columns counted in characters) after a list of
   characters, and the tokens with the position of their first character. *)
Definition advance_pos (lc : Z * Z) (c : N * bytes) : Z * Z :=
  if N.eqb (fst c) 10 then (fst lc + 1, 1)%Z else (fst lc, snd lc + 1)%Z.
Definition position (before : list (N * bytes)) : Z * Z := fold_left advance_pos before (1, 1)%Z.

(* [located P before cs ts]: ts are the tokens of cs, each with the position of
   its first character when the stream is before ++ cs. *)
Inductive located (P : N -> bool) : list (N * bytes) -> list (N * bytes) -> list (bytes * Z * Z) -> Prop :=
| lo_nil b : located P b [] []
| lo_sep b c cs ts : P (fst c) = false -> located P (b ++ [c]) cs ts -> located P b (c :: cs) ts
| lo_tok b w cs ts : w <> [] -> Forall (fun c => P (fst c) = true) w ->
    (cs = [] \/ exists c cs', cs = c :: cs' /\ P (fst c) = false) ->
    located P (b ++ w) cs ts -> located P b (w ++ cs) ((text w, fst (position b), snd (position b)) :: ts).

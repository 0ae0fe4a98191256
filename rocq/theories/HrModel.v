(* common/inputmanager.go:378-427, HashReader. *)
From Coq Require Import List ZArith.
Import ListNotations.

Section HashReader.
Context {byte : Type}.

(* An io.Reader: the pieces it has to offer, one at most per call, the error it
   ends with (io.EOF or another), and whether it reports the error together with
   its last piece.  After the error it keeps reporting it. *)
Record reader := { pieces : list (list byte); with_last : bool }.

(* Read with a buffer of b bytes: the bytes and whether an error is reported. *)
Definition read (b : nat) (r : reader) : list byte * bool * reader :=
  match pieces r with
  | [] => ([], true, r)
  | c :: cs =>
      if Nat.leb (length c) b
      then (c, match cs with [] => with_last r | _ => false end, {| pieces := cs; with_last := with_last r |})
      else (firstn b c, false, {| pieces := skipn b c :: cs; with_last := with_last r |})
  end.

(* hash.Hash, by its contract: Sum is the digest of all bytes written. *)
Record hash_reader := { hasher : list byte; under : reader; length_ : Z }.

(* common/inputmanager.go:386-391, NewHashReader *)
Definition NewHashReader (r : reader) : hash_reader := {| hasher := []; under := r; length_ := 0 |}.

(* common/inputmanager.go:395-400, Read *)
Definition Read (b : nat) (h : hash_reader) : list byte * bool * hash_reader :=
  let '(c, err, r) := read b (under h) in
  (c, err, {| hasher := hasher h ++ c; under := r; length_ := length_ h + Z.of_nat (length c) |}).

(* common/inputmanager.go:403-413, drain: a loop, as the relation of its runs. *)
Inductive drain : hash_reader -> hash_reader -> Prop :=
| drain_end : forall h c h', Read 256 h = (c, true, h') ->
    drain h {| hasher := hasher h'; under := under h'; length_ := length_ h' + Z.of_nat (length c) |}
| drain_more : forall h c h' h'', Read 256 h = (c, false, h') ->
    drain {| hasher := hasher h'; under := under h'; length_ := length_ h' + Z.of_nat (length c) |} h'' -> drain h h''.

(* common/inputmanager.go:417-420, Sum *)
Definition Sum (digest : list byte -> list byte) (b : list byte) (h : hash_reader) (res : list byte) (h' : hash_reader) : Prop :=
  drain h h' /\ res = b ++ digest (hasher h').
(* common/inputmanager.go:423-425, Length *)
Definition Length (h : hash_reader) : Z := length_ h.

(* Several Reads, with these buffers: the bytes they return. *)
Fixpoint reads (bs : list nat) (h : hash_reader) : list byte * hash_reader :=
  match bs with
  | [] => ([], h)
  | b :: bs => let '(c, _, h1) := Read b h in let '(cs, h2) := reads bs h1 in (c ++ cs, h2)
  end.
End HashReader.
Arguments reader : clear implicits.
Arguments hash_reader : clear implicits.

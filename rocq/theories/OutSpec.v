(* Specification of output-only submissions (C26). *)
From Coq Require Import String Ascii List NArith ZArith.
From Verif Require Import OutModel.
Import ListNotations.
Local Open Scope string_scope.

Definition no_slash (s : string) : Prop := ~ In "/"%char (list_ascii_of_string s).
(* The entry's name, without its directories, is [n]. *)
Definition names (e : zentry) (n : string) : Prop :=
  no_slash n /\ (z_name e = n \/ exists dir, z_name e = dir ++ "/" ++ n).
(* The archive really holds [s] for this entry. *)
Definition holds (e : zentry) (s : string) : Prop := z_data e = Some s /\ N.of_nat (String.length s) = z_declared e.
(* What an entry contributes under a limit: nothing when it cannot be read. *)
Inductive contributes (limit : Z) (e : zentry) : outfile -> Prop :=
| c_large : (limit < Z.of_N (z_declared e))%Z -> contributes limit e (mkO "" true)
| c_data s : (Z.of_N (z_declared e) <= limit)%Z -> holds e s -> contributes limit e (mkO s false).
(* The last entry for [n] that contributes something contributes [f]. *)
Definition last_for (limit : Z) (n : string) (files : list zentry) (f : outfile) : Prop :=
  exists pre e post, files = (pre ++ e :: post)%list /\ names e n /\ contributes limit e f /\
  forall e' f', In e' post -> names e' n -> ~ contributes limit e' f'.

(** Texts as bytes: what the byte offsets and searches of Rust's strings mean.
    [utf8] is the encoding of a text. *)
From Coq Require Import List NArith Arith.
From Verif Require Import Base Spec.
Import ListNotations.

(** [str::is_char_boundary]: the start, the end, or a byte that does not
    continue a character. *)
Definition byte_boundary (bs : list N) (i : nat) : Prop :=
  i = List.length bs \/ exists b, nth_error bs i = Some b /\ (b < 128 \/ 192 <= b)%N.
(** [p] stands in [bs] at offset [i]. *)
Definition stands_at (p bs : list N) (i : nat) : Prop :=
  exists u v, bs = u ++ p ++ v /\ List.length u = i.

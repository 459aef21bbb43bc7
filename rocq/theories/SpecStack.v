(** Specification vocabulary for the depth of trees. *)
From Coq Require Import List NArith Arith Bool String.
From Verif Require Import Base Dom Stack.
Import ListNotations.

(** There are [n] elements, the first being [e], each a child of the one before. *)
Inductive chain : elem -> nat -> Prop :=
| chain_one e : chain e 1
| chain_more e c n : In (NElem c) (children e) -> chain c n -> chain e (S n).

(** Elements are nested more than [k] deep. *)
Definition deeper (k : nat) (e : elem) : Prop := chain e (S k).

(** [stack_for l f a]: [f] with room for [k] activations gives [a], unless one of the
    elements [l] is nested deeper than [k]; then the stack overflows. *)
Definition stack_for {A} (l : list elem) (f : nat -> stacked A) (a : A) : Prop := forall k,
  ((exists c, In c l /\ deeper k c) -> f k = Overflow) /\ ((forall c, In c l -> ~ deeper k c) -> f k = Fits a).

(** "<a><a>...<a/>...</a></a>" with [n] tags around the innermost element *)
Definition nest (n : nat) : str :=
  List.concat (repeat (lit "<a>") n) ++ lit "<a/>" ++ List.concat (repeat (lit "</a>") n).

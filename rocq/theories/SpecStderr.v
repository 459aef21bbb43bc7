(** What can be seen on a line of stderr.  Nothing of the model is used. *)
From Coq Require Import List NArith Arith Bool Ascii String.
From Verif Require Import Base Spec.
Import ListNotations.

(** No control character of ASCII; so no line end and no start of a terminal command. *)
Definition visible (c : char) : Prop := (32 <= c < 127)%N \/ (128 <= c)%N.
(** Code points. *)
Definition is_char (c : char) : Prop := (c < 1114112)%N.
(** Of the Unicode tables of the standard library, all that is used: no ASCII character
    is Grapheme_Extend, and those from space to "~" are the printable ones. *)
Definition ascii_like (extend printable : char -> bool) : Prop :=
  forall c, (c < 128)%N -> extend c = false /\ printable c = ((32 <=? c) && (c <? 127))%N.
(** A tag with the line [l] in it. *)
Definition forged (l : str) : str := lit "<![CDATA[" ++ (10%N :: l ++ [10%N]) ++ lit "]]>".
(** How a character is shown between double quotes: as it is, with a short escape, or with
    its code point in hexadecimal. *)
Inductive shows : char -> str -> Prop :=
| sh_plain c : visible c -> c <> 34%N -> c <> 92%N -> shows c [c]
| sh_short c k : In (c, k) [(0, 48); (9, 116); (10, 110); (13, 114); (34, 34); (92, 92)]%N -> shows c [92%N; k]
| sh_code c h : hex_number h c -> shows c (lit "\u{" ++ h ++ lit "}").
Inductive shows_all : str -> str -> Prop :=
| sa_nil : shows_all [] []
| sa_cons c s a b : shows c a -> shows_all s b -> shows_all (c :: s) (a ++ b).

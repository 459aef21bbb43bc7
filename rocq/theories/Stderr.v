(** The text printed on stderr, with the form in which `{:?}` shows a string. *)
From Coq Require Import List NArith Arith Bool Ascii String.
From Verif Require Import Base Escape Dom Parse Warn.
Import ListNotations.

(** Lower case hexadecimal digits, as core::char::EscapeUnicode writes them; [f] bounds
    the number of digits, 8 are enough for every [char]. *)
Definition digit (n : N) : char := if (n <? 10)%N then (48 + n)%N else (87 + n)%N.
Fixpoint hex (f : nat) (n : N) : str :=
  if (n <? 16)%N then [digit n]
  else match f with O => [] | S f' => hex f' (n / 16)%N ++ [digit (n mod 16)%N] end.

Section Debug.
(** Grapheme_Extend of Unicode, and core::unicode::printable: tables of the standard
    library, which are not modelled. *)
Variables extend printable : char -> bool.
(** core::char::methods [escape_debug_ext], as <str as Debug>::fmt calls it: double quotes
    are escaped, single quotes are not. *)
Definition debug_char (c : char) : str :=
  if (c =? 0)%N then lit "\0"
  else if (c =? 9)%N then lit "\t"
  else if (c =? 13)%N then lit "\r"
  else if (c =? 10)%N then lit "\n"
  else if (c =? 92)%N then lit "\\"
  else if (c =? 34)%N then lit "\"""
  else if extend c then lit "\u{" ++ hex 8 c ++ lit "}"
  else if printable c then [c]
  else lit "\u{" ++ hex 8 c ++ lit "}".
Definition debug_str (s : str) : str := [34%N] ++ flat_map debug_char s ++ [34%N].

(** src/dom.rs:133 and :1547; `eprintln!` adds a line end *)
Definition indent_message (i : str) : str :=
  lit "WARNING: " ++ debug_str i ++
  lit " is not a valid indentation. Must be either 1 tab or any number of spaces. The default of 2 spaces will be used instead" ++ [10%N].
(** What writing a document or an element prints, and what reading prints (the messages
    of Warn.v, each with its line end). *)
Definition stderr_document (d : document) (i : str) : str := flat_map indent_message (fst (doc_to_string_w d i)).
Definition stderr_element (e : elem) (i : str) : str := flat_map indent_message (fst (elem_to_string_w e i)).
End Debug.
Definition stderr_parse (s : str) : str := flat_map (fun m => m ++ [10%N]) (fst (parse_str_w s)).

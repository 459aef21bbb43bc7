(** Model of src/errors.rs: the error values with their messages, and how they
    are displayed.  The model of the rest of the crate (Base.v, [error]) keeps
    the kind of an error, its numbers and the texts it quotes; [error_value]
    below builds the message from them. *)
From Coq Require Import List NArith ZArith Arith Bool Ascii String.
From Verif Require Import Base.
Import ListNotations.

(** src/errors.rs:10-30, and the structs with the messages *)
Record index_error := mkIndex { i_index : Z; i_bounds : option (Z * Z) }.
Inductive kiss_error :=
| KParsing (msg : str)
| KTypeCast (msg : str)
| KDoesNotExist (msg : str)
| KIndex (e : index_error)
| KAttributeName (msg : str)
| KElementName (msg : str)
| KContent (msg : str)
| KNotSupported (msg : str)
| KIO (display : str).

(** [str::trim_start_matches] with a string: the pattern is taken away as long
    as the text starts with it.  [fuel]: each round takes a character away. *)
Fixpoint trim_start_matches (fuel : nat) (p s : str) : str :=
  match fuel with
  | O => s
  | S fuel' => if starts_with p s then trim_start_matches fuel' p (skipn (List.length p) s) else s
  end.
(** src/errors.rs:64-71 [ParsingError::new]: nested messages *)
Definition parsing_error_new (m : str) : kiss_error :=
  KParsing (trim_start_matches (List.length m) (lit "ParsingError: ") m).
(** src/errors.rs:91-95, :117-121, :181-185, :207-211, :234-238, :261-265 *)
Definition type_cast_error_new (m : str) : kiss_error := KTypeCast m.
Definition does_not_exist_error_new (m : str) : kiss_error := KDoesNotExist m.
Definition attribute_name_error_new (m : str) : kiss_error := KAttributeName m.
Definition element_name_error_new (m : str) : kiss_error := KElementName m.
Definition content_error_new (m : str) : kiss_error := KContent m.
Definition not_supported_error_new (m : str) : kiss_error := KNotSupported m.
(** src/errors.rs:133-137 *)
Definition does_not_exist_default : kiss_error := KDoesNotExist (lit "requested item not found").
(** [usize as isize] on a 64-bit machine *)
Definition as_isize (n : N) : Z :=
  let z := (Z.of_N n mod 2 ^ 64)%Z in if (z <? 2 ^ 63)%Z then z else (z - 2 ^ 64)%Z.
(** src/errors.rs:149-153, with the conversions of src/dom.rs:1275, :1293, :1362 *)
Definition index_error_new (index : N) (bounds : option (N * N)) : kiss_error :=
  KIndex (mkIndex (as_isize index) (option_map (fun b => (as_isize (fst b), as_isize (snd b))) bounds)).

(** Decimal digits of a number; [fuel]: one per digit. *)
Fixpoint digits (fuel : nat) (n : N) (acc : str) : str :=
  let acc := (48 + n mod 10)%N :: acc in
  match fuel with
  | O => acc
  | S fuel' => if (n <? 10)%N then acc else digits fuel' (n / 10)%N acc
  end.
Definition show_N (n : N) : str := digits (N.to_nat (N.log2 n)) n [].
(** [Display for isize] *)
Definition show_Z (z : Z) : str :=
  match z with
  | Z0 => show_N 0
  | Zpos p => show_N (Npos p)
  | Zneg p => lit "-" ++ show_N (Npos p)
  end.
(** src/errors.rs:159-166 *)
Definition index_error_display (e : index_error) : str :=
  match i_bounds e with
  | Some (lo, hi) =>
      lit "Index " ++ show_Z (i_index e) ++ lit " is out of bounds (valid range: " ++ show_Z lo ++
      lit " - " ++ show_Z hi ++ lit ")"
  | None => lit "Index " ++ show_Z (i_index e) ++ lit " is out of bounds"
  end.
(** src/errors.rs:36-50 and the [Display] of the structs.  The text of an I/O
    error comes from the operating system. *)
Definition error_display (e : kiss_error) : str :=
  match e with
  | KParsing m => lit "ParsingError: " ++ m
  | KTypeCast m => lit "TypeCastError: " ++ m
  | KDoesNotExist m => lit "DoesNotExistError: " ++ m
  | KIndex e => index_error_display e
  | KAttributeName m => lit "InvalidAttributeName: " ++ m
  | KElementName m => lit "InvalidElementName: " ++ m
  | KContent m => lit "InvalidContent: " ++ m
  | KNotSupported m => lit "NotSupportedError: " ++ m
  | KIO d => d
  end.

(** * The messages of the crate's errors *)

(** "line {line}, column {col}" *)
Definition line_col (loc : nat * nat) : str :=
  lit "line " ++ show_N (N.of_nat (fst loc)) ++ lit ", column " ++ show_N (N.of_nat (snd loc)).
(** " (syntax error on line {line}, column {col})", src/lib.rs:397, :406, :414,
    :435, :476, :493, :510, :528, :535, :552, :561, :568, :580 *)
Definition syntax_error_on (loc : nat * nat) : str := lit " (syntax error on " ++ line_col loc ++ lit ")".
(** "invalid XML syntax on line {line}, column {col}", src/lib.rs:442, :468, and
    with something after it :625, :637, :644, :652, :679 *)
Definition invalid_syntax_on (loc : nat * nat) : str := lit "invalid XML syntax on " ++ line_col loc.
(** An error of src/parsing.rs or of [check_element_tag], which reports no
    position, and the same one wrapped with a position: the inner error is
    displayed in the message of a new [ParsingError], src/lib.rs:490-495, :507-512,
    :532-537, :549-554, :577-582. *)
Definition maybe_wrapped (inner : str) (loc : option (nat * nat)) : kiss_error :=
  match loc with
  | None => parsing_error_new inner
  | Some loc => parsing_error_new (error_display (parsing_error_new inner) ++ syntax_error_on loc)
  end.
(** Lines of src/lib.rs, src/parsing.rs and src/dom.rs as given in Base.v,
    [pmsg].  Messages without position ignore [loc]; those that always have one
    are given "line 0, column 0" if there is none, which does not happen. *)
Definition parsing_error_value (m : pmsg) (loc : option (nat * nat)) : kiss_error :=
  let at_ := match loc with Some loc => loc | None => (0, 0) end in
  match m with
  | PNoContent => parsing_error_new (lit "no XML content")
  | PNoClose => parsing_error_new (lit "'<' has not matching '>'" ++ syntax_error_on at_)
  | PTextOutsideRoot => parsing_error_new (lit "Text outside the root element is not supported" ++ syntax_error_on at_)
  | PDeclNotFirst => parsing_error_new (lit "<?xml ...?> declaration must at start of XML" ++ syntax_error_on at_)
  | PStartsWithClose => parsing_error_new (lit "cannot start with closing tag" ++ syntax_error_on at_)
  | PInvalidSyntax => parsing_error_new (invalid_syntax_on at_)
  | POnlyOneRoot => parsing_error_new (lit "only 1 root element is allowed" ++ syntax_error_on at_)
  | PNoRootElement => maybe_wrapped (lit "no root element") loc
  | PInvalidComment => parsing_error_new (lit "invalid comment syntax on " ++ line_col at_)
  | PUnclosedCData =>
      parsing_error_new (lit "Unclosed CDATA. '<![CDATA[' must be followed by ']]>'" ++ syntax_error_on at_)
  | PInvalidElement => maybe_wrapped (lit "Invalid XML Element") loc
  | PRootAlreadyClosed => parsing_error_new (lit "root element already closed" ++ syntax_error_on at_)
  | PCloseMismatch tag opened =>
      parsing_error_new (lit "closing tag " ++ tag ++ lit " does not match <" ++ opened ++ lit ">" ++ syntax_error_on at_)
  | PRootNotClosed => parsing_error_new (lit "root element not closed")
  | PPopEmpty => maybe_wrapped (lit "closing tag without corresponding open tag") loc
  | PEmptyTag => parsing_error_new (invalid_syntax_on at_ ++ lit ": empty tags not supported")
  | PAttrForm => parsing_error_new (invalid_syntax_on at_ ++ lit ": attributes must be in the form 'key=""value""'")
  | PAttrNoContent => parsing_error_new (invalid_syntax_on at_ ++ lit ": no content after =")
  | PAttrQuote =>
      parsing_error_new (invalid_syntax_on at_ ++ lit ": attribute value must be quoted with single or double quotes")
  | PUndefPrefix a =>
      parsing_error_new (invalid_syntax_on at_ ++ lit ": XML namespace prefix '" ++ a ++
        lit "' has no defined namespace (missing 'xmlns:" ++ a ++ lit "=""...""')")
  | PDeclSyntax => parsing_error_new (lit "Invalid XML declaration syntax")
  | PDtdSyntax => parsing_error_new (lit "Invalid DTD syntax")
  end.
(** src/dom.rs:990, :1004, :1275, :1293, :1362, :1521-1533, :1698-1712, :1774,
    :1788, :1818-1832, :1905, :1915, :1950-1962, :914, :942; src/lib.rs:541.
    [io]: the text of an error of the operating system. *)
Definition error_value (io : str) (e : error) : kiss_error :=
  match e with
  | ParsingError m loc => parsing_error_value m loc
  | TypeCastError from to => type_cast_error_new (lit "Cannot cast " ++ from ++ lit " as " ++ to)
  | DoesNotExistError => does_not_exist_default
  | IndexOutOfBounds index lo hi => index_error_new (N.of_nat index) (Some (N.of_nat lo, N.of_nat hi))
  | InvalidAttributeName nm => attribute_name_error_new (lit "'" ++ nm ++ lit "' is not a valid attribute name")
  | InvalidElementName nm => element_name_error_new (lit "'" ++ nm ++ lit "' is not a valid name")
  | InvalidContent msg => content_error_new msg
  | NotSupportedError what loc =>
      let at_ := match loc with Some loc => loc | None => (0, 0) end in
      not_supported_error_new (lit "kiss-xml does not support '" ++ what ++ lit "' (error on " ++ line_col at_ ++ lit ")")
  | IOError => KIO io
  end.
(** [to_string] of the error *)
Definition error_text (io : str) (e : error) : str := error_display (error_value io e).

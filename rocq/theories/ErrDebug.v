(** Model of the [Debug] of errors, which [unwrap] and [expect] print: src/errors.rs:9,
    :56, :85, :112, :144, :175, :201, :228, :255 [derive(Debug)]. *)
From Coq Require Import List NArith ZArith Arith Bool Ascii String.
From Verif Require Import Base Errors Stderr.
Import ListNotations.

Section Debug.
Variables extend printable : char -> bool.
(** What the standard library prints for an I/O error is not modelled: [io]. *)
Variable io : str.
(** A struct with the field [msg]. *)
Definition msg_debug (name m : str) : str :=
  name ++ lit "(" ++ name ++ lit " { msg: " ++ debug_str extend printable m ++ lit " })".
(** src/errors.rs:144-150; an [isize] is shown like with [Display] *)
Definition index_error_debug (e : index_error) : str :=
  lit "IndexOutOfBounds(IndexOutOfBounds { index: " ++ show_Z (i_index e) ++ lit ", bounds: " ++
  match i_bounds e with
  | Some (lo, hi) => lit "Some((" ++ show_Z lo ++ lit ", " ++ show_Z hi ++ lit "))"
  | None => lit "None"
  end ++ lit " })".
Definition error_debug (e : kiss_error) : str :=
  match e with
  | KParsing m => msg_debug (lit "ParsingError") m
  | KTypeCast m => msg_debug (lit "TypeCastError") m
  | KDoesNotExist m => msg_debug (lit "DoesNotExistError") m
  | KIndex e => index_error_debug e
  | KAttributeName m => msg_debug (lit "InvalidAttributeName") m
  | KElementName m => msg_debug (lit "InvalidElementName") m
  | KContent m => msg_debug (lit "InvalidContent") m
  | KNotSupported m => msg_debug (lit "NotSupportedError") m
  | KIO _ => lit "IOError(" ++ io ++ lit ")"
  end.
End Debug.

(** Specification of texts and files that were cut off. *)
From Coq Require Import List NArith Arith Bool Ascii String.
From Verif Require Import Base Dom Parse.
Import ListNotations.

(** The errors for a text that ends too early. *)
Definition ends_early (x : error) : Prop :=
  x = ParsingError PNoContent None \/ x = ParsingError PRootNotClosed None \/
  exists loc, x = ParsingError PNoClose (Some loc) \/ x = ParsingError PInvalidSyntax (Some loc).

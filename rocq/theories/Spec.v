(** Specification vocabulary, independent of the model's algorithms.  Only
    plain data (lists, characters) and the std-library predicates of Base.v are
    used here. *)
From Coq Require Import List NArith Arith Bool Ascii String.
From Verif Require Import Base.
Import ListNotations.

(** * Characters *)

Definition ascii (c : char) : Prop := (c < 128)%N.
Definition all_ascii (s : str) : Prop := Forall ascii s.
(** Unicode scalar values: what a Rust [char] can be. *)
Definition scalar (c : char) : Prop :=
  (c < 55296 \/ 57343 < c /\ c <= 1114111)%N.
(** [p] is a substring of [s]. *)
Definition substring (p s : str) : Prop := exists a b, s = a ++ p ++ b.
(** The text is empty or its last character is ASCII. *)
Definition last_ascii (s : str) : Prop := s = [] \/ exists a c, s = a ++ [c] /\ ascii c.

(** * XML escapes *)

Definition amp : char := 38%N.
Definition semi : char := 59%N.

(** The five predefined entities. *)
Definition predefined : list (str * char) :=
  [(lit "amp", 38); (lit "lt", 60); (lit "gt", 62); (lit "apos", 39); (lit "quot", 34)]%N.

(** What a text looks like when every occurrence of a character of [set] is
    replaced by its predefined entity. *)
Definition escape_char (set : list char) (c : char) : str :=
  if existsb (N.eqb c) set
  then match find (fun nc => (snd nc =? c)%N) predefined with
       | Some (nm, _) => [amp] ++ nm ++ [semi]
       | None => [c]
       end
  else [c].
Definition all_special : list char := [38; 60; 62; 39; 34]%N.
Definition text_special : list char := [38; 60; 62]%N.

(** Number written in hexadecimal digits. *)
Definition hex_value (d : char) (v : N) : Prop :=
  nth_error (lit "0123456789abcdef") (N.to_nat v) = Some d \/ nth_error (lit "0123456789ABCDEF") (N.to_nat v) = Some d.
Inductive hex_number : str -> N -> Prop :=
| hex_one d v : hex_value d v -> hex_number [d] v
| hex_more h n d v : hex_number h n -> hex_value d v ->
    hex_number (h ++ [d]) (16 * n + v)%N.

(** [entity nm c]: the reference "&nm;" stands for the character [c].  The
    numeric form accepted by the crate is "&#H;" with H hexadecimal (and, as
    with Rust's integer parser, an optional plus sign). *)
Inductive entity : str -> char -> Prop :=
| ent_named nm c : In (nm, c) predefined -> entity nm c
| ent_hex h c : hex_number h c -> scalar c -> entity (lit "#" ++ h) c
| ent_hex_plus h c : hex_number h c -> scalar c -> entity (lit "#+" ++ h) c.

(** One left-to-right decoding pass: each reference is replaced once, the rest
    is copied. *)
Inductive decodes : str -> str -> Prop :=
| dec_nil : decodes [] []
| dec_char c s r : c <> amp -> decodes s r -> decodes (c :: s) (c :: r)
| dec_ref nm c s r : entity nm c -> decodes s r ->
    decodes ([amp] ++ nm ++ [semi] ++ s) (c :: r)
| dec_lone s r : (forall nm c s', entity nm c -> s <> nm ++ [semi] ++ s') ->
    decodes s r -> decodes (amp :: s) (amp :: r).

(** All numeric references of a text denote ASCII characters. *)
Definition ascii_refs (t : str) : Prop :=
  forall nm c, entity nm c -> substring ([amp] ++ nm ++ [semi]) t -> ascii c.

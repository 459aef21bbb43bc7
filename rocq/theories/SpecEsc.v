(** What [unescape] computes on every text, including those on which it panics
    or skips references.  Only plain lists are used. *)
From Coq Require Import List NArith Arith Bool Ascii String.
From Verif Require Import Base Spec.
Import ListNotations.

(** [reference_read q q']: [q] starts with '&'; if it starts with a reference,
    [q'] has its character instead, otherwise [q'] is [q]. *)
Inductive reference_read : str -> str -> Prop :=
| rr_ref nm c s : entity nm c -> reference_read ([amp] ++ nm ++ [semi] ++ s) (c :: s)
| rr_lone s : (forall nm c s', entity nm c -> s <> nm ++ [semi] ++ s') ->
    reference_read (amp :: s) (amp :: s).

(** [unescapes t o]: text up to the first '&' is copied, the reference there is
    read, and then as many BYTES are copied as the last character of the text
    has: 1 if it is ASCII, and then this is decoding from left to right.  If this
    is not a whole number of characters, the result is [None], a panic. *)
Inductive unescapes : str -> option str -> Prop :=
| un_end t : ~ In amp t -> unescapes t (Some t)
| un_go p q q' a last u v o : ~ In amp p -> reference_read q q' -> q' = a ++ [last] ->
    q' = u ++ v -> blen u = len_utf8 last -> unescapes v o ->
    unescapes (p ++ q) (option_map (fun r => p ++ u ++ r) o)
| un_cut p q q' a last : ~ In amp p -> reference_read q q' -> q' = a ++ [last] ->
    (forall u v, q' = u ++ v -> blen u <> len_utf8 last) ->
    unescapes (p ++ q) None.

(** [refs_replaced t r]: [r] is [t] with some references replaced by the
    characters they stand for. *)
Inductive refs_replaced : str -> str -> Prop :=
| re_same t : refs_replaced t t
| re_ref a nm c b r : entity nm c -> refs_replaced (a ++ [c] ++ b) r ->
    refs_replaced (a ++ [amp] ++ nm ++ [semi] ++ b) r.

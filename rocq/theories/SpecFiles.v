(** What streams deliver, and the texts of documents as Unicode texts. *)
From Coq Require Import List NArith Arith.
From Verif Require Import Base Spec Dom Files.
Import ListNotations.

(** [delivers l bs]: reading gives the bytes [bs] and then the end of the
    stream; what follows the end does not matter. *)
Inductive delivers : list read_event -> list N -> Prop :=
| dv_closed : delivers [] []
| dv_end l : delivers (Chunk [] :: l) []
| dv_chunk b bs l r : delivers l r -> delivers (Chunk (b :: bs) :: l) ((b :: bs) ++ r)
| dv_again l r : delivers l r -> delivers (Interrupted :: l) r.
(** The read before the end of the stream that fails. *)
Inductive breaks : list read_event -> Prop :=
| bk_now l : breaks (ReadFails :: l)
| bk_chunk b bs l : breaks l -> breaks (Chunk (b :: bs) :: l)
| bk_again l : breaks l -> breaks (Interrupted :: l).

(** Every text of the document consists of Unicode scalar values, as Rust
    guarantees for every [String]. *)
Definition text_ok (s : str) : Prop := Forall scalar s.
Definition opt_ok (o : option str) : Prop := forall s, o = Some s -> text_ok s.
Definition pairs_ok (m : amap) : Prop := forall k v, In (k, v) m -> text_ok k /\ text_ok v.
Inductive unicode_elem : elem -> Prop :=
| ue e : text_ok (e_name e) -> opt_ok (e_prefix e) -> opt_ok (e_xmlns e) -> pairs_ok (e_attributes e) -> pairs_ok (e_context e) ->
    (forall t, In (NText t) (e_children e) \/ In (NComment t) (e_children e) \/ In (NCData t) (e_children e) -> text_ok t) ->
    (forall c, In (NElem c) (e_children e) -> unicode_elem c) -> unicode_elem e.
Definition unicode_doc (d : document) : Prop :=
  opt_ok (declaration d) /\ Forall text_ok (doctype_defs d) /\ unicode_elem (root_element d).

(** [above q p]: [q] is a directory on the way to [p]. *)
Definition on_the_way (q p : path) : Prop := exists r, r <> [] /\ p = q ++ r.

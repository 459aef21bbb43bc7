(** What becomes of texts that are escaped and decoded again and again, as happens
    to the texts of a document that is saved and loaded. *)
From Coq Require Import List NArith Arith Bool Ascii String.
From Verif Require Import Base Escape Dom Spec SpecDom ParseTree SpecTree Parse SpecLex SpecParse SpecDoc.
Import ListNotations.

(** The number of bytes of the last character. *)
Definition width (t : str) : nat := len_utf8 (last t 97%N).

Section Set_.
(** The characters that are escaped. *)
Variable set : list char.
Definition plain (s : str) : Prop := forall c, In c s -> ~ In c set.

(** Behind every special character there are [width t - 1] bytes of other characters. *)
Definition spaced (t : str) : Prop :=
  forall a c b, t = a ++ [c] ++ b -> In c set ->
  exists x y, b = x ++ y /\ blen x = width t - 1 /\ plain x.

(** [rereads w t o]: the special characters of [t] are looked at one after the other;
    behind each one [w] - 1 bytes are passed over.  A special character there stays
    escaped; if they do not end between two characters, the result is [None], a
    panic. *)
Inductive rereads (w : nat) : str -> option str -> Prop :=
| rd_plain t : plain t -> rereads w t (Some t)
| rd_kept p c x b o : plain p -> In c set -> plain x -> blen x = w - 1 -> rereads w b o ->
    rereads w (p ++ [c] ++ x ++ b) (option_map (fun r => p ++ [c] ++ x ++ r) o)
| rd_stuck p c x s b o : plain p -> In c set -> plain x -> blen x < w - 1 -> In s set -> rereads w b o ->
    rereads w (p ++ [c] ++ x ++ [s] ++ b) (option_map (fun r => p ++ [c] ++ x ++ escape_char set s ++ r) o)
| rd_cut p c x k b : plain p -> In c set -> plain x -> ~ In k set -> blen x < w - 1 < blen x + len_utf8 k ->
    rereads w (p ++ [c] ++ x ++ [k] ++ b) None.

(** [some_escaped t r]: [r] is [t] with some special characters escaped. *)
Inductive some_escaped : str -> str -> Prop :=
| se_nil : some_escaped [] []
| se_same c t r : some_escaped t r -> some_escaped (c :: t) (c :: r)
| se_esc c t r : In c set -> some_escaped t r -> some_escaped (c :: t) (escape_char set c ++ r).
End Set_.

(** A text escaped as in the text of an element and decoded again, and a text escaped
    as an attribute value and decoded again. *)
Definition text_again (t : str) : outcome str := unescape (text_escape t).
Definition value_again (v : str) : outcome str := unescape (attribute_escape v).

(** [f] applied [n] times, as long as it returns. *)
Fixpoint times {A} (f : A -> outcome A) (n : nat) (a : A) : outcome A :=
  match n with O => Ok a | S n' => do r <- f a; times f n' r end.

(** * Documents *)

(** The document written with each of these indents in turn, and read again. *)
Fixpoint stored (inds : list str) (d : document) : outcome document :=
  match inds with
  | [] => Ok d
  | ind :: inds' => do d' <- parse_str (doc_to_string_with_indent d ind); stored inds' d'
  end.

(** Documents whose tags are found again in what is written: XML names, no DTDs, no
    empty, blank or adjacent texts, comments and CDATA sections without their end
    marks, the prefix of the root declared.  Texts and values are otherwise
    arbitrary. *)
Inductive storable : elem -> Prop :=
| sb e :
    named (qualified e) (e_prefix e) (e_name e) ->
    (forall k v, In (k, v) (e_attributes e) -> plain_name k) ->
    text_normal (e_children e) ->
    (forall t, In (NText t) (e_children e) -> t <> []) ->
    (forall c, In (NComment c) (e_children e) -> comment_wf c) ->
    (forall c, In (NCData c) (e_children e) -> cdata_wf c) ->
    (forall c, In (NElem c) (e_children e) -> storable c) ->
    storable e.
Definition storable_doc (d : document) : Prop :=
  elem_ok (root_element d) /\ doctype_defs d = [] /\
  (forall decl, declaration d = Some decl -> decl_wf decl) /\
  storable (root_element d) /\
  (forall p, e_prefix (root_element d) = Some p -> get_attr (root_element d) (lit "xmlns:" ++ p) <> None).

(** The texts and the attribute values of the element and of all elements in it. *)
Inductive has_text : elem -> str -> Prop :=
| ht_here e t : In (NText t) (e_children e) -> has_text e t
| ht_below e c t : In (NElem c) (e_children e) -> has_text c t -> has_text e t.
Inductive has_value : elem -> str -> Prop :=
| hv_here e k v : In (k, v) (e_attributes e) -> has_value e v
| hv_below e c v : In (NElem c) (e_children e) -> has_value c v -> has_value e v.

(** All texts and values have their special characters far enough apart; some text or
    value makes the decoder panic. *)
Definition all_spaced (e : elem) : Prop :=
  (forall t, has_text e t -> spaced text_special t) /\ (forall v, has_value e v -> spaced all_special v).
Definition undecodable (e : elem) : Prop :=
  (exists t, has_text e t /\ rereads text_special (width t) t None) \/
  (exists v, has_value e v /\ rereads all_special (width v) v None).

(** The same tree, with every text [t] replaced by a [t'] such that [f t t'], and
    every value [v] by a [v'] such that [g v v']. *)
Section Reworded.
Variables f g : str -> str -> Prop.
Inductive reworded : elem -> elem -> Prop :=
| rw e e' : e_name e' = e_name e -> e_prefix e' = e_prefix e ->
    (forall k, match get_attr e k with
               | None => get_attr e' k = None
               | Some v => exists v', get_attr e' k = Some v' /\ g v v'
               end) ->
    reworded_nodes (e_children e) (e_children e') -> reworded e e'
with reworded_nodes : list node -> list node -> Prop :=
| rn_nil : reworded_nodes [] []
| rn_elem e e' l l' : reworded e e' -> reworded_nodes l l' -> reworded_nodes (NElem e :: l) (NElem e' :: l')
| rn_text t t' l l' : f t t' -> reworded_nodes l l' -> reworded_nodes (NText t :: l) (NText t' :: l')
| rn_comment c l l' : reworded_nodes l l' -> reworded_nodes (NComment c :: l) (NComment c :: l')
| rn_cdata c l l' : reworded_nodes l l' -> reworded_nodes (NCData c :: l) (NCData c :: l').
End Reworded.
Scheme reworded_mut := Minimality for reworded Sort Prop
  with reworded_nodes_mut := Minimality for reworded_nodes Sort Prop.

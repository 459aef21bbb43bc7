(** Specification of the document that a text with any number of root elements
    stands for: the root is the last of them, with the contents of all. *)
From Coq Require Import List NArith Arith Bool Ascii String.
From Verif Require Import Base Escape Dom Spec SpecDom SpecLex SpecParse SpecEsc SpecDoc SpecErr SpecMean.
Import ListNotations.

(** * Contents of one root *)

(** A text at the top level of a root: nothing if it is white space as written. *)
Inductive loose_text : str -> list node -> Prop :=
| lo_white txt : ws txt -> loose_text txt []
| lo_text txt v : ~ ws txt -> unescapes txt (Some v) -> loose_text txt [NText v].
(** [content q toks ns]: the tags [toks], with the text before each, stand for the
    nodes [ns] below the root [q]. *)
Inductive content (q : elem) : list (str * str) -> list node -> Prop :=
| co_nil : content q [] []
| co_leaf txt a t n toks ns : loose_text txt a -> tag_item t [ILeaf n] -> content q toks ns ->
    content q ((txt, t) :: toks) (a ++ n :: ns)
| co_elem txt a t g is e toks ns : loose_text txt a -> items (([], t) :: g) is -> element_of_items [q] e is ->
    content q toks ns -> content q ((txt, t) :: g ++ toks) (a ++ NElem e :: ns).
(** [root_head n l q]: [q] is a root with name [n], attributes [l] and no children. *)
Definition root_head (n : str) (l : list (str * str)) (q : elem) : Prop :=
  labelled n l q /\ e_children q = [] /\ e_xmlns q = namespace_rule q [] /\
  forall p, aget p (e_context q) = nearest (lit "xmlns:" ++ p) [q].
Inductive root_reads : list (str * str) -> elem -> list node -> Prop :=
| rr_single txt t n l q : ws txt -> start_tag t n l -> self_closing t -> root_head n l q -> root_reads [(txt, t)] q []
| rr_pair txt t n l q body ns last a close : ws txt -> start_tag t n l -> ~ self_closing t -> root_head n l q ->
    content q body ns -> loose_text last a -> closing close n ->
    root_reads ((txt, t) :: body ++ [(last, close)]) q (ns ++ a).

(** * All roots *)

(** [roots_read el q ns]: the last root is [q], and [ns] are the contents of all roots. *)
Inductive roots_read : list (str * str) -> elem -> list node -> Prop :=
| rs_one el q ns : root_reads el q ns -> roots_read el q ns
| rs_more el p ns el' q ns' : root_reads el p ns -> roots_read el' q ns' -> roots_read (el ++ el') q (ns ++ ns').
(** [knit ns l]: texts that meet become one, the LATER one first, and a blank text
    with no text to join is dropped. *)
Inductive knit : list node -> list node -> Prop :=
| kn_nil : knit [] []
| kn_node n ns l : (forall s, n <> NText s) -> knit ns l -> knit (n :: ns) (n :: l)
| kn_join s t ns l : knit ns (NText t :: l) -> knit (NText s :: ns) (NText (t ++ s) :: l)
| kn_text s ns l : ~ blank s -> (forall t l', l <> NText t :: l') -> knit ns l -> knit (NText s :: ns) (NText s :: l)
| kn_blank s ns l : blank s -> (forall t l', l <> NText t :: l') -> knit ns l -> knit (NText s :: ns) l.
(** [gathered q ns r]: [r] is the element [q] with the nodes [ns], adopted by it. *)
Definition gathered (q : elem) (ns : list node) (r : elem) : Prop :=
  exists l l', knit ns l /\ Forall2 (adopted q) l l' /\ r = set_children q l'.
(** [stands_for_roots pr el d]: the tags of the prolog [pr] and of the roots [el], with
    the text before each, stand for the document [d]. *)
Definition stands_for_roots (pr el : list (str * str)) (d : document) : Prop :=
  declared pr (d_declaration d) /\ dtds_in pr (d_dtds d) /\
  exists q ns, roots_read el q ns /\ gathered q ns (d_root d).
(** [some_roots s pr el]: [s] splits into the tags of a prolog [pr] and those of one
    or more elements [el]. *)
Definition some_roots (s : str) (pr el : list (str * str)) : Prop :=
  (exists tail, splits s (pr ++ el) tail) /\ Forall (fun x => prolog_like (snd x)) pr /\
  roots_tags (map snd el) /\ starts_with_element el.

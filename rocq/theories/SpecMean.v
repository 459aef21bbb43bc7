(** Specification of the document that a text stands for: the items its tags and
    texts amount to, and the tree and the prolog made of them. *)
From Coq Require Import List NArith Arith Bool Ascii String.
From Verif Require Import Base Escape Dom Spec SpecDom SpecLex SpecParse SpecEsc SpecDoc SpecErr.
Import ListNotations.

(** * Items *)

(** A start tag with its name and its attributes, decoded and as often as they
    are written; an end tag; a text, comment or CDATA section. *)
Inductive item :=
| IOpen (name : str) (attrs : list (str * str))
| IClose
| ILeaf (n : node).

(** The text before a tag: nothing if it is white space only, before or after
    the character references are replaced. *)
Inductive text_item : str -> list item -> Prop :=
| xi_white txt : ws txt -> text_item txt []
| xi_blank txt v : ~ ws txt -> unescapes txt (Some v) -> blank v -> text_item txt []
| xi_text txt v : ~ ws txt -> unescapes txt (Some v) -> ~ blank v -> text_item txt [ILeaf (NText v)].
(** [start_tag t n l]: [t] is a start tag with name [n] and attributes [l]. *)
Definition start_tag (t n : str) (l : list (str * str)) : Prop :=
  ~ begins (lit "<!") t /\ ~ begins (lit "</") t /\ exists kvs, tag_parts t n kvs /\ Forall2 attr_reads kvs l.
Inductive tag_item : str -> list item -> Prop :=
| gi_comment c : tag_item (lit "<!--" ++ c ++ lit "-->") [ILeaf (NComment c)]
| gi_cdata c : tag_item (lit "<![CDATA[" ++ c ++ lit "]]>") [ILeaf (NCData c)]
| gi_open t n l : start_tag t n l -> ~ self_closing t -> tag_item t [IOpen n l]
| gi_single t n l : start_tag t n l -> self_closing t -> tag_item t [IOpen n l; IClose]
| gi_close t n : closing t n -> tag_item t [IClose].
Inductive items : list (str * str) -> list item -> Prop :=
| it_nil : items [] []
| it_tok txt t toks a b l : text_item txt a -> tag_item t b -> items toks l -> items ((txt, t) :: toks) (a ++ b ++ l).

(** * Elements *)

(** A name splits at its first colon into prefix and local name. *)
Inductive parts_of_name : str -> option str -> str -> Prop :=
| pn_plain n : ~ In colon n -> parts_of_name n None n
| pn_prefixed p n : ~ In colon p -> parts_of_name (p ++ lit ":" ++ n) (Some p) n.
(** [labelled n l e]: [e] has the name [n] and the attributes [l].  The last of
    several attributes with one name counts. *)
Definition labelled (n : str) (l : list (str * str)) (e : elem) : Prop :=
  parts_of_name n (e_prefix e) (e_name e) /\ NoDup (map fst (e_attributes e)) /\
  forall k v, In (k, v) (e_attributes e) <-> exists a b, l = a ++ (k, v) :: b /\ ~ In k (map fst b).
(** [element_of_items anc e is]: the items [is] stand for the element [e] below
    the elements [anc]. *)
Inductive element_of_items : list elem -> elem -> list item -> Prop :=
| ei anc e n l is : labelled n l e -> e_xmlns e = namespace_rule e anc ->
    (forall p, aget p (e_context e) = nearest (lit "xmlns:" ++ p) (e :: anc)) ->
    nodes_of_items (e :: anc) (e_children e) is -> element_of_items anc e (IOpen n l :: is ++ [IClose])
with nodes_of_items : list elem -> list node -> list item -> Prop :=
| ni_nil anc : nodes_of_items anc [] []
| ni_leaf anc n ns is : (forall e, n <> NElem e) -> nodes_of_items anc ns is -> nodes_of_items anc (n :: ns) (ILeaf n :: is)
| ni_elem anc e ns is is' : element_of_items anc e is -> nodes_of_items anc ns is' ->
    nodes_of_items anc (NElem e :: ns) (is ++ is').
Scheme element_of_items_mut := Minimality for element_of_items Sort Prop
  with nodes_of_items_mut := Minimality for nodes_of_items Sort Prop.
Combined Scheme items_ind2 from element_of_items_mut, nodes_of_items_mut.

(** * Documents *)

(** The last XML declaration of a prolog. *)
Definition declared (pr : list (str * str)) (o : option str) : Prop :=
  forall d, o = Some d <-> exists a txt b, pr = a ++ (txt, lit "<?" ++ d ++ lit "?>") :: b /\ begins (lit "xml") d /\
    Forall (fun x => ~ begins (lit "<?xml") (snd x)) b.
(** [stands_for pr el d]: the tags of the prolog [pr] and of the element [el], with the
    text before each, stand for the document [d]. *)
Definition stands_for (pr el : list (str * str)) (d : document) : Prop :=
  declared pr (d_declaration d) /\ dtds_in pr (d_dtds d) /\
  exists is, items el is /\ element_of_items [] (d_root d) is.

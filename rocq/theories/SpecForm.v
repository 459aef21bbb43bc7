(** Well-formed XML 1.0 seen tag by tag: which tags and texts XML has.  Nothing of the
    parser is used. *)
From Coq Require Import List NArith Arith Bool Ascii String.
From Verif Require Import Base Dom Spec SpecDom SpecLex SpecParse SpecXml.
Import ListNotations.

(** The well-formed documents: those of [xml_ok], whether prefixes of elements are
    declared or not. *)
Definition well_formed (x : xdocument) : Prop :=
  (forall d, xd_decl x = Some d -> xmldecl_ok d) /\ miscs_ok (xd_prolog x) /\
  List.length (doctype_decls (xd_prolog x)) <= 1 /\ spaces (xd_gap x) /\
  SpecXml.is_element (xd_root x) /\ markup_ok all_declared (xd_root x) /\
  miscs_ok (xd_epilog x) /\ doctype_decls (xd_epilog x) = [] /\ spaces (xd_end x).

(** * One tag, one text *)

(** [40] STag or [44] EmptyElemTag *)
Definition xml_start (t : str) : Prop :=
  exists nm attrs w e, t = lit "<" ++ nm ++ flat_map attribute_text attrs ++ w ++ e /\
    is_qname nm /\ attributes_ok attrs /\ spaces w /\ (e = lit ">" \/ e = lit "/>").
(** [42] ETag *)
Definition xml_end (t : str) : Prop := exists nm w, t = lit "</" ++ nm ++ w ++ lit ">" /\ is_qname nm /\ spaces w.
(** ... [15] Comment, [18] CDSect *)
Inductive xml_tag (t : str) : Prop :=
| xt_start : xml_start t -> xml_tag t
| xt_end : xml_end t -> xml_tag t
| xt_comment c : t = comment_text c -> comment_ok c -> xml_tag t
| xt_cdata c : t = lit "<![CDATA[" ++ c ++ lit "]]>" -> cdata_ok c -> xml_tag t.
(** [14] CharData, [67] Reference *)
Definition xml_chars (txt : str) : Prop := exists l, txt = pieces_text l /\ chardata_ok l.

(** * The tags of a text, with the text before each *)

(** Before the root there is white space. *)
Definition xml_tags (el : list (str * str)) : Prop :=
  exists gap t rest, el = (gap, t) :: rest /\ spaces gap /\ xml_tag t /\
    Forall (fun x => xml_chars (fst x) /\ xml_tag (snd x)) rest.
(** The tags of a prolog. *)
Definition prolog_tags (o : option xmldecl) (l : list (str * misc)) : list (str * str) :=
  (match o with None => [] | Some d => [([], lit "<?" ++ decl_inside d ++ lit "?>")] end) ++
  map (fun p => (fst p, misc_text (snd p))) l.
Definition prolog_ok (o : option xmldecl) (l : list (str * misc)) : Prop :=
  (forall d, o = Some d -> xmldecl_ok d) /\ miscs_ok l /\ List.length (doctype_decls l) <= 1.

(** The tags of an element, and after them those of another one or more. *)
Definition another_root (l : list str) : Prop := exists l1 l2, l = l1 ++ l2 /\ element_tags l1 /\ roots_tags l2.

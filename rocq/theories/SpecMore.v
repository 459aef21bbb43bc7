(** Vocabulary for statements about documents that were parsed. *)
From Coq Require Import List NArith Arith Bool Ascii String.
From Verif Require Import Base Escape Dom Spec SpecDom SpecLex SpecParse SpecDoc.
Import ListNotations.

(** Names are XML names, values and texts are read back as they were
    ([survives]). *)
Inductive printable : elem -> Prop :=
| pt e :
    named (qualified e) (e_prefix e) (e_name e) ->
    (forall k v, In (k, v) (e_attributes e) -> plain_name k /\ survives all_special v) ->
    (forall t, In (NText t) (e_children e) -> survives text_special t) ->
    (forall c, In (NElem c) (e_children e) -> printable c) ->
    printable e.

(** The condition on names alone. *)
Inductive well_named : elem -> Prop :=
| wn e : named (qualified e) (e_prefix e) (e_name e) ->
    (forall k v, In (k, v) (e_attributes e) -> plain_name k) ->
    (forall c, In (NElem c) (e_children e) -> well_named c) -> well_named e.

(** Every character of every text of the element (or document) satisfies [P]. *)
Section Made.
Variable P : char -> Prop.
Definition chars (s : str) : Prop := Forall P s.
Definition chars_opt (o : option str) : Prop := forall s, o = Some s -> chars s.
Definition chars_map (m : amap) : Prop := forall k v, In (k, v) m -> chars k /\ chars v.
Inductive chars_elem : elem -> Prop :=
| ce e : chars (e_name e) -> chars_opt (e_prefix e) -> chars_opt (e_xmlns e) -> chars_map (e_attributes e) -> chars_map (e_context e) ->
    (forall t, In (NText t) (e_children e) \/ In (NComment t) (e_children e) \/ In (NCData t) (e_children e) -> chars t) ->
    (forall c, In (NElem c) (e_children e) -> chars_elem c) -> chars_elem e.
Definition chars_doc (d : document) : Prop :=
  chars_opt (declaration d) /\ Forall chars (doctype_defs d) /\ chars_elem (root_element d).
End Made.

(** * Sources that say the same *)

(** Every attribute has the same value on both sides, or is absent on both. *)
Definition same_attrs (l l' : list cattr) : Prop :=
  forall k, option_map unescape (last_value k l) = option_map unescape (last_value k l').
Definition same_text (t t' : str) : Prop := exists l, text_means t l /\ text_means t' l.
Inductive item_syn : citem -> citem -> Prop :=
| sy_empty nm l l' w w' : same_attrs l l' -> item_syn (CEmpty nm l w) (CEmpty nm l' w')
| sy_elem nm l l' w w' b b' v v' : same_attrs l l' -> body_syn b b' ->
    item_syn (CElem nm l w b v) (CElem nm l' w' b' v')
| sy_close nm l l' w w' t v' : same_attrs l l' -> text_means t [] ->
    item_syn (CEmpty nm l w) (CElem nm l' w' (BEnd t) v')
| sy_unclose nm l l' w w' t v : same_attrs l l' -> text_means t [] ->
    item_syn (CElem nm l w (BEnd t) v) (CEmpty nm l' w')
| sy_comment c : item_syn (CComment c) (CComment c)
| sy_cdata c : item_syn (CCData c) (CCData c)
with body_syn : cbody -> cbody -> Prop :=
| sy_end t t' : same_text t t' -> body_syn (BEnd t) (BEnd t')
| sy_item t t' i i' b b' : same_text t t' -> item_syn i i' -> body_syn b b' ->
    body_syn (BItem t i b) (BItem t' i' b').
Definition source_syn (x y : source) : Prop :=
  option_map snd (x_decl x) = option_map snd (x_decl y) /\ doctypes (x_prolog x) = doctypes (x_prolog y) /\
  item_syn (x_root x) (x_root y).

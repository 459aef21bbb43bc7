(** Putting one text inside another. *)
From Coq Require Import List NArith Arith Bool Ascii String.
From Verif Require Import Base Dom Spec SpecDom SpecLex SpecParse SpecDoc SpecLocal.
Import ListNotations.

(** [cut u v pr a b]: the text [u ++ v] has a prolog [pr] and one element, and [u]
    ends with a tag of that element other than its last: [a] are the tags of the
    element in [u], [b] those in [v], with the text before each. *)
Definition cut (u v : str) (pr a b : list (str * str)) : Prop :=
  one_root (u ++ v) pr (a ++ b) /\ lexed u (pr ++ a) [] /\ a <> [] /\ b <> [].
(** [alone s el]: the text [s] is one element and nothing around it. *)
Definition alone (s : str) (el : list (str * str)) : Prop :=
  one_root s [] el /\ lexed s el [] /\ begins (lit "<") s.

(** The element at [path] and those around it, innermost first. *)
Fixpoint lineage (e : elem) (path : list nat) (around : list elem) : list elem :=
  match path with
  | [] => e :: around
  | i :: path' => match nth_error (children e) i with Some (NElem c) => lineage c path' (e :: around) | _ => e :: around end
  end.

(** [moved anc e e']: [e'] is [e] with the namespaces it has below the elements
    [anc]. *)
Inductive moved : list elem -> elem -> elem -> Prop :=
| mv anc e e' : e_name e' = e_name e -> e_prefix e' = e_prefix e -> e_attributes e' = e_attributes e ->
    e_xmlns e' = namespace_rule e' anc ->
    (forall p, aget p (e_context e') = nearest (lit "xmlns:" ++ p) (e' :: anc)) ->
    moved_nodes (e' :: anc) (children e) (children e') -> moved anc e e'
with moved_nodes : list elem -> list node -> list node -> Prop :=
| mn_nil anc : moved_nodes anc [] []
| mn_leaf anc n l l' : (forall e, n <> NElem e) -> moved_nodes anc l l' -> moved_nodes anc (n :: l) (n :: l')
| mn_elem anc e e' l l' : moved anc e e' -> moved_nodes anc l l' -> moved_nodes anc (NElem e :: l) (NElem e' :: l').
Scheme moved_mut := Minimality for moved Sort Prop
  with moved_nodes_mut := Minimality for moved_nodes Sort Prop.
Combined Scheme moved_ind2 from moved_mut, moved_nodes_mut.

(** No namespace is declared on an element. *)
Definition declares_nothing (e : elem) : Prop :=
  forall k v, In (k, v) (e_attributes e) -> ~ begins (lit "xmlns") k.

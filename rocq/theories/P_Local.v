(** Property C81: a change at one place of a tree changes the text at one place. *)
From Coq Require Import List NArith Arith Bool Lia Ascii String.
From Verif Require Import Base Dom Spec SpecDom SerFacts SpecLocal LocalFacts.
Import ListNotations.

(** Replacing a node, at any depth, by another one of the same sort replaces the
    part of the text that stands for it: a leaf stands for its own text, an element
    for its text without white space in mixed content and for its lines, indented by
    its depth, elsewhere. *)
Theorem C81_replace : forall e path c a n b ind, good_indent ind ->
  element_at e path = Some c -> children c = a ++ n :: b ->
  exists before after, forall n', same_sort n n' -> node_ok n' ->
    exists s, part ind e path n' s /\
      elem_to_string_with_indent (put_element path (other_children c (a ++ n' :: b)) e) ind = before ++ s ++ after.
Proof. exact replace_place. Qed.
(** Adding or removing a node that is not a text, where children stand on lines of
    their own, adds or removes its line. *)
Theorem C81_line : forall e path c a b ind, good_indent ind ->
  element_at e path = Some c -> children c = a ++ b -> ~ mixed e path ->
  2 <= List.length (a ++ b) \/ (exists d, In (NElem d) (a ++ b)) ->
  exists before after, elem_to_string_with_indent e ind = before ++ after /\
    forall n, (forall t, n <> NText t) -> node_ok n -> exists s, line ind e path n s /\
      elem_to_string_with_indent (put_element path (other_children c (a ++ n :: b)) e) ind = before ++ s ++ after.
Proof. exact add_line. Qed.
(** Adding or removing any node in mixed content adds or removes its part. *)
Theorem C81_mixed : forall e path c a b ind, good_indent ind ->
  element_at e path = Some c -> children c = a ++ b -> mixed e path -> a ++ b <> [] ->
  exists before after, elem_to_string_with_indent e ind = before ++ after /\
    forall n, node_ok n -> exists s, part ind e path n s /\
      elem_to_string_with_indent (put_element path (other_children c (a ++ n :: b)) e) ind = before ++ s ++ after.
Proof. exact add_inline. Qed.
(** Changing the attributes of an element, at any depth, changes the attributes in its
    start tag. *)
Theorem C81_attributes : forall e path c ind, good_indent ind -> element_at e path = Some c ->
  exists before after, forall m, map_ok m -> exists l, attrs_in_order m l /\
    elem_to_string_with_indent (put_element path (other_attributes c m) e) ind =
    before ++ lit "<" ++ qualified c ++ flat_map attr_text l ++ after.
Proof. exact attributes_place. Qed.
(** The same for documents: the root stands at one place. *)
Theorem C81_document : forall decl dtds ind, exists before after, forall e,
  doc_to_string_with_indent (mkDoc decl dtds e) ind = before ++ elem_to_string_with_indent e ind ++ after.
Proof. exact root_place. Qed.
(** Putting back what was there changes nothing. *)
Theorem C81_same : forall path e c, element_at e path = Some c ->
  put_element path c e = e /\ other_children c (children c) = c /\ other_attributes c (attributes c) = c.
Proof. exact put_same. Qed.
(** What is written for a node is determined. *)
Theorem C81_part_function : forall ind e path n s t, part ind e path n s -> part ind e path n t -> s = t.
Proof. exact part_fun. Qed.

(** Putting a text in place of a comment changes the layout all around. *)
Theorem C81_sort_refuted : exists e e', children e = [NElem e'; NComment (lit "c")] /\
  elem_to_string_with_indent e (lit " ") = lit "<a>" ++ [10%N] ++ lit " <b/>" ++ [10%N] ++ lit " <!--c-->" ++ [10%N] ++ lit "</a>" /\
  elem_to_string_with_indent (other_children e [NElem e'; NText (lit "c")]) (lit " ") = lit "<a><b/>c</a>".
Proof.
  exists (mkElem (lit "a") [NElem (mkElem (lit "b") [] [] None None []); NComment (lit "c")] [] None None []), (mkElem (lit "b") [] [] None None []).
  vm_compute. easy.
Qed.
(** A comment as only child is written on the line of its parent. *)
Theorem C81_only_child_refuted : exists e e', children e = [NComment (lit "c")] /\
  elem_to_string_with_indent e (lit " ") = lit "<a><!--c--></a>" /\
  elem_to_string_with_indent (other_children e [NComment (lit "c"); NElem e']) (lit " ") =
  lit "<a>" ++ [10%N] ++ lit " <!--c-->" ++ [10%N] ++ lit " <b/>" ++ [10%N] ++ lit "</a>".
Proof.
  exists (mkElem (lit "a") [NComment (lit "c")] [] None None []), (mkElem (lit "b") [] [] None None []). vm_compute. easy.
Qed.
Definition leaf_elem (nm : str) : elem := mkElem nm [] [] None None [].
Example C81_example :
  let e := mkElem (lit "a") [NElem (leaf_elem (lit "b")); NElem (mkElem (lit "c") [NComment (lit "x"); NElem (leaf_elem (lit "d"))] [] None None [])] [] None None [] in
  element_at e [1] = Some (mkElem (lit "c") [NComment (lit "x"); NElem (leaf_elem (lit "d"))] [] None None []) /\
  elem_to_string_with_indent e (lit " ") =
    lit "<a>" ++ [10%N] ++ lit " <b/>" ++ [10%N] ++ lit " <c>" ++ [10%N] ++ lit "  <!--x-->" ++ [10%N] ++ lit "  <d/>" ++ [10%N] ++ lit " </c>" ++ [10%N] ++ lit "</a>" /\
  elem_to_string_with_indent (put_element [1] (other_children (mkElem (lit "c") [NComment (lit "x"); NElem (leaf_elem (lit "d"))] [] None None [])
      ([NComment (lit "x")] ++ NElem (leaf_elem (lit "n")) :: [NElem (leaf_elem (lit "d"))])) e) (lit " ") =
    lit "<a>" ++ [10%N] ++ lit " <b/>" ++ [10%N] ++ lit " <c>" ++ [10%N] ++ lit "  <!--x-->" ++ [10%N] ++ lit "  <n/>" ++ [10%N] ++ lit "  <d/>" ++ [10%N] ++ lit " </c>" ++ [10%N] ++ lit "</a>".
Proof. vm_compute. easy. Qed.
Example C81_example_lines : 
  let e := mkElem (lit "a") [NElem (leaf_elem (lit "b"))] [] None None [] in
  ~ mixed e [] /\ exists d, In (NElem d) ([] ++ children e).
Proof.
  split; [|exists (leaf_elem (lit "b")); now left]. intros (up & down & d & t & E & H & Ht).
  symmetry in E. apply app_eq_nil in E as [-> ->]. injection H as <-. now destruct Ht as [Ht|[]].
Qed.
Example C81_example_mixed : 
  mixed (mkElem (lit "a") [NText (lit "t"); NElem (mkElem (lit "b") [NComment (lit "x")] [] None None [])] [] None None []) [1].
Proof. exists [], [1], (mkElem (lit "a") [NText (lit "t"); NElem (mkElem (lit "b") [NComment (lit "x")] [] None None [])] [] None None []), (lit "t"). repeat split. now left. Qed.
Print Assumptions C81_replace.
Print Assumptions C81_line.
Print Assumptions C81_mixed.
Print Assumptions C81_attributes.
Print Assumptions C81_document.
Print Assumptions C81_same.
Print Assumptions C81_part_function.
Print Assumptions C81_sort_refuted.
Print Assumptions C81_only_child_refuted.

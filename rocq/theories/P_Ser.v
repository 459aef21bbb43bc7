(** Properties C24-C30: equality, clone, hash, order and serialization. *)
From Coq Require Import List NArith Arith Bool Ascii String Lia Permutation.
From Verif Require Import Base Escape Dom BaseFacts Spec SpecDom SpecApi DomFacts ApiFacts SerFacts.
Import ListNotations.

(** [elem_ok] says that the attribute and prefix tables have no duplicate keys,
    which is true of every Rust HashMap. *)
Theorem C24_built_ok : forall e, built e -> elem_ok e.
Proof. intros e H. apply elem_valid_ok. now apply built_valid. Qed.

Definition a1 : amap := [(lit "k", lit "v"); (lit "xmlns", lit "u"); (lit "b", lit "<")].
Definition a2 : amap := [(lit "b", lit "<"); (lit "k", lit "v"); (lit "xmlns", lit "u")].
Definition sample1 : elem :=
  mkElem (lit "r") [NElem (mkElem (lit "c") [NText (lit "x<y"); NElem (mkElem (lit "d") [] [] None None [])] a1 None None []);
                    NComment (lit "n")] a1 (Some (lit "u")) None [].
Definition sample2 : elem :=
  mkElem (lit "r") [NElem (mkElem (lit "c") [NText (lit "x<y"); NElem (mkElem (lit "d") [] [] None None [(lit "q", lit "w")])] a2 None None []);
                    NComment (lit "n")] a2 (Some (lit "u")) None [].
Lemma a1_ok : map_ok a1.
Proof. repeat constructor; cbn; intuition discriminate. Qed.
Lemma a2_ok : map_ok a2.
Proof. repeat constructor; cbn; intuition discriminate. Qed.
Lemma sample1_ok : elem_ok sample1.
Proof.
  constructor; [exact a1_ok|constructor|]. intros c [E|[E|[]]]; [|discriminate]. injection E as <-.
  constructor; [exact a1_ok|constructor|]. intros c [E|[E|[]]]; [discriminate|]. injection E as <-.
  constructor; [constructor..|]. now intros c [].
Qed.
Lemma sample2_ok : elem_ok sample2.
Proof.
  constructor; [exact a2_ok|constructor|]. intros c [E|[E|[]]]; [|discriminate]. injection E as <-.
  constructor; [exact a2_ok|constructor|]. intros c [E|[E|[]]]; [discriminate|]. injection E as <-.
  constructor; [constructor|repeat constructor; cbn; tauto|]. now intros c [].
Qed.

(** ** C24: == is an equivalence *)

Theorem C24_element_meaning : forall e1 e2, elem_ok e1 -> elem_ok e2 ->
  (elem_eqb e1 e2 = true <-> elem_same e1 e2).
Proof. exact elem_eqb_same. Qed.
Theorem C24_node_meaning : forall a b, node_ok a -> node_ok b ->
  (node_eqb a b = true <-> a = b \/ exists x y, a = NElem x /\ b = NElem y /\ elem_same x y).
Proof. exact node_eqb_spec. Qed.
Theorem C24_element_refl : forall e, elem_ok e -> elem_eqb e e = true.
Proof. exact elem_eqb_refl. Qed.
Theorem C24_element_sym : forall e1 e2, elem_ok e1 -> elem_ok e2 -> elem_eqb e1 e2 = true -> elem_eqb e2 e1 = true.
Proof. exact elem_eqb_sym. Qed.
Theorem C24_element_trans : forall e1 e2 e3, elem_ok e1 -> elem_ok e2 -> elem_ok e3 ->
  elem_eqb e1 e2 = true -> elem_eqb e2 e3 = true -> elem_eqb e1 e3 = true.
Proof. exact elem_eqb_trans. Qed.
Theorem C24_node_refl : forall n, node_ok n -> node_eqb n n = true.
Proof. exact node_eqb_refl. Qed.
Theorem C24_node_sym : forall a b, node_ok a -> node_ok b -> node_eqb a b = true -> node_eqb b a = true.
Proof. exact node_eqb_sym. Qed.
Theorem C24_node_trans : forall a b c, node_ok a -> node_ok b -> node_ok c ->
  node_eqb a b = true -> node_eqb b c = true -> node_eqb a c = true.
Proof. exact node_eqb_trans. Qed.
Theorem C24_document_meaning : forall a b, elem_ok (root_element a) -> elem_ok (root_element b) ->
  (doc_eqb a b = true <-> declaration a = declaration b /\ doctype_defs a = doctype_defs b /\
                          elem_same (root_element a) (root_element b)).
Proof. exact doc_eqb_same. Qed.
Theorem C24_document_refl : forall d, elem_ok (root_element d) -> doc_eqb d d = true.
Proof. exact doc_eqb_refl. Qed.
Theorem C24_document_sym : forall a b, elem_ok (root_element a) -> elem_ok (root_element b) ->
  doc_eqb a b = true -> doc_eqb b a = true.
Proof. exact doc_eqb_sym. Qed.
Theorem C24_document_trans : forall a b c,
  elem_ok (root_element a) -> elem_ok (root_element b) -> elem_ok (root_element c) ->
  doc_eqb a b = true -> doc_eqb b c = true -> doc_eqb a c = true.
Proof. exact doc_eqb_trans. Qed.
Example C24_example : elem_ok sample1 /\ elem_ok sample2 /\ elem_eqb sample1 sample2 = true /\ sample1 <> sample2.
Proof. split; [exact sample1_ok|]. split; [exact sample2_ok|]. split; [reflexivity|discriminate]. Qed.

(** ** C25: clone *)

Theorem C25_clone_element : forall e, elem_ok e ->
  elem_eqb (clone_elem e) e = true /\ elem_text (clone_elem e) = elem_text e /\
  (forall k, get_attr (clone_elem e) k = get_attr e k) /\
  namespace (clone_elem e) = namespace e /\ namespace_prefix (clone_elem e) = namespace_prefix e /\
  get_namespace_context (clone_elem e) = get_namespace_context e /\
  (forall ind, elem_to_string_with_indent (clone_elem e) ind = elem_to_string_with_indent e ind).
Proof. exact clone_spec. Qed.
Theorem C25_clone_identical : forall e, clone_elem e = e.
Proof. exact clone_id. Qed.
Theorem C25_clone_node : forall n, node_ok n -> node_eqb (clone_node n) n = true /\ clone_node n = n.
Proof. exact clone_node_spec. Qed.

(** ** C26: equal documents serialize identically *)

Theorem C26_documents : forall a b ind, elem_ok (root_element a) -> elem_ok (root_element b) ->
  doc_eqb a b = true -> doc_to_string_with_indent a ind = doc_to_string_with_indent b ind.
Proof. exact eqb_serialization. Qed.
Theorem C26_elements : forall a b ind, elem_ok a -> elem_ok b ->
  elem_eqb a b = true -> elem_to_string_with_indent a ind = elem_to_string_with_indent b ind.
Proof. exact elem_eqb_serialization. Qed.
(** Hash order: permuting the attribute tables anywhere in a tree gives an
    [elem_same] tree, hence the same text. *)
Theorem C26_iteration_order : forall a b ind, elem_same a b ->
  elem_to_string_with_indent a ind = elem_to_string_with_indent b ind.
Proof. exact same_serialization_with_indent. Qed.
Example C26_example : elem_same sample1 sample2 /\ e_attributes sample1 <> e_attributes sample2 /\
  elem_to_string_with_indent sample2 [9%N] =
  lit "<r xmlns=""u"" b=""&lt;"" k=""v"">" ++ [10%N; 9%N] ++
  lit "<c xmlns=""u"" b=""&lt;"" k=""v"">x&lt;y<d/></c>" ++ [10%N; 9%N] ++ lit "<!--n-->" ++ [10%N] ++ lit "</r>".
Proof.
  split; [apply elem_eqb_same; [exact sample1_ok|exact sample2_ok|reflexivity]|]. split; [discriminate|].
  vm_compute. reflexivity.
Qed.

(** ** C27: hash agrees with == *)

Theorem C27_elements : forall a b, elem_eqb a b = true -> elem_hash_input a = elem_hash_input b.
Proof. exact elem_hash_same. Qed.
Theorem C27_nodes : forall a b, node_eqb a b = true -> node_hash_input a = node_hash_input b.
Proof. exact node_hash_same. Qed.
(** The ordering does not agree with ==. *)
Theorem C27_partial_cmp_refuted : exists a b, elem_ok a /\ elem_ok b /\
  elem_partial_cmp a b = Some Eq /\ elem_eqb a b = false.
Proof.
  exists sample1, (mkElem (lit "r") [] [] None None []). split; [exact sample1_ok|].
  split; [constructor; [constructor..|now intros c []]|]. split; reflexivity.
Qed.

(** ** C28: attribute order *)

Theorem C28_total_order : forall x y z,
  (attribute_order x y = Eq <-> x = y) /\
  attribute_order y x = CompOpp (attribute_order x y) /\
  (attribute_order x y = Lt -> attribute_order y z = Lt -> attribute_order x z = Lt).
Proof.
  exact (fun x y z => conj (attribute_order_eq x y) (conj (attribute_order_antisym x y) (attribute_order_trans x y z))).
Qed.
Theorem C28_order_meaning : forall x y, fst x <> fst y -> (attribute_order x y = Lt <-> attr_before x y).
Proof. exact attribute_order_lt. Qed.
Theorem C28_written_in_order : forall m, map_ok m ->
  exists l, attrs_in_order m l /\ attrs_to_string m = flat_map attr_text l.
Proof. exact sort_spec. Qed.
Theorem C28_order_unique : forall m l1 l2, attrs_in_order m l1 -> attrs_in_order m l2 -> l1 = l2.
Proof. exact attrs_in_order_fun. Qed.
Theorem C28_string_order : forall a b c,
  ~ str_lt a a /\ (str_lt a b \/ a = b \/ str_lt b a) /\ (str_lt a b -> str_lt b c -> str_lt a c).
Proof. exact (fun a b c => conj (str_lt_irrefl a) (conj (str_lt_total a b) (str_lt_trans a b c))). Qed.
Example C28_example : map_ok a1 /\ attrs_in_order a1 [(lit "xmlns", lit "u"); (lit "b", lit "<"); (lit "k", lit "v")].
Proof. split; [exact a1_ok|]. exact (sort_in_order a1 a1_ok). Qed.

(** ** C29: indentation *)

Theorem C29_bad_indent : forall d i, ~ good_indent i ->
  doc_to_string_with_indent d i = doc_to_string_with_indent d (lit "  ").
Proof. exact doc_bad_indent. Qed.
Theorem C29_bad_indent_element : forall e i, ~ good_indent i ->
  elem_to_string_with_indent e i = elem_to_string_with_indent e (lit "  ").
Proof. exact elem_bad_indent. Qed.
Theorem C29_default_indent : forall d, doc_to_string d = doc_to_string_with_indent d (lit "  ").
Proof. reflexivity. Qed.
Theorem C29_ends_with_newline : forall d i, exists s, doc_to_string_with_indent d i = s ++ [10%N].
Proof. exact doc_ends_newline. Qed.
(** With a good indent the text is exactly the layout described in SpecDom.v. *)
Theorem C29_layout : forall d ind, elem_ok (root_element d) -> good_indent ind -> exists s,
  layout ind [] (root_element d) s /\
  doc_to_string_with_indent d ind =
  (match declaration d with None => [] | Some decl => lit "<?" ++ decl ++ lit "?>" ++ [10%N] end) ++
  flat_map (fun dtd => dtd ++ [10%N]) (doctype_defs d) ++ s ++ [10%N].
Proof. exact doc_layout. Qed.
Theorem C29_layout_element : forall e ind, elem_ok e -> good_indent ind ->
  layout ind [] e (elem_to_string_with_indent e ind).
Proof. exact layout_with_indent. Qed.
Theorem C29_layout_function : forall ind pre e s1, layout ind pre e s1 -> forall s2, layout ind pre e s2 -> s1 = s2.
Proof. exact layout_fun. Qed.
Example C29_example : good_indent [9%N] /\ good_indent (lit "    ") /\ good_indent [] /\ ~ good_indent [9%N; 9%N] /\
  ~ good_indent (lit "x").
Proof.
  repeat split; try (apply validate_indent_spec; reflexivity); apply validate_indent_false; reflexivity.
Qed.

(** ** C30: mixed content *)

Theorem C30_mixed_content : forall e t, elem_ok e -> In (NText t) (children e) -> exists s,
  inline_elem e s /\ forall ind, elem_to_string_with_indent e ind = s.
Proof. exact mixed_content_with_indent. Qed.
(** Also when it stands deep in a document, on a line starting with [pre], and
    inside other mixed content. *)
Theorem C30_mixed_content_nested : forall e t, elem_ok e -> In (NText t) (children e) -> exists s,
  inline_elem e s /\
  forall pre ind, elem_to_string pre ind false e = pre ++ s /\ elem_to_string pre ind true e = s.
Proof. exact mixed_content. Qed.
Theorem C30_inline_function : forall e s1, inline_elem e s1 -> forall s2, inline_elem e s2 -> s1 = s2.
Proof. exact inline_elem_fun. Qed.
Example C30_example :
  let e := mkElem (lit "p") [NText (lit "a"); NElem (mkElem (lit "b") [NElem (mkElem (lit "c") [] [] None None [])] [] None None []);
                             NComment (lit "n")] [] None None [] in
  forall ind, elem_to_string_with_indent e ind = lit "<p>a<b><c/></b><!--n--></p>".
Proof. intros e ind. unfold elem_to_string_with_indent. destruct (validate_indent ind); reflexivity. Qed.

Print Assumptions C24_built_ok.
Print Assumptions C24_element_meaning.
Print Assumptions C24_node_meaning.
Print Assumptions C24_element_refl.
Print Assumptions C24_element_sym.
Print Assumptions C24_element_trans.
Print Assumptions C24_node_refl.
Print Assumptions C24_node_sym.
Print Assumptions C24_node_trans.
Print Assumptions C24_document_meaning.
Print Assumptions C24_document_refl.
Print Assumptions C24_document_sym.
Print Assumptions C24_document_trans.
Print Assumptions C25_clone_element.
Print Assumptions C25_clone_identical.
Print Assumptions C25_clone_node.
Print Assumptions C26_documents.
Print Assumptions C26_elements.
Print Assumptions C26_iteration_order.
Print Assumptions C27_elements.
Print Assumptions C27_nodes.
Print Assumptions C27_partial_cmp_refuted.
Print Assumptions C28_total_order.
Print Assumptions C28_order_meaning.
Print Assumptions C28_written_in_order.
Print Assumptions C28_order_unique.
Print Assumptions C28_string_order.
Print Assumptions C29_bad_indent.
Print Assumptions C29_bad_indent_element.
Print Assumptions C29_default_indent.
Print Assumptions C29_ends_with_newline.
Print Assumptions C29_layout.
Print Assumptions C29_layout_element.
Print Assumptions C29_layout_function.
Print Assumptions C30_mixed_content.
Print Assumptions C30_mixed_content_nested.
Print Assumptions C30_inline_function.

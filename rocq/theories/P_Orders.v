(** Property C73: nothing depends on the iteration order of hash maps. *)
From Coq Require Import List NArith Arith Bool Ascii String Permutation.
From Verif Require Import Base Escape Dom Spec SpecDom ParseTree Parse Orders SpecOrders OrdersFacts.
Import ListNotations.

(** Whatever a program does with the API, the orders in which the maps happen to
    be iterated make no difference: both runs succeed with alike trees, or fail
    with the same error, or panic. *)
Theorem C73_programs : forall s o o', fair o -> fair o' -> alike_outcome alike (run o s) (run o' s).
Proof. exact run_alike. Qed.
(** Parsing: the same documents, the same errors, the same panics. *)
Theorem C73_parse : forall o o' s, fair o -> fair o' -> alike_outcome alike_doc (parse_str_o o s) (parse_str_o o' s).
Proof. exact parse_alike. Qed.
(** Every call on its own, from any alike trees. *)
Theorem C73_new : forall o o' nm text a a' xmlns prefix l l', fair o -> fair o' ->
  alike_option same_map a a' -> alike_option (Forall2 alike_node) l l' ->
  alike_outcome alike (element_new_o o nm text a xmlns prefix l) (element_new_o o' nm text a' xmlns prefix l').
Proof. exact element_new_alike. Qed.
Theorem C73_append : forall o o' e e' n n', fair o -> fair o' -> alike e e' -> alike_node n n' ->
  alike_outcome alike (append_o o e n) (append_o o' e' n').
Proof. exact append_alike. Qed.
Theorem C73_append_all : forall o o' e e' l l', fair o -> fair o' -> alike e e' -> Forall2 alike_node l l' ->
  alike_outcome alike (append_all_o o e l) (append_all_o o' e' l').
Proof. exact append_all_alike. Qed.
Theorem C73_insert : forall o o' e e' i n n', fair o -> fair o' -> alike e e' -> alike_node n n' ->
  alike_outcome alike (insert_o o e i n) (insert_o o' e' i n').
Proof. exact insert_alike. Qed.
Theorem C73_set_text : forall o o' e e' t, fair o -> fair o' -> alike e e' ->
  alike_outcome alike (set_text_o o e t) (set_text_o o' e' t).
Proof. exact set_text_alike. Qed.

(** Alike trees cannot be told apart: what they say of themselves, ... *)
Theorem C73_seen : forall e e', alike e e' ->
  name e = name e' /\ namespace e = namespace e' /\ namespace_prefix e = namespace_prefix e' /\
  default_namespace e = default_namespace e' /\ tag_name e = tag_name e' /\
  (forall k, get_attr e k = get_attr e' k) /\ Permutation (attributes e) (attributes e') /\
  elem_text e = elem_text e' /\ elem_hash_input e = elem_hash_input e' /\
  Forall2 alike_node (children e) (children e') /\ Forall2 alike (child_elements e) (child_elements e') /\
  Forall2 alike_node (children_recursive e) (children_recursive e').
Proof. exact seen_alike. Qed.
(** ... how they are written, ... *)
Theorem C73_written : forall o o' e e' i, fair o -> fair o' -> alike e e' ->
  elem_to_string_with_indent_o o e i = elem_to_string_with_indent_o o' e' i.
Proof. exact to_string_alike. Qed.
Theorem C73_document_written : forall o o' d d' i, fair o -> fair o' -> alike_doc d d' ->
  doc_to_string_with_indent_o o d i = doc_to_string_with_indent_o o' d' i.
Proof. exact doc_to_string_alike. Qed.
(** ... how they compare, ... *)
Theorem C73_compared : forall o o' a a' b b', fair o -> fair o' -> alike a a' -> alike b b' ->
  elem_eqb_o o a b = elem_eqb_o o' a' b'.
Proof. exact eqb_alike. Qed.
(** ... the prefixes they declare, ... *)
Theorem C73_prefixes : forall o o' e e', fair o -> fair o' -> alike e e' ->
  alike_option same_map (namespace_prefixes_o o e) (namespace_prefixes_o o' e').
Proof. exact prefixes_alike. Qed.
(** ... what is found in them and how much is removed. *)
Theorem C73_found : forall e e' p, alike e e' -> respects alike_node eq p ->
  Forall2 alike_node (search e p) (search e' p) /\
  match remove_by e p, remove_by e' p with Ok (r, k), Ok (r', k') => alike r r' /\ k = k' | _, _ => False end /\
  match remove_all p e, remove_all p e' with Ok (r, k), Ok (r', k') => alike r r' /\ k = k' | _, _ => False end.
Proof. exact found_alike. Qed.
(** Being alike is an equivalence relation on trees whose maps have each key once. *)
Theorem C73_equivalence : (forall e, elem_ok e <-> alike e e) /\ (forall a b, alike a b -> alike b a) /\
  (forall a b c, alike a b -> alike b c -> alike a c).
Proof. exact alike_equivalence. Qed.

(** The functions of the other files are these for one particular order. *)
Theorem C73_model : (forall nm t a x p l, element_new_o list_order nm t a x p l = element_new nm t a x p l) /\
  (forall e n, append_o list_order e n = append e n) /\
  (forall e l, append_all_o list_order e l = append_all e l) /\
  (forall e i n, insert_o list_order e i n = insert e i n) /\
  (forall s, parse_str_o list_order s = parse_str s).
Proof.
  exact (conj element_new_list (conj append_list (conj append_all_list (conj insert_list parse_list)))).
Qed.
Theorem C73_model_order : fair list_order.
Proof. exact list_order_fair. Qed.
(** So the document parsed in the crate, with any order, is alike the one of the
    other properties. *)
Theorem C73_parse_model : forall o s, fair o -> alike_outcome alike_doc (parse_str_o o s) (parse_str s).
Proof. exact parse_any_order. Qed.

(** The one thing that is left to chance: which of several invalid attribute names
    an error message shows.  It can be any of them, and nothing else. *)
Theorem C73_reported_name : forall nm text m xmlns prefix l, valid_name nm ->
  forall k, (exists o, fair o /\ element_new_o o nm text (Some m) xmlns prefix l = Err (InvalidAttributeName k)) <->
            (exists v, In (k, v) m /\ ~ valid_name k).
Proof. exact reported_name. Qed.
(** In particular the message of a rejected text is not a function of the text. *)
Definition two_bad_names : str := lit "<a :x='1' :y='2'/>".
Theorem C73_message_refuted : exists o o', fair o /\ fair o' /\
  parse_str_o o two_bad_names = Err (InvalidAttributeName (lit ":x")) /\
  parse_str_o o' two_bad_names = Err (InvalidAttributeName (lit ":y")).
Proof.
  exists (key_first (lit ":x")), (key_first (lit ":y")).
  split; [apply key_first_fair|]. split; [apply key_first_fair|]. split; vm_compute; reflexivity.
Qed.

(** The orders do make a difference inside: two runs whose tables differ. *)
Example C73_example :
  let s := lit "<r xmlns:p='1' xmlns:q='2' b='3'><q:c/><c a='1' b='2'/></r>" in
  let o := key_first (lit "b") in let o' := key_first (lit "xmlns:q") in
  fair o /\ fair o' /\
  match parse_str_o o s, parse_str_o o' s with
  | Ok d, Ok d' => e_attributes (d_root d) <> e_attributes (d_root d') /\ d <> d' /\
      doc_to_string_with_indent_o o d (lit "  ") = doc_to_string_with_indent_o o' d' (lit "  ")
  | _, _ => False
  end.
Proof.
  cbv zeta. split; [apply key_first_fair|]. split; [apply key_first_fair|]. vm_compute.
  split; [discriminate|]. split; [discriminate|reflexivity].
Qed.
(** A program in the scope of [C73_programs]. *)
Lemma two_attrs_ok : forall m, Some [(lit "b", lit "1"); (lit "xmlns:q", lit "u")] = Some m -> map_ok m.
Proof. intros m E. injection E as <-. repeat constructor; vm_compute; intuition discriminate. Qed.
Lemma text_leaf : forall e : elem, NText (lit "t") <> NElem e.
Proof. discriminate. Qed.
Definition sample_program : program :=
  RemoveAll (Append (SetAttr (NewWithChildren (lit "r") None (Some [(lit "b", lit "1"); (lit "xmlns:q", lit "u")]) None None
                       (Then (Made (RootOf (lit "<c a='1' b='2'/>"))) (Then (Leaf (NText (lit "t")) text_leaf) Nothing)) two_attrs_ok)
                     (lit "z") (lit "3"))
             (Made (New (lit "d") (Some (lit "x")) None None (Some (lit "q")) ltac:(discriminate))))
    is_text an_is_text.
Example C73_program_example :
  exists e e', run (key_first (lit "xmlns:q")) sample_program = Ok e /\ run (key_first (lit "b")) sample_program = Ok e' /\
     e_attributes e <> e_attributes e'.
Proof. eexists _, _. split; [vm_compute; reflexivity|]. split; [vm_compute; reflexivity|]. discriminate. Qed.
Print Assumptions C73_programs.
Print Assumptions C73_parse.
Print Assumptions C73_new.
Print Assumptions C73_append.
Print Assumptions C73_append_all.
Print Assumptions C73_insert.
Print Assumptions C73_set_text.
Print Assumptions C73_seen.
Print Assumptions C73_written.
Print Assumptions C73_document_written.
Print Assumptions C73_compared.
Print Assumptions C73_prefixes.
Print Assumptions C73_found.
Print Assumptions C73_equivalence.
Print Assumptions C73_model.
Print Assumptions C73_model_order.
Print Assumptions C73_parse_model.
Print Assumptions C73_reported_name.
Print Assumptions C73_message_refuted.

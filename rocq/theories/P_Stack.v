(** Property C75: the stack needed is the nesting depth, which an input chooses. *)
From Coq Require Import List NArith Arith Bool Ascii String Lia.
From Verif Require Import Base Escape Dom Parse Stack SpecDom SpecStack DomFacts StackFacts DepthFacts.
Import ListNotations.

(** * One activation for each level *)

Theorem C75_to_string : forall e indent,
  stack_for [e] (fun k => elem_to_string_with_indent_s k e indent) (elem_to_string_with_indent e indent).
Proof. intros e indent. apply stack_for_one. intro k. apply elem_to_string_bounded. Qed.
Theorem C75_document_to_string : forall d indent,
  stack_for [root_element d] (fun k => doc_to_string_with_indent_s k d indent) (doc_to_string_with_indent d indent).
Proof. intros d indent. apply stack_for_one. intro k. apply doc_to_string_bounded. Qed.
Theorem C75_text : forall e, stack_for [e] (fun k => text_s k e) (elem_text e).
Proof. intro e. apply stack_for_one. intro k. apply text_bounded. Qed.
Theorem C75_clone : forall e, stack_for [e] (fun k => clone_s k e) (clone_elem e).
Proof. intro e. apply stack_for_one. intro k. apply clone_bounded. Qed.
Theorem C75_drop : forall e, stack_for [e] (fun k => drop_s k e) tt.
Proof. intro e. apply stack_for_one. intro k. apply drop_bounded. Qed.
Theorem C75_search : forall e p, stack_for [e] (fun k => search_s k e p) (search e p).
Proof. intros e p. apply stack_for_one. intro k. apply search_bounded. Qed.
Theorem C75_remove_all : forall e p, stack_for [e] (fun k => remove_all_s k p e) (remove_all p e).
Proof. intros e p. apply stack_for_one. intro k. apply remove_all_bounded. Qed.
Theorem C75_remove_all_elements : forall e p,
  stack_for (child_elements e) (fun k => remove_all_elements_s k p e) (remove_all_elements p e).
Proof. intros e p. apply stack_for_nodes. intro k. apply remove_all_elements_bounded. Qed.

(** Functions that drop nodes: what they drop counts. *)
Theorem C75_remove_by : forall e p,
  stack_for (elements_of (filter p (children e))) (fun k => remove_by_s k e p) (remove_by e p).
Proof. intros e p. apply stack_for_nodes. intro k. apply remove_by_bounded. Qed.
Theorem C75_remove_elements : forall e p,
  stack_for (filter p (child_elements e)) (fun k => remove_elements_s k e p) (remove_elements e p).
Proof.
  intros e p. assert (E : filter p (child_elements e) = elements_of (filter (elem_pred p) (e_children e))).
  { unfold child_elements. induction (e_children e) as [|[c|s|s|s] l IH]; cbn [elements_of filter elem_pred]; [reflexivity| |exact IH..].
    destruct (p c); cbn [elements_of]; now rewrite IH. }
  rewrite E. apply stack_for_nodes. intro k. apply remove_elements_bounded.
Qed.
Theorem C75_remove_element : forall e i,
  stack_for (match nth_error (child_elements e) i with Some c => [c] | None => [] end)
    (fun k => remove_element_s k e i) (remove_element e i).
Proof. intros e i. apply stack_for_option. intro k. apply remove_element_bounded. Qed.
Theorem C75_clear_children : forall e, stack_for (child_elements e) (fun k => clear_children_s k e) (clear_children e).
Proof. intro e. apply stack_for_nodes. intro k. apply clear_children_bounded. Qed.
Theorem C75_set_text : forall e t, stack_for (child_elements e) (fun k => set_text_s k e t) (set_text e t).
Proof. intros e t. apply stack_for_nodes. intro k. apply set_text_bounded. Qed.

(** Comparison stops at the first difference: the flatter element bounds the stack,
    and if the elements are equal this is what is needed.  The answer is right
    whenever there is one. *)
Theorem C75_eq : forall k a b,
  (~ deeper k a \/ ~ deeper k b -> eq_s k a b = Fits (elem_eqb a b)) /\
  (deeper k a -> elem_eqb a b = true -> eq_s k a b = Overflow) /\
  (forall r, eq_s k a b = Fits r -> r = elem_eqb a b).
Proof.
  intros k a b. split; [|split].
  - rewrite !deeper_levels. intro H. apply eq_fits. lia.
  - rewrite deeper_levels. intros D E. now apply eq_over.
  - intros r H. now apply eq_right with k.
Qed.

(** * Depth of documents *)

(** A text for a document nested deeper than [k] has at least 7 * k + 4 characters. *)
Theorem C75_parsed : forall s d k, parse_str s = Ok d -> deeper k (root_element d) -> 7 * k + 4 <= List.length s.
Proof. intros s d k H D. apply deeper_levels in D. apply parsed_depth in H. unfold root_element in D. lia. Qed.
(** So with room for one activation for each 7 characters nothing overflows. *)
Theorem C75_enough : forall s d k indent, parse_str s = Ok d -> List.length s < 7 * k + 4 ->
  doc_to_string_with_indent_s k d indent = Fits (doc_to_string_with_indent d indent) /\
  text_s k (root_element d) = Fits (elem_text (root_element d)) /\
  clone_s k (root_element d) = Fits (root_element d) /\ drop_s k (root_element d) = Fits tt.
Proof.
  intros s d k indent H L.
  assert (N : forall c, In c [root_element d] -> ~ deeper k c).
  { intros c [<-|[]] D. pose proof (C75_parsed _ _ _ H D). lia. }
  split; [now apply C75_document_to_string|]. split; [now apply C75_text|]. split; [|now apply C75_drop].
  rewrite <- (clone_id (root_element d)) at 2. now apply C75_clone.
Qed.
(** The bound is sharp: whatever the size of the stack, there is a text of 7 * k + 4
    characters that is read, but whose document can be neither written nor cloned,
    compared, searched, nor even dropped. *)
Theorem C75_nested_refuted : forall k, exists s d, List.length s = 7 * k + 4 /\ parse_str s = Ok d /\
  drop_s k (root_element d) = Overflow /\
  (forall indent, doc_to_string_with_indent_s k d indent = Overflow) /\
  text_s k (root_element d) = Overflow /\ clone_s k (root_element d) = Overflow /\
  (forall p, search_s k (root_element d) p = Overflow) /\ (forall p, remove_all_s k p (root_element d) = Overflow) /\
  (forall e, elem_eqb (root_element d) e = true -> eq_s k (root_element d) e = Overflow).
Proof.
  intro k. destruct (nest_parsed k) as (d & P & L). exists (nest k), d. split; [apply nest_length|]. split; [exact P|].
  assert (D : deeper k (root_element d)) by (apply deeper_levels; unfold root_element; lia).
  assert (N : exists c, In c [root_element d] /\ deeper k c) by (exists (root_element d); split; [now left|exact D]).
  split; [now apply C75_drop|]. split; [intro indent; now apply C75_document_to_string|]. split; [now apply C75_text|].
  split; [now apply C75_clone|]. split; [intro p; now apply C75_search|]. split; [intro p; now apply C75_remove_all|].
  intros e E. now apply C75_eq.
Qed.

Example C75_example : exists d, parse_str (lit "<a>x<b><c>y</c></b><!--z--></a>") = Ok d /\
  deeper 2 (root_element d) /\ ~ deeper 3 (root_element d) /\
  text_s 3 (root_element d) = Fits (lit "xy") /\ text_s 2 (root_element d) = Overflow /\
  clear_children_s 2 (root_element d) = Fits (clear_children (root_element d)) /\
  clear_children_s 1 (root_element d) = Overflow /\ remove_elements_s 0 (root_element d) (fun e => str_eqb (name e) (lit "q")) =
    Fits (remove_elements (root_element d) (fun e => str_eqb (name e) (lit "q"))) /\
  eq_s 3 (root_element d) (root_element d) = Fits true /\ eq_s 2 (root_element d) (root_element d) = Overflow /\
  eq_s 1 (root_element d) default_elem = Fits false.
Proof.
  eexists. split; [vm_compute; reflexivity|]. split; [apply deeper_levels; vm_compute; lia|].
  split; [rewrite deeper_levels; vm_compute; lia|]. repeat split; vm_compute; reflexivity.
Qed.
Print Assumptions C75_to_string.
Print Assumptions C75_document_to_string.
Print Assumptions C75_text.
Print Assumptions C75_clone.
Print Assumptions C75_drop.
Print Assumptions C75_search.
Print Assumptions C75_remove_all.
Print Assumptions C75_remove_all_elements.
Print Assumptions C75_remove_by.
Print Assumptions C75_remove_elements.
Print Assumptions C75_remove_element.
Print Assumptions C75_clear_children.
Print Assumptions C75_set_text.
Print Assumptions C75_eq.
Print Assumptions C75_parsed.
Print Assumptions C75_enough.
Print Assumptions C75_nested_refuted.

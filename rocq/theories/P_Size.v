(** Property C83: sizes.  What is read is not larger than the text, apart from
    namespaces, and what is written is bounded by size and depth. *)
From Coq Require Import List NArith Arith Bool Ascii String Lia.
From Verif Require Import Base BaseFacts Escape Dom Parse SpecDom SpecStack StackFacts DepthFacts SpecSize SizeFacts SizeMore.
Import ListNotations.

(** * Reading *)

(** The markup and the texts of the document would fit into the text it is read from. *)
Theorem C83_document : forall s d, parse_str s = Ok d -> size_doc d <= blen s.
Proof. exact parse_size. Qed.
Theorem C83_elements : forall s d, parse_str s = Ok d -> 4 * List.length (elements (root_element d)) <= blen s.
Proof. intros s d H. now apply namespaces_size in H. Qed.
(** Namespaces and prefixes come from attributes in the text, however many roots it has. *)
Theorem C83_drawn : forall s d, parse_str s = Ok d ->
  exists P, sum size_attr P <= blen s /\ forall e, In e (elements (root_element d)) -> drawn_from P e.
Proof. intros s d H. destruct (parsed_drawn _ _ H) as (P & S & D). exists P. split; [exact S|]. now apply Forall_forall. Qed.
(** So for each element they are not larger than the text, *)
Theorem C83_namespace : forall s d e v, parse_str s = Ok d -> In e (elements (root_element d)) -> namespace e = Some v -> 4 + blen v <= blen s.
Proof. intros s d e v H. apply namespaces_size in H. destruct H as (_ & H & _). apply H. Qed.
Theorem C83_prefixes : forall s d e, parse_str s = Ok d -> In e (elements (root_element d)) -> size_prefixes e <= blen s.
Proof. intros s d e H. apply namespaces_size in H. destruct H as (_ & _ & H & _). apply H. Qed.
(** and together at most quadratic. *)
Theorem C83_namespaces : forall s d, parse_str s = Ok d -> 4 * size_namespaces (root_element d) <= blen s * blen s.
Proof. intros s d H. now apply namespaces_size in H. Qed.
(** They can be quadratic: no multiple of the size of the text is enough. *)
Theorem C83_namespaces_quadratic : forall n, blen (crowd n) = 5 * n + 17 /\
  exists d, parse_str (crowd n) = Ok d /\ n * n <= size_namespaces (root_element d).
Proof. intro n. split; [apply crowd_blen|apply crowd_namespaces]. Qed.
Theorem C83_linear_refuted : forall k, exists s d, parse_str s = Ok d /\ k * blen s < size_namespaces (root_element d).
Proof.
  intro k. exists (crowd (23 * k + 1)). destruct (crowd_namespaces (23 * k + 1)) as (d & P & L). exists d. split; [exact P|].
  rewrite crowd_blen. unfold root_element. nia.
Qed.

(** * Writing *)

(** Each byte is written as six at most, and on each level every line is indented once more. *)
Theorem C83_written : forall d ind k, ~ deeper k (root_element d) ->
  blen (doc_to_string_with_indent d ind) <= size_doc d * (6 + k * Nat.max 2 (blen ind)).
Proof.
  intros d ind k H. rewrite deeper_levels in H. apply Nat.le_trans with (1 := doc_blen d ind), Nat.mul_le_mono_l. unfold root_element in H. nia.
Qed.
(** A text read and written again is at most quadratic in the text. *)
Theorem C83_rewritten : forall s d, parse_str s = Ok d -> 7 * blen (doc_to_string d) <= blen s * (2 * blen s + 48).
Proof.
  intros s d H. pose proof (parse_size _ _ H) as Z. pose proof (parsed_depth _ _ H) as L. pose proof (doc_blen d default_indent) as W.
  change (Nat.max 2 (blen default_indent)) with 2 in W. fold (doc_to_string d) in W. pose proof (blen_length s). nia.
Qed.
(** It can be quadratic. *)
Theorem C83_indent_quadratic : forall n, blen (nest n) = 7 * n + 4 /\
  exists d, parse_str (nest n) = Ok d /\ n * n <= blen (doc_to_string d).
Proof. intro n. split; [apply nest_blen|apply deep_written]. Qed.

(** * Examples *)

(** Only the end tags are not counted, so the bound is attained. *)
Example C83_attained : exists d, parse_str (lit "<?xml v?><!DOCTYPE a><p:a xmlns:p='u'><b/><![CDATA[x]]></p:a>") = Ok d /\
  size_doc d + 5 = blen (lit "<?xml v?><!DOCTYPE a><p:a xmlns:p='u'><b/><![CDATA[x]]></p:a>").
Proof. eexists. split; vm_compute; reflexivity. Qed.
Example C83_attained_exactly : exists d, parse_str (lit "<a k='v'/>") = Ok d /\ size_doc d = blen (lit "<a k='v'/>").
Proof. eexists. split; vm_compute; reflexivity. Qed.
(** With several roots an element can keep a namespace no attribute of the tree has. *)
Example C83_two_roots : exists d c, parse_str (lit "<a xmlns='u'><b/></a><c></c>") = Ok d /\ children (root_element d) = [NElem c] /\
  namespace c = Some (lit "u") /\ attributes (root_element d) = [] /\ attributes c = [].
Proof. eexists _, _. split; [vm_compute; reflexivity|]. repeat split. Qed.
Example C83_quotes : exists e, new_with_attributes (lit "a") [(lit "k", lit """""""""")] = Ok e /\
  size_elem e = 13 /\ blen (elem_to_string_with_indent e default_indent) = 33.
Proof. eexists. split; [vm_compute; reflexivity|]. split; vm_compute; reflexivity. Qed.
Print Assumptions C83_document.
Print Assumptions C83_elements.
Print Assumptions C83_drawn.
Print Assumptions C83_namespace.
Print Assumptions C83_prefixes.
Print Assumptions C83_namespaces.
Print Assumptions C83_namespaces_quadratic.
Print Assumptions C83_linear_refuted.
Print Assumptions C83_written.
Print Assumptions C83_rewritten.
Print Assumptions C83_indent_quadratic.

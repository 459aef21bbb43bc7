(** Property C91: the time of comparing, copying and hashing elements.  The functions of
    Time.v and TimeEq.v count the steps. *)
From Coq Require Import List NArith Arith Bool Ascii String Lia.
From Verif Require Import Base BaseFacts Escape Dom DomFacts Spec SpecDom ParseTree Parse ParsedFacts SerFacts P_Parse
  Time SpecSize SpecTime SizeFacts SizeMore TimeFacts TimeOut TimeEq SpecTimeEdit TimeSame.
Import ListNotations.

Local Arguments sum {A} f l : simpl never.

(** * What is counted are the steps of the functions of the model *)

Theorem C91_same :
  (forall a b, result (elem_eq_t a b) = Ok (elem_eqb a b)) /\
  (forall e, result (clone_elem_t e) = Ok (clone_elem e)) /\
  (forall e i, result (remove_element_t e i) = remove_element e i).
Proof. split; [intros a b; apply eq_bound|]. split; [intro e; apply clone_eq|exact remove_element_t_ok]. Qed.

(** * Comparing *)

(** Linear in the first of the two, however large the second one is. *)
Theorem C91_compare : forall a b, steps (elem_eq_t a b) <= 3 * (heft a + size_namespaces a).
Proof. intros a b. pose proof (proj2 (eq_bound a b)). lia. Qed.
(** Equal elements are looked at as a whole. *)
Theorem C91_equal : forall a b, elem_eqb a b = true -> heft a + size_namespaces a <= 5 * steps (elem_eq_t a b).
Proof. exact eq_least. Qed.
(** Names of different lengths are enough to stop, *)
Theorem C91_names : forall a b, blen (name a) <> blen (name b) -> steps (elem_eq_t a b) = 1.
Proof. exact eq_names. Qed.
(** and with different numbers of children no child is looked at. *)
Theorem C91_children : forall a b, List.length (children a) <> List.length (children b) ->
  steps (elem_eq_t a b) <= 3 * (head_size a + match namespace a with None => 0 | Some v => blen v end).
Proof. exact eq_lengths. Qed.
(** * Copying *)

(** Copying takes the time of what is copied: the tree, the namespaces and the tables of
    prefixes kept with its elements. *)
Theorem C91_clone : forall e,
  steps (clone_elem_t e) <= 3 * (heft e + size_namespaces e + size_tables e) /\
  heft e + size_namespaces e + size_tables e <= 7 * steps (clone_elem_t e).
Proof. intro e. split; [pose proof (clone_le e); lia|apply clone_least]. Qed.
(** Taking a child element out of an element copies it. *)
Theorem C91_remove_element : forall e i c e', remove_element e i = Ok (c, e') ->
  steps (remove_element_t e i) <= 5 + 2 * List.length (children e) + 3 * (heft c + size_namespaces c + size_tables c) /\
  heft c + size_namespaces c + size_tables c <= 7 * steps (remove_element_t e i).
Proof.
  intros e i c e' H. destruct (remove_element_le _ _ _ _ H) as [L U]. destruct (C91_clone c) as [C1 C2]. unfold children. lia.
Qed.

(** * Documents *)

(** The trees of documents are compared and copied in quadratic time of the text read, *)
Theorem C91_read : forall s d, parse_str s = Ok d ->
  (forall e, 4 * steps (elem_eq_t (root_element d) e) <= 24 * blen s + 3 * (blen s * blen s)) /\
  4 * steps (clone_elem_t (root_element d)) <= 24 * blen s + 6 * (blen s * blen s).
Proof. intros s d H. split; [intro e; now apply parsed_compare|now apply parsed_clone]. Qed.
(** and not always in linear time: a namespace is kept with each element. *)
Theorem C91_linear_refuted : forall k, exists s d, parse_str s = Ok d /\ elem_eqb (root_element d) (root_element d) = true /\
  k * blen s < steps (elem_eq_t (root_element d) (root_element d)) /\ k * blen s < steps (clone_elem_t (root_element d)).
Proof.
  intro k. set (n := 160 * k + 1). exists (crowd n). destruct (crowd_namespaces n) as (d & P & L). exists d. split; [exact P|].
  assert (E : elem_eqb (root_element d) (root_element d) = true).
  { apply elem_eqb_refl, elem_valid_ok. now apply (C48_parsed_valid _ _ P). }
  split; [exact E|]. pose proof (C91_equal _ _ E) as Q. pose proof (proj2 (C91_clone (root_element d))) as C. rewrite crowd_blen. unfold root_element in *.
  assert (n = 160 * k + 1) by reflexivity. clearbody n. split; nia.
Qed.

(** * Hashing *)

(** Only the name and the namespace are given to the hasher. *)
Theorem C91_hash : forall a b, name a = name b -> namespace a = namespace b ->
  elem_hash_input a = elem_hash_input b /\ node_hash_t (NElem a) = node_hash_t (NElem b).
Proof.
  intros a b N X. assert (E : elem_hash_input a = elem_hash_input b) by (unfold elem_hash_input, name, namespace in *; congruence).
  split; [exact E|]. unfold node_hash_t. cbn [node_hash_input]. now rewrite E.
Qed.
(** So hashing is much cheaper than comparing, and elements that are not equal may have
    the same hash. *)
Theorem C91_hash_cheap : forall k, exists a b, elem_valid a /\ elem_valid b /\ elem_eqb a b = false /\
  elem_hash_input a = elem_hash_input b /\ node_hash_t (NElem a) <= 4 /\ k < steps (elem_eq_t a b).
Proof.
  intro k. set (x t := mkElem (lit "a") [NText t] [] None None []). exists (x (repeat 97%N k ++ lit "b")), (x (repeat 97%N k ++ lit "c")).
  assert (V : forall t, elem_valid (x t)).
  { intro t. constructor; cbn [x e_name e_attributes e_context e_children].
    - exists 97%N, []. split; [reflexivity|]. split; [right; right; now vm_compute|constructor].
    - intros k0 v [].
    - constructor.
    - constructor.
    - intros c [H|[]]. discriminate H.
    - intros c [H|[]]. discriminate H.
    - intros c [H|[]]. discriminate H. }
  split; [apply V|]. split; [apply V|]. set (s := repeat 97%N k ++ lit "b"). set (t := repeat 97%N k ++ lit "c").
  assert (B : blen s = S k /\ blen t = S k).
  { unfold s, t. rewrite !blen_app. change (blen (lit "b")) with 1. change (blen (lit "c")) with 1. assert (B : blen (repeat 97%N k) = k) by (clear; induction k as [|k IH]; [reflexivity|cbn [repeat blen]; rewrite IH; reflexivity]). lia. }
  assert (D : str_eqb s t = false).
  { apply not_true_iff_false. intro E. apply str_eqb_eq in E. apply app_inv_head in E. discriminate E. }
  destruct B as [B1 B2]. split; [rewrite elem_eqb_parts; cbn [x e_children nodes_eqb]; change (head_eqb (x s) (x t)) with true; cbn; now rewrite D|].
  split; [reflexivity|]. split; [vm_compute; lia|]. rewrite elem_eq_t_eq, and_all by (rewrite head_result; reflexivity).
  enough (S k <= steps (nodes_eq_t [NText s] [NText t])) by (cbn [x e_children]; lia).
  cbn [nodes_eq_t spend steps]. pose proof (and_le (str_eq_t s t) (nodes_eq_t [] [])). unfold and_t, tbind. cbn [str_eq_t after result steps]. rewrite D. cbn [after steps].
  rewrite B1, B2, Nat.eqb_refl. lia.
Qed.

(** * Examples *)

Definition ex_x : elem :=
  mkElem (lit "a") [NText (lit "x"); NElem (mkElem (lit "b") [NText (lit "yz")] [(lit "k", lit "v")] None None [(lit "p", lit "u")])] [] (Some (lit "uri")) None [].
Definition ex_y : elem :=
  mkElem (lit "a") [NText (lit "x"); NElem (mkElem (lit "b") [NText (lit "yw")] [(lit "k", lit "v")] None None [(lit "p", lit "u")])] [] (Some (lit "uri")) None [].
Example ex_compare : elem_eqb ex_x ex_x = true /\ steps (elem_eq_t ex_x ex_x) = 35 /\
  elem_eqb ex_x ex_y = false /\ steps (elem_eq_t ex_x ex_y) = 33 /\
  blen (name ex_x) <> blen (name (mkElem (lit "ab") [] [] None None [])) /\ List.length (children ex_x) <> List.length (children (mkElem (lit "a") [] [] None None [])) /\
  steps (elem_eq_t ex_x (mkElem (lit "ab") [] [] None None [])) = 1.
Proof. vm_compute. repeat split; discriminate. Qed.
Example ex_clone : steps (clone_elem_t ex_x) = 33 /\
  remove_element ex_x 0 = Ok (mkElem (lit "b") [NText (lit "yz")] [(lit "k", lit "v")] None None [(lit "p", lit "u")], mkElem (lit "a") [NText (lit "x")] [] (Some (lit "uri")) None []) /\
  steps (remove_element_t ex_x 0) = 26.
Proof. vm_compute. repeat split. Qed.
Example ex_hash : node_hash_t (NElem ex_x) = 6.
Proof. reflexivity. Qed.
Print Assumptions C91_same.
Print Assumptions C91_compare.
Print Assumptions C91_equal.
Print Assumptions C91_names.
Print Assumptions C91_children.
Print Assumptions C91_clone.
Print Assumptions C91_remove_element.
Print Assumptions C91_read.
Print Assumptions C91_linear_refuted.
Print Assumptions C91_hash.
Print Assumptions C91_hash_cheap.

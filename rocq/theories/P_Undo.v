(** Property C87: undoing changes, and making them in another order.  The words used
    are defined in SpecUndo.v; calls in SpecTell.v, places in SpecLocal.v. *)
From Coq Require Import List NArith Arith Bool Ascii String Lia Permutation.
From Verif Require Import Base Escape Dom BaseFacts Spec SpecDom SpecApi SpecTree DomFacts ApiFacts SerFacts Parse SpecLex SpecParse SpecDoc SpecMean
  P_Parse P_Mean Orders SpecOrders OrdersFacts SpecTell TellFacts SpecLocal LocalFacts SpecUndo UndoFacts.
Import ListNotations.

(** * Undoing *)

(** Removing child [i] after inserting it there gives back the element as it was
    exactly if the texts were and are in normal form with the new node among them,
    and the last child had nothing to take over (or the new node is the last). *)
Theorem C87_insert_remove : forall e i n, (exists e1 x, insert e i n = Ok e1 /\ remove e1 i = Ok (x, e)) <->
  i <= List.length (children e) /\ text_normal (firstn i (children e) ++ [n] ++ skipn i (children e)) /\
  (i < List.length (children e) -> last_at_home e).
Proof. exact insert_remove. Qed.
(** The same for appending; it does not matter then what the last child is like. *)
Theorem C87_append_remove : forall e n, (exists e1 x, append e n = Ok e1 /\ remove e1 (List.length (children e)) = Ok (x, e)) <->
  text_normal (children e ++ [n]).
Proof. exact append_remove. Qed.
(** Inserting child [i] again after removing it. *)
Theorem C87_remove_insert : forall e i, (exists x e1, remove e i = Ok (x, e1) /\ insert e1 i x = Ok e) <->
  i < List.length (children e) /\ text_normal (children e) /\ last_at_home e.
Proof. exact remove_insert. Qed.
(** A node is at home exactly if adopting it would not change it. *)
Theorem C87_at_home : forall e n, at_home e n <-> adopted e n n.
Proof.
  intros e n. rewrite at_home_iff. split.
  - intro H. rewrite <- H at 2. apply inherited_adopted.
  - destruct n as [c|s|s|s]; try easy. intros (_ & _ & _ & _ & Hc & Hx). apply at_home_iff. split.
    + intros p Hp. destruct (aget p (e_context c)) as [v|] eqn:G.
      * apply aget_in in G. apply in_map_iff. now exists (p, v).
      * specialize (Hc p). rewrite G in Hc. symmetry in Hc. apply aget_none in Hc. now destruct Hc.
    + unfold namespace, namespace_prefix. intro E. rewrite E in Hx. destruct (e_prefix c) as [p|]; [now apply aget_none|]. easy.
Qed.
(** After an element was appended, the last child is at home. *)
Theorem C87_appended : forall e c e1, append e (NElem c) = Ok e1 -> last_at_home e1.
Proof.
  intros e c e1. rewrite append_eq. intros [= <-] front last E. unfold children in E. cbn [e_children set_children] in E.
  cbn [inherited apply_xmlns_context] in E. destruct (clean_last_elem (e_children e) (set_namespace_context c (default_namespace e) (Some (e_context e)))) as (f & F).
  unfold inherited, apply_xmlns_context in E. rewrite F in E. apply app_inj_tail in E as [_ <-]. apply at_home_iff.
  exact (inherited_idem e (NElem c)).
Qed.
(** In a document that was read, with one root, everything that is removed can be put
    back, at any depth, and everything that is inserted can be taken out again, unless
    it is a text that touches another one or is blank. *)
Lemma items_resolved :
  (forall anc e is, element_of_items anc e is -> resolved e) /\
  (forall anc ns is, nodes_of_items anc ns is -> forall q anc', anc = q :: anc' ->
    (forall p, aget p (e_context q) = nearest (lit "xmlns:" ++ p) (q :: anc')) ->
    forall c, In (NElem c) ns -> adopted q (NElem c) (NElem c) /\ resolved c).
Proof.
  apply items_ind2.
  - intros anc e n l is _ _ Hx _ IH. constructor; intros c Hc; now apply (IH e anc eq_refl Hx).
  - easy.
  - intros anc n ns is Hn _ IH q anc' E Hq c [->|Hc]; [now destruct (Hn c)|now apply (IH q anc')].
  - intros anc e ns is is' H R _ IH q anc' -> Hq c [[= <-]|Hc]; [|now apply (IH q anc')]. split; [|easy].
    inversion H as [anc1 e1 n l is1 _ Ex Ec _]; subst. do 4 (split; [easy|]). split.
    + intro k. rewrite Hq, !Ec. cbn [nearest]. destruct (get_attr e (lit "xmlns:" ++ k)); [easy|].
      destruct (get_attr q (lit "xmlns:" ++ k)); [easy|]. now destruct (nearest (lit "xmlns:" ++ k) anc').
    + rewrite Ex. unfold namespace_rule, inheritable. destruct (e_prefix e) as [p|].
      * rewrite Ec. cbn [nearest]. destruct (get_attr e (lit "xmlns:" ++ p)); [easy|].
        destruct (get_attr q (lit "xmlns:" ++ lit "xmlns:" ++ p)); [easy|].
        destruct (nearest (lit "xmlns:" ++ lit "xmlns:" ++ p) anc'); [easy|]. destruct (get_attr q (lit "xmlns:" ++ p)); [easy|].
        destruct (nearest (lit "xmlns:" ++ p) anc'); easy.
      * destruct (get_attr e (lit "xmlns")); [easy|]. destruct (e_prefix q); [easy|]. now destruct (e_xmlns q).
Qed.
Lemma resolved_at path : forall e c, resolved e -> element_at e path = Some c -> resolved c.
Proof.
  induction path as [|i path IH]; intros e c R H; [now injection H as <-|]. apply at_cons_inv in H as (d & E & H).
  inversion R as [e' _ R']; subst e'. apply (IH d); [|easy]. apply R'. now apply nth_error_In in E.
Qed.
Lemma normal_at path : forall e c, tree_normal e -> element_at e path = Some c -> text_normal (children c).
Proof.
  induction path as [|i path IH]; intros e c R H; [injection H as <-; now inversion R|]. apply at_cons_inv in H as (d & E & H).
  inversion R as [e' _ R']; subst e'. apply (IH d); [|easy]. apply R'. now apply nth_error_In in E.
Qed.
Lemma resolved_last e : resolved e -> last_at_home e.
Proof.
  intros R front last E. apply C87_at_home. inversion R as [e' A _]; subst e'. destruct last as [c|s|s|s]; try easy. apply A.
  unfold children in E. rewrite E. apply in_or_app. right. now left.
Qed.
Theorem C87_read : forall s d pr el path c, parse_str s = Ok d -> one_root s pr el -> element_at (root_element d) path = Some c ->
  (forall i, i < List.length (children c) -> exists x c1, remove c i = Ok (x, c1) /\ insert c1 i x = Ok c) /\
  (forall i n, i <= List.length (children c) -> text_normal (firstn i (children c) ++ [n] ++ skipn i (children c)) ->
    exists c1 x, insert c i n = Ok c1 /\ remove c1 i = Ok (x, c)).
Proof.
  intros s d pr el path c P O H. destruct (C67_document _ _ _ _ P O) as (_ & _ & is & _ & E). apply items_resolved in E.
  destruct (C48_parsed_valid _ _ P) as [_ T]. pose proof (normal_at _ _ _ T H) as N. pose proof (resolved_last _ (resolved_at _ _ _ E H)) as L.
  split.
  - intros i Hi. now apply C87_remove_insert.
  - intros i n Hi Tn. now apply C87_insert_remove.
Qed.

(** Setting an attribute is undone by removing it or setting it back, removing it by
    setting it back. *)
Theorem C87_set_attr : forall e k v e1, elem_ok e -> set_attr e k v = (Ok tt, e1) ->
  (get_attr e k = None -> alike (snd (remove_attr e1 k)) e) /\
  (forall w, get_attr e k = Some w -> alike (snd (set_attr e1 k w)) e).
Proof. exact set_attr_undo. Qed.
Theorem C87_remove_attr : forall e k w, elem_ok e -> valid_name k -> get_attr e k = Some w ->
  alike (snd (set_attr (snd (remove_attr e k)) k w)) e.
Proof. exact remove_attr_undo. Qed.

(** * Other orders *)

(** Calls on the attributes and calls on the children of the same element can be made
    in either order, and do not make each other fail. *)
Theorem C87_attributes_children : forall a c e e1, on_attributes a -> on_children c -> perform1 a e = Ok e1 ->
  (forall e2, perform1 c e = Ok e2 -> exists e3, perform1 c e1 = Ok e3 /\ perform1 a e2 = Ok e3) /\
  (forall x, perform1 c e = Err x -> perform1 c e1 = Err x).
Proof. exact attributes_children. Qed.
Theorem C87_attributes_fail : forall a e e' x, on_attributes a -> perform1 a e = Err x -> perform1 a e' = Err x.
Proof. intros a e e' x A H. now apply (attr_call_fails a e). Qed.
(** So can calls on different attributes. *)
Theorem C87_two_attributes : forall k k' a b e e1 e2, elem_ok e -> k <> k' -> on_attribute k a -> on_attribute k' b ->
  perform [a; b] e = Ok e1 -> perform [b; a] e = Ok e2 -> alike e1 e2.
Proof. exact two_attributes. Qed.
(** So can any changes at two places of a tree neither of which is above the other, *)
Theorem C87_apart : forall p q e c d c' d', apart p q -> element_at e p = Some c -> element_at e q = Some d ->
  element_at (put_element p c' e) q = Some d /\ element_at (put_element q d' e) p = Some c /\
  put_element q d' (put_element p c' e) = put_element p c' (put_element q d' e).
Proof. exact apart_commute. Qed.
(** and changes of the attributes of one element and any changes below it. *)
Theorem C87_above : forall p i q e c d d' m, element_at e p = Some c -> element_at e (p ++ i :: q) = Some d ->
  exists c1, element_at (put_element (p ++ i :: q) d' e) p = Some c1 /\ attributes c1 = attributes c /\
    element_at (put_element p (other_attributes c m) e) (p ++ i :: q) = Some d /\
    put_element p (other_attributes c1 m) (put_element (p ++ i :: q) d' e) =
    put_element (p ++ i :: q) d' (put_element p (other_attributes c m) e).
Proof. exact above_commute. Qed.
(** Removing by index, with the indices shifted; *)
Theorem C87_remove_twice : forall e i j x y e1 e2, remove e i = Ok (x, e1) -> remove e1 j = Ok (y, e2) -> i <= j ->
  exists e1', remove e (S j) = Ok (y, e1') /\ remove e1' i = Ok (x, e2).
Proof. exact remove_twice. Qed.
(** removing by predicate, which is also one removal; *)
Theorem C87_remove_by : forall e p q e1 k1 e2 k2, remove_by e p = Ok (e1, k1) -> remove_by e1 q = Ok (e2, k2) ->
  remove_by e (fun n => p n || q n) = Ok (e2, k1 + k2) /\
  exists e1' k1' k2', remove_by e q = Ok (e1', k1') /\ remove_by e1' p = Ok (e2, k2') /\ k1' + k2' = k1 + k2.
Proof.
  intros e p q e1 k1 e2 k2 H1 H2. pose proof (remove_by_two _ _ _ _ _ _ _ H1 H2) as H. split; [easy|].
  rewrite remove_by_eq in H1. injection H1 as <- <-. rewrite remove_by_eq in H2. injection H2 as <- <-.
  rewrite remove_by_eq. eexists _, _, _. split; [reflexivity|]. rewrite remove_by_eq. cbn [e_children set_children].
  rewrite !set_children_twice, !filter_two. split.
  - do 3 f_equal. apply filter_ext. intro n. now rewrite orb_comm.
  - rewrite !filter_count. f_equal. apply filter_ext. intro n. apply orb_comm.
Qed.
(** removing everywhere by predicates that do not look into the children: in either
    order, at once, and a second time without effect. *)
Theorem C87_remove_all : forall p q e e1 k1 e2 k2, shallow_only p -> shallow_only q ->
  remove_all p e = Ok (e1, k1) -> remove_all q e1 = Ok (e2, k2) ->
  (exists k, remove_all (fun n => p n || q n) e = Ok (e2, k)) /\
  (exists e1' k1' k2', remove_all q e = Ok (e1', k1') /\ remove_all p e1' = Ok (e2, k2')) /\
  remove_all p e1 = Ok (e1, 0).
Proof.
  intros p q e e1 k1 e2 k2 P Q H1 H2. split; [now apply (remove_all_two p q e e1 k1 e2 k2)|].
  split; [now apply (remove_all_order p q e e1 k1 e2 k2)|]. now apply (remove_all_again p e e1 k1).
Qed.
(** Appending lists one after the other is appending them at once, if there are no
    blank texts in what comes first. *)
Theorem C87_append_all : forall e l1 l2 e1, no_blank_text (children e ++ l1) -> append_all e l1 = Ok e1 ->
  append_all e1 l2 = append_all e (l1 ++ l2).
Proof. exact append_all_app. Qed.

(** * Witnesses *)

Definition el (s : string) (l : list node) : elem := mkElem (lit s) l [] None None [].
Definition read (s : string) : elem := match parse_str (lit s) with Ok d => root_element d | _ => el "none" [] end.

(** Not every child is at home: one that was inserted before others does not take over
    the namespace.  When it has become the last child, removing it and putting it back
    changes it. *)
Theorem C87_at_home_refuted : exists r r1 r2 b r3 a r4 r5,
  element_new (lit "r") None None (Some (lit "u")) None None = Ok r /\
  append r (NElem (el "b" [])) = Ok r1 /\ insert r1 0 (NElem (el "a" [])) = Ok r2 /\ remove r2 1 = Ok (b, r3) /\
  text_normal (children r3) /\
  remove r3 0 = Ok (a, r4) /\ insert r4 0 a = Ok r5 /\ elem_eqb r5 r3 = false /\
  map namespace (child_elements r3) = [None] /\ map namespace (child_elements r5) = [Some (lit "u")].
Proof.
  eexists _, _, _, _, _, _, _, _. split; [vm_compute; reflexivity|]. split; [vm_compute; reflexivity|].
  split; [vm_compute; reflexivity|]. split; [vm_compute; reflexivity|]. split.
  { split; [intros [|x [|y a]] s t b; discriminate|]. intros s [H|[]]. discriminate H. }
  split; [vm_compute; reflexivity|]. split; [vm_compute; reflexivity|]. split; [vm_compute; reflexivity|].
  split; vm_compute; reflexivity.
Qed.
(** With several roots not everything can be put back: C87_read needs its condition. *)
Theorem C87_roots_refuted : exists d c i x c1 c2,
  parse_str (lit "<a><c><p:e/></c></a><b xmlns:p='u'></b>") = Ok d /\ element_at (root_element d) [0] = Some c /\
  remove c i = Ok (x, c1) /\ insert c1 i x = Ok c2 /\ elem_eqb c2 c = false.
Proof.
  eexists _, _, 0, _, _, _. split; [vm_compute; reflexivity|]. split; [vm_compute; reflexivity|].
  split; [vm_compute; reflexivity|]. split; vm_compute; reflexivity.
Qed.
(** A text next to another one cannot be taken out again, a blank one vanishes. *)
Theorem C87_text_refuted : exists e e1 x e2 e3 y e4,
  e = el "a" [NText (lit "x")] /\ insert e 1 (NText (lit "y")) = Ok e1 /\ children e1 = [NText (lit "xy")] /\
  remove e1 0 = Ok (x, e2) /\ children e2 = [] /\
  insert (el "a" [NComment (lit "c")]) 0 (NText (lit " ")) = Ok e3 /\ remove e3 0 = Ok (y, e4) /\
  y = NComment (lit "c").
Proof.
  eexists _, _, _, _, _, _, _. split; [reflexivity|]. split; [vm_compute; reflexivity|]. split; [vm_compute; reflexivity|].
  split; [vm_compute; reflexivity|]. split; [vm_compute; reflexivity|]. split; [vm_compute; reflexivity|].
  split; vm_compute; reflexivity.
Qed.
(** Predicates that look into the children do not commute. *)
Definition no_children (n : node) : bool := match n with NElem c => match e_children c with [] => true | _ => false end | _ => false end.
Definition called (s : string) (n : node) : bool := match n with NElem c => str_eqb (e_name c) (lit s) | _ => false end.
Theorem C87_deep_refuted : exists e1 k1 e2 k2 e1' k1' e2' k2',
  remove_all no_children (read "<r><a><b/></a></r>") = Ok (e1, k1) /\ remove_all (called "b") e1 = Ok (e2, k2) /\
  remove_all (called "b") (read "<r><a><b/></a></r>") = Ok (e1', k1') /\ remove_all no_children e1' = Ok (e2', k2') /\
  elem_eqb e2 e2' = false.
Proof.
  eexists _, _, _, _, _, _, _, _. split; [vm_compute; reflexivity|]. split; [vm_compute; reflexivity|].
  split; [vm_compute; reflexivity|]. split; vm_compute; reflexivity.
Qed.
(** Appending a blank text on its own loses it. *)
Theorem C87_blank_refuted : exists e1 e2 e3, append_all (el "a" []) [NText (lit " ")] = Ok e1 /\
  append_all e1 [NText (lit "x")] = Ok e2 /\ append_all (el "a" []) [NText (lit " "); NText (lit "x")] = Ok e3 /\
  children e2 = [NText (lit "x")] /\ children e3 = [NText (lit " x")].
Proof.
  eexists _, _, _. split; [vm_compute; reflexivity|]. split; [vm_compute; reflexivity|]. split; [vm_compute; reflexivity|].
  split; vm_compute; reflexivity.
Qed.
(** The theorems at work. *)
Lemma called_shallow s : shallow_only (called s).
Proof. now intros [c| | |]. Qed.
Example C87_example :
  shallow_only (called "b") /\ shallow_only (called "c") /\
  apart [0; 1] [0; 0; 2] /\
  element_at (read "<r><a><x/><b/></a></r>") [0; 1] = Some (el "b" []) /\
  exists e1 x, insert (read "<r>t<a/></r>") 1 (NComment (lit "c")) = Ok e1 /\ remove e1 1 = Ok (x, read "<r>t<a/></r>").
Proof.
  split; [apply called_shallow|]. split; [apply called_shallow|]. split; [now exists [0], 1, 0, [], [2]|].
  split; [vm_compute; reflexivity|]. eexists _, _. split; vm_compute; reflexivity.
Qed.
Example C87_read_example : exists d, parse_str ex_doc = Ok d /\ one_root ex_doc ex_pr ex_el /\
  children (root_element d) <> [] /\ element_at (root_element d) [] = Some (root_element d).
Proof.
  eexists. split; [vm_compute; reflexivity|]. split; [exact C35_example_one_root|]. split; [discriminate|reflexivity].
Qed.
Print Assumptions C87_insert_remove.
Print Assumptions C87_append_remove.
Print Assumptions C87_remove_insert.
Print Assumptions C87_at_home.
Print Assumptions C87_appended.
Print Assumptions C87_read.
Print Assumptions C87_set_attr.
Print Assumptions C87_remove_attr.
Print Assumptions C87_attributes_children.
Print Assumptions C87_attributes_fail.
Print Assumptions C87_two_attributes.
Print Assumptions C87_apart.
Print Assumptions C87_above.
Print Assumptions C87_remove_twice.
Print Assumptions C87_remove_by.
Print Assumptions C87_remove_all.
Print Assumptions C87_append_all.
Print Assumptions C87_at_home_refuted.
Print Assumptions C87_roots_refuted.
Print Assumptions C87_text_refuted.
Print Assumptions C87_deep_refuted.
Print Assumptions C87_blank_refuted.

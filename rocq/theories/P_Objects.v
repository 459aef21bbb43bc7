(** C77: nodes of types outside the crate. *)
From Coq Require Import List NArith Arith Bool Ascii String.
From Verif Require Import Base Escape Dom Nodes SpecDom Objects SpecObjects ObjectsFacts ObjectsMore ObjectsEq.
Import ListNotations.

(** The trees of Dom.v are those with nodes of the crate only. *)
Theorem C77_own_trees : forall (St : Type) (M : methods St) (mark : St -> str),
  (forall t, exists e, own e /\ meant M mark e = t) /\
  (forall e e', own e -> own e' -> meant M mark e = meant M mark e' -> e = e') /\
  (forall e, own e -> honest M e /\ ~ has_stranger M e).
Proof. intros St M mark. exact (conj (own_exists M mark) (conj (own_unique M mark) (own_honest M))). Qed.

(** Adding nodes to a tree is the same as adding what they stand for to what the tree
    stands for: the result, an error, or a panic; and the tree stays one of that kind. *)
Theorem C77_adding : forall (St : Type) (M : methods St) (mark : St -> str) (e : oelem St), honest M e ->
  (forall n, honest_obj M n -> carries (meant M mark) (honest M) (o_append M e n) (append (meant M mark e) (meant_obj M mark n))) /\
  (forall l, Forall (honest_obj M) l ->
     carries (meant M mark) (honest M) (o_append_all M e l) (append_all (meant M mark e) (map (meant_obj M mark) l))) /\
  (forall i n, honest_obj M n ->
     carries (meant M mark) (honest M) (o_insert M e i n) (insert (meant M mark e) i (meant_obj M mark n))) /\
  (forall t, carries (meant M mark) (honest M) (o_set_text M e t) (set_text (meant M mark e) t)).
Proof.
  intros St M mark e H.
  exact (conj (fun n => append_carried M mark e n H) (conj (fun l => append_all_carried M mark e l H)
    (conj (fun i n => insert_carried M mark e i n H) (fun t => set_text_carried M mark e t H)))).
Qed.
Theorem C77_new : forall (St : Type) (M : methods St) (mark : St -> str) nm text attrs ns px (l : option (list (obj_ St (oelem St)))),
  (forall l', l = Some l' -> Forall (honest_obj M) l') ->
  carries (meant M mark) (honest M) (o_element_new M nm text attrs ns px l)
    (element_new nm text attrs ns px (option_map (map (meant_obj M mark)) l)).
Proof. intros St M mark. exact (element_new_carried M mark). Qed.

(** So are looking children up and changing them. *)
Theorem C77_child_elements : forall (St : Type) (M : methods St) (mark : St -> str) (e : oelem St), honest M e ->
  carries (map (meant M mark)) (Forall (honest M)) (o_child_elements M e) (Ok (child_elements (meant M mark e))) /\
  (forall ns, carries (map (meant M mark)) (Forall (honest M)) (o_elements_by_namespace M e ns) (Ok (elements_by_namespace (meant M mark e) ns))) /\
  (forall p, carries (map (meant M mark)) (Forall (honest M)) (o_elements_by_namespace_prefix M e p) (Ok (elements_by_namespace_prefix (meant M mark e) p))) /\
  (forall n, carries (map (meant M mark)) (Forall (honest M)) (o_elements_by_name M e n) (Ok (elements_by_name (meant M mark e) n))) /\
  (forall n, carries (meant M mark) (honest M) (o_first_element_by_name M e n) (first_element_by_name (meant M mark e) n)) /\
  (forall f g, (forall c, honest M c -> honest M (f c) /\ meant M mark (f c) = g (meant M mark c)) ->
     carries (meant M mark) (honest M) (o_child_elements_mut M e f) (Ok (child_elements_mut (meant M mark e) g))).
Proof.
  intros St M mark e H.
  exact (conj (child_elements_carried M mark e H) (conj (fun ns => by_namespace_carried M mark e ns H) (conj (fun p => by_prefix_carried M mark e p H)
    (conj (fun n => by_name_carried M mark e n H) (conj (fun n => first_carried M mark e n H) (fun f g Hf => child_elements_mut_carried M mark e f g H Hf)))))).
Qed.
(** So are the searches and the text. *)
Theorem C77_search : forall (St : Type) (M : methods St) (mark : St -> str) (e : oelem St), honest M e ->
  carries (map (meant_obj M mark)) (Forall (honest_obj M)) (o_all_children M e) (Ok (all_children (meant M mark e))) /\
  (forall p q, (forall n, honest_obj M n -> p n = q (meant_obj M mark n)) ->
     carries (map (meant_obj M mark)) (Forall (honest_obj M)) (o_search M e p) (Ok (search (meant M mark e) q))) /\
  (forall p q, (forall c, honest M c -> p c = q (meant M mark c)) ->
     carries (map (meant M mark)) (Forall (honest M)) (o_search_elements M e p) (search_elements (meant M mark e) q)) /\
  (forall n, carries (map (meant M mark)) (Forall (honest M)) (o_search_elements_by_name M e n) (search_elements_by_name (meant M mark e) n)) /\
  (forall p, o_search_text M e p = search_text (meant M mark e) p) /\
  (forall p, o_search_comments M e p = search_comments (meant M mark e) p) /\
  o_text M e = elem_text (meant M mark e).
Proof.
  intros St M mark e H.
  exact (conj (all_children_carried M mark e H) (conj (fun p q Hp => search_carried M mark e p q H Hp) (conj (fun p q Hp => search_elements_carried M mark e p q H Hp)
    (conj (fun n => search_elements_by_name_carried M mark e n H) (conj (fun p => search_text_carried M mark e p H)
      (conj (fun p => search_comments_carried M mark e p H) (text_carried M mark e H))))))).
Qed.
(** So is removing. *)
Theorem C77_removing : forall (St : Type) (M : methods St) (mark : St -> str) (e : oelem St), honest M e ->
  (forall i, carries (fun r => (meant_obj M mark (fst r), meant M mark (snd r))) (fun r => honest_obj M (fst r) /\ honest M (snd r))
     (o_remove e i) (remove (meant M mark e) i)) /\
  (forall p q, (forall n, honest_obj M n -> p n = Ok (q (meant_obj M mark n))) ->
     carries (fun r => (meant M mark (fst r), snd r)) (fun r => honest M (fst r)) (o_remove_by e p) (remove_by (meant M mark e) q) /\
     carries (fun r => (meant M mark (fst r), snd r)) (fun r => honest M (fst r)) (o_remove_all M p e) (remove_all q (meant M mark e))) /\
  (forall p q, (forall c, honest M c -> p c = q (meant M mark c)) ->
     carries (fun r => (meant M mark (fst r), snd r)) (fun r => honest M (fst r)) (o_remove_elements M e p) (remove_elements (meant M mark e) q) /\
     carries (fun r => (meant M mark (fst r), snd r)) (fun r => honest M (fst r)) (o_remove_all_elements M p e) (remove_all_elements q (meant M mark e))) /\
  (forall n, carries (fun r => (meant M mark (fst r), snd r)) (fun r => honest M (fst r))
     (o_remove_elements_by_name M e n) (remove_elements_by_name (meant M mark e) n)).
Proof.
  intros St M mark e H.
  exact (conj (fun i => remove_carried M mark e i H)
    (conj (fun p q Hp => conj (remove_by_carried M mark e p q H Hp) (remove_all_carried M mark p q Hp e H))
      (conj (fun p q Hp => conj (remove_elements_carried M mark p q e Hp H) (remove_all_elements_carried M mark p q e Hp H))
        (fun n => remove_elements_by_name_carried M mark n e H)))).
Qed.

(** Copying panics exactly if there is a node in the tree that is none of the four, and
    gives otherwise a tree with nodes of the crate only that stands for the same. *)
Theorem C77_copy : forall (St : Type) (M : methods St) (mark : St -> str) (e : oelem St), honest M e ->
  (has_stranger M e /\ o_clone M e = Panic) \/
  (~ has_stranger M e /\ exists e', o_clone M e = Ok e' /\ own e' /\ meant M mark e' = meant M mark e).
Proof. intros St M mark. exact (clone_spec M mark). Qed.
(** [remove_element] hands out a copy: it takes the element out, and then panics if there is
    such a node in it. *)
Theorem C77_remove_element : forall (St : Type) (M : methods St) (mark : St -> str) (e : oelem St) (k : nat), honest M e ->
  (exists x, o_remove_element M e k = Err x /\ remove_element (meant M mark e) k = Err x) \/
  (exists c e' cs, o_remove_element M e k = Ok (o_clone M c, e') /\ honest M e' /\
     o_child_elements M e = Ok cs /\ nth_error cs k = Some c /\
     remove_element (meant M mark e) k = Ok (meant M mark c, meant M mark e')).
Proof. intros St M mark. exact (remove_element_spec M mark). Qed.
(** Comparing two trees gives what comparing the trees they stand for gives, or panics;
    it panics only if one of them has such a node, and if they are equal neither has. *)
Theorem C77_equality : forall (St : Type) (M : methods St) (mark : St -> str) (x y : oelem St), honest M x -> honest M y ->
  (o_eq M x y = Panic /\ (has_stranger M x \/ has_stranger M y)) \/
  (o_eq M x y = Ok (elem_eqb (meant M mark x) (meant M mark y)) /\
   (elem_eqb (meant M mark x) (meant M mark y) = true -> ~ has_stranger M x /\ ~ has_stranger M y)).
Proof. intros St M mark. exact (eq_spec M mark). Qed.
(** With such a node in it, a tree cannot be compared with itself. *)
Theorem C77_not_equal_to_itself : forall (St : Type) (M : methods St) (mark : St -> str) (x : oelem St), honest M x -> elem_ok (meant M mark x) ->
  (o_eq M x x = Panic <-> has_stranger M x) /\ (o_eq M x x = Ok true <-> ~ has_stranger M x).
Proof. intros St M mark. exact (eq_itself M mark). Qed.

(** Serialization is that of the tree it stands for; but nodes that are none of the four are
    written by their own method, with the indent (with none if the node is the only child). *)
Theorem C77_serialization : forall (St : Type) (M : methods St) (mark : St -> str) (e : oelem St) (indent : str), honest M e ->
  exists s, o_to_string_with_indent M e indent = Ok s /\
    filled (shown M mark (if validate_indent indent then indent else default_indent) e) s (elem_to_string_with_indent (meant M mark e) indent).
Proof. intros St M mark. exact (to_string_strangers M mark). Qed.
Theorem C77_serialization_plain : forall (St : Type) (M : methods St) (mark : St -> str) (e : oelem St) (indent : str), honest M e -> ~ has_stranger M e ->
  o_to_string_with_indent M e indent = Ok (elem_to_string_with_indent (meant M mark e) indent).
Proof. intros St M mark. exact (to_string_plain M mark). Qed.

(** A node that says it is an element but does not hand one out: adding it panics, and
    where there is one already, so do look-ups, searches, copying and writing. *)
Theorem C77_hollow_element : forall (St : Type) (M : methods St) (e : oelem St) (n : obj_ St (oelem St)), hollow_element M n ->
  o_append M e n = Panic /\
  (In n (o_children e) -> o_child_elements M e = Panic) /\
  (In n (o_children e) -> o_is_text M n = false -> forall indent, o_to_string_with_indent M e indent = Panic) /\
  (below M e n -> o_children_recursive M e = Panic /\ o_clone M e = Panic).
Proof.
  intros St M e n H. split; [now apply hollow_append|]. split; [intro I; now apply (hollow_child_elements M e n)|].
  split; [intros I X ind; now apply (hollow_to_string M e n)|]. intro B. split; [now apply (hollow_recursive M e n)|]. apply (hollow_clone M e n B). now left.
Qed.
(** One that says it is a text but does not hand one out cannot be added, either; for
    comments and CDATA sections this shows only when the tree is copied. *)
Theorem C77_hollow_text : forall (St : Type) (M : methods St) (e : oelem St) (n : obj_ St (oelem St)), hollow_text M n -> o_is_element M n = false ->
  o_append M e n = Panic /\ (below M e n -> o_clone M e = Panic).
Proof.
  intros St M e n H E. split; [now apply hollow_text_append|]. intro B. apply (hollow_clone M e n B). right. now left.
Qed.
Theorem C77_hollow_other : forall (St : Type) (M : methods St) (e : oelem St) (n : obj_ St (oelem St)), hollow_other M n ->
  below M e n -> o_clone M e = Panic.
Proof. intros St M e n H B. apply (hollow_clone M e n B). right. now right. Qed.

(** [node_type], where an implementation leaves it as it is, is a panic exactly for nodes
    that are none of the four; of several kinds the first in the order CDATA section, comment,
    element, text counts.  For nodes of the crate it is their kind. *)
Theorem C77_node_type : forall (St : Type) (M : methods St) (n : obj_ St (oelem St)),
  (default_node_type M n = Ok CDataNode <-> o_is_cdata M n = true) /\
  (default_node_type M n = Ok CommentNode <-> o_is_cdata M n = false /\ o_is_comment M n = true) /\
  (default_node_type M n = Ok ElementNode <-> o_is_cdata M n = false /\ o_is_comment M n = false /\ o_is_element M n = true) /\
  (default_node_type M n = Ok TextNode <->
     o_is_cdata M n = false /\ o_is_comment M n = false /\ o_is_element M n = false /\ o_is_text M n = true) /\
  (default_node_type M n = Panic <->
     o_is_cdata M n = false /\ o_is_comment M n = false /\ o_is_element M n = false /\ o_is_text M n = false) /\
  (forall e, o_node_type M (OElem e) = Ok ElementNode) /\ (forall t, o_node_type M (OText t) = Ok TextNode) /\
  (forall t, o_node_type M (OComment t) = Ok CommentNode) /\ (forall t, o_node_type M (OCData t) = Ok CDataNode).
Proof.
  intros St M n. unfold default_node_type. destruct (o_is_cdata M n), (o_is_comment M n), (o_is_element M n), (o_is_text M n);
    repeat split; try easy; intros H; try discriminate; try (destruct H as [? H]; try discriminate); try (destruct H as [? H]; try discriminate); easy.
Qed.

(** * Examples *)

(** A wrapper of an element, a text of another type, a processing instruction and nodes
    that do not tell the truth. *)
Inductive user := Wrapper | OtherText (t : str) | Instruction (t : str) | HollowElement | HollowText | HollowComment.
Fixpoint wrapped_text (e : oelem user) : str :=
  match e with
  | mkO _ ch _ _ _ _ =>
      flat_map (fun n => match n with
                         | OElem c => wrapped_text c
                         | OText t => t
                         | OUser Wrapper (Some c) => wrapped_text c
                         | OUser (OtherText t) _ => t
                         | _ => []
                         end) ch
  end.
Definition user_methods : methods user := mkMethods user
  (fun s i => match s with
              | Wrapper => match i with Some e => wrapped_text e | None => [] end
              | OtherText t => t | _ => [] end)
  (fun s => match s with Wrapper | HollowElement => true | _ => false end)
  (fun s => match s with OtherText _ | HollowText => true | _ => false end)
  (fun s => match s with HollowComment => true | _ => false end)
  (fun _ => false)
  (fun s => match s with Wrapper | HollowElement => Ok ElementNode | OtherText _ | HollowText => Ok TextNode | HollowComment => Ok CommentNode | Instruction _ => Panic end)
  (fun _ => None)
  (fun s => match s with OtherText t => Some t | _ => None end)
  (fun _ => None)
  (fun s _ ind => match s with OtherText t => text_escape t | Instruction t => lit "<?" ++ t ++ ind ++ lit "?>" | _ => [] end).
Definition tree (l : list (obj_ user (oelem user))) : oelem user := mkO (lit "a") l [] None None [].
Example wrapper : acts_as_element user_methods Wrapper.
Proof.
  repeat split. induction e as [e IH] using oelem_ind'. rewrite o_text_eq. destruct e as [nm ch at_ ns px cx]. cbn [o_children u_text user_methods wrapped_text] in *.
  induction ch as [|n ch IHch]; [easy|]. cbn [flat_map]. rewrite <- IHch by (intros n' c' I; apply (IH n' c'); now right). f_equal.
  destruct n as [c| | | |s i]; try easy; [|destruct s; try easy; now destruct i]. apply (IH (OElem c) c); [now left|easy].
Qed.
Example text_node : acts_as_text user_methods (OtherText (lit "x")) (lit "x").
Proof. now repeat split. Qed.
Example instruction : stranger user_methods (Instruction (lit "go")).
Proof. now repeat split. Qed.
Example tree_honest : honest user_methods
  (tree [OText (lit "x<"); OUser (Instruction (lit "go")) None; OElem (tree [OUser (OtherText (lit "y")) None]); OComment (lit "z");
    OUser Wrapper (Some (tree [OText (lit "w")]))]).
Proof.
  constructor. intros n [<-|[<-|[<-|[<-|[<-|[]]]]]]; try constructor; try exact instruction; try exact wrapper; [|constructor; intros n [<-|[]]; constructor].
  constructor. intros n [<-|[]]. now apply hon_as_text with (lit "y").
Qed.
Example writing : o_to_string_with_indent user_methods (tree [OUser (Instruction (lit "go")) None; OElem (tree [OUser (Instruction (lit "stop")) None])]) (lit "  ") =
  Ok (lit "<a>
  <?go  ?>
  <a><?stop?></a>
</a>").
Proof. vm_compute. reflexivity. Qed.
Example merging : o_append user_methods (tree [OText (lit "x")]) (OUser (OtherText (lit "y")) None) = Ok (tree [OText (lit "xy")]).
Proof. vm_compute. reflexivity. Qed.
Example copy_panics : o_clone user_methods (tree [OElem (tree [OUser (Instruction (lit "go")) None])]) = Panic.
Proof. vm_compute. reflexivity. Qed.
Example remove_then_panic : o_remove_element user_methods (tree [OText (lit "x"); OElem (tree [OUser (Instruction (lit "go")) None])]) 0 =
  Ok (Panic, tree [OText (lit "x")]).
Proof. vm_compute. reflexivity. Qed.
Example never_equal : o_eq user_methods (tree [OUser (Instruction (lit "go")) None]) (tree [OUser (Instruction (lit "go")) None]) = Panic /\
  o_eq user_methods (tree [OText (lit "x"); OUser (Instruction (lit "go")) None]) (tree [OText (lit "y"); OUser (Instruction (lit "go")) None]) = Ok false.
Proof. vm_compute. split; reflexivity. Qed.
Example hollow_nodes : hollow_element user_methods (OUser HollowElement None) /\ hollow_text user_methods (OUser HollowText None) /\
  hollow_other user_methods (OUser HollowComment None).
Proof. repeat split; try reflexivity. left. now split. Qed.
(** A hollow element can still get in: [insert] looks at the last child only. *)
Example hollow_inserted : o_insert user_methods (tree [OText (lit "x")]) 0 (OUser HollowElement None) =
  Ok (tree [OUser HollowElement None; OText (lit "x")]).
Proof. vm_compute. reflexivity. Qed.
Example hollow_comment_added : o_append user_methods (tree []) (OUser HollowComment None) = Ok (tree [OUser HollowComment None]) /\
  o_clone user_methods (tree [OUser HollowComment None]) = Panic.
Proof. vm_compute. split; reflexivity. Qed.
Print Assumptions C77_own_trees.
Print Assumptions C77_adding.
Print Assumptions C77_new.
Print Assumptions C77_child_elements.
Print Assumptions C77_search.
Print Assumptions C77_removing.
Print Assumptions C77_copy.
Print Assumptions C77_remove_element.
Print Assumptions C77_equality.
Print Assumptions C77_not_equal_to_itself.
Print Assumptions C77_serialization.
Print Assumptions C77_serialization_plain.
Print Assumptions C77_hollow_element.
Print Assumptions C77_hollow_text.
Print Assumptions C77_hollow_other.
Print Assumptions C77_node_type.

(** Properties C08-C10, C23: constructors, attributes, comments and CDATA,
    reachable elements. *)
From Coq Require Import List NArith Arith Bool Ascii String Lia Permutation.
From Verif Require Import Base Escape Dom BaseFacts Spec SpecDom SpecApi DomFacts ApiFacts.
Import ListNotations.

(** ** C08: constructors validate names exactly *)

(** [element_new nm text attrs xmlns prefix children] is Element::new; the
    other constructors are special cases of it. *)
Theorem C08_new_succeeds_iff : forall nm text attrs xmlns prefix ch,
  (exists e, element_new nm text attrs xmlns prefix ch = Ok e) <->
  valid_name nm /\ (forall m k v, attrs = Some m -> In (k, v) m -> valid_name k).
Proof. exact element_new_ok. Qed.
Theorem C08_bad_element_name : forall nm text attrs xmlns prefix ch,
  ~ valid_name nm -> element_new nm text attrs xmlns prefix ch = Err (InvalidElementName nm).
Proof. exact element_new_bad_name. Qed.
Theorem C08_bad_attribute_name : forall nm text attrs xmlns prefix ch m k v,
  valid_name nm -> attrs = Some m -> In (k, v) m -> ~ valid_name k ->
  exists k' v', In (k', v') m /\ ~ valid_name k' /\
    element_new nm text attrs xmlns prefix ch = Err (InvalidAttributeName k').
Proof. exact element_new_bad_attr. Qed.
(** What is built. *)
Theorem C08_new_result : forall nm text attrs xmlns prefix ch e,
  (forall m, attrs = Some m -> map_ok m) ->
  element_new nm text attrs xmlns prefix ch = Ok e ->
  name e = nm /\ namespace_prefix e = prefix /\
  (forall k, get_attr e k = match attrs with Some m => aget k m | None => None end) /\
  namespace e = match xmlns with
                | Some x => Some x
                | None => get_attr e (match prefix with None => lit "xmlns" | Some p => lit "xmlns:" ++ p end)
                end /\
  (forall p, aget p (get_namespace_context e) = get_attr e (lit "xmlns:" ++ p)) /\
  exists first rest,
    cleaned (match text with Some t => [NText t] | None => [] end) first /\
    Forall2 (adopted e) (match ch with Some l => l | None => [] end) rest /\
    cleaned (first ++ rest) (children e).
Proof. exact element_new_spec. Qed.
Theorem C08_new_from_name : forall nm,
  (valid_name nm -> new_from_name nm = Ok (mkElem nm [] [] None None [])) /\
  (~ valid_name nm -> new_from_name nm = Err (InvalidElementName nm)).
Proof. exact new_from_name_spec. Qed.
Theorem C08_other_constructors : forall nm a t l,
  new_from_name nm = element_new nm None None None None None /\
  new_with_attributes nm a = element_new nm None (Some a) None None None /\
  new_with_text nm t = element_new nm (Some t) None None None None /\
  new_with_attributes_and_text nm a t = element_new nm (Some t) (Some a) None None None /\
  new_with_attributes_and_children nm a l = element_new nm None (Some a) None None (Some l) /\
  new_with_children nm l = element_new nm None None None None (Some l).
Proof. intros. repeat split. Qed.
Example C08_example : valid_name (lit "a-1") /\ ~ valid_name (lit "1a") /\ ~ valid_name (lit "a b") /\ ~ valid_name [] /\
  exists e, element_new (lit "a") (Some (lit "t")) (Some [(lit "xmlns:p", lit "u")]) None (Some (lit "p"))
              (Some [NElem default_elem]) = Ok e /\
  namespace e = Some (lit "u") /\ List.length (children e) = 2.
Proof.
  split; [apply name_regex_spec; reflexivity|]. do 3 (split; [apply name_regex_false; reflexivity|]).
  eexists. split; [vm_compute; reflexivity|]. split; reflexivity.
Qed.

(** ** C09: attributes are a finite map *)

Theorem C09_set_attr : forall e k v,
  (valid_name k -> exists e', set_attr e k v = (Ok tt, e') /\
     get_attr e' k = Some v /\ (forall k', k' <> k -> get_attr e' k' = get_attr e k') /\
     e' = set_attributes e (attributes e')) /\
  (~ valid_name k -> set_attr e k v = (Err (InvalidAttributeName k), e)).
Proof. exact set_attr_spec. Qed.
Theorem C09_remove_attr : forall e k, map_ok (attributes e) -> exists e',
  remove_attr e k = (get_attr e k, e') /\ get_attr e' k = None /\
  (forall k', k' <> k -> get_attr e' k' = get_attr e k') /\ e' = set_attributes e (attributes e').
Proof. exact remove_attr_spec. Qed.
Theorem C09_history : forall e ops k v, map_ok (attributes e) ->
  (get_attr (do_attr_ops e ops) k = Some v <->
   (exists before after, ops = before ++ [SetAttr k v] ++ after /\ valid_name k /\
      forall op, In op after -> ~ touches k op) \/
   (get_attr e k = Some v /\ forall op, In op ops -> ~ touches k op)).
Proof. exact attr_history. Qed.
Theorem C09_history_changes_attributes_only : forall e ops, map_ok (attributes e) ->
  map_ok (attributes (do_attr_ops e ops)) /\
  do_attr_ops e ops = set_attributes e (attributes (do_attr_ops e ops)).
Proof. exact attr_history_ok. Qed.
Theorem C09_attributes : forall e k v, map_ok (attributes e) ->
  (In (k, v) (attributes e) <-> get_attr e k = Some v).
Proof. exact attributes_get. Qed.
Example C09_example :
  let e := do_attr_ops default_elem
    [SetAttr (lit "a") (lit "1"); SetAttr (lit "b") (lit "2"); SetAttr (lit "a") (lit "3");
     SetAttr (lit "c c") (lit "4"); RemoveAttr (lit "b")] in
  map_ok (attributes default_elem) /\ attributes e = [(lit "a", lit "3")].
Proof. split; [constructor|reflexivity]. Qed.

(** ** C10: comment and CDATA terminators *)

Theorem C10_comment_new : forall s,
  (substring (lit "-->") s -> comment_new s = Err (InvalidContent (lit "Comments cannot contain '-->'"))) /\
  (~ substring (lit "-->") s -> comment_new s = Ok s).
Proof. exact comment_new_spec. Qed.
Theorem C10_comment_set_content : forall old s,
  (substring (lit "-->") s -> comment_set_content old s = (Err (InvalidContent (lit "Comments cannot contain '-->'")), old)) /\
  (~ substring (lit "-->") s -> comment_set_content old s = (Ok tt, s)).
Proof. exact comment_set_spec. Qed.
Theorem C10_cdata_new : forall s,
  (substring (lit "]]>") s -> cdata_new s = Err (InvalidContent (lit "CDATA cannot contain ']]>' as content"))) /\
  (~ substring (lit "]]>") s -> cdata_new s = Ok s).
Proof. exact cdata_new_spec. Qed.
Theorem C10_cdata_set_text : forall old s,
  (substring (lit "]]>") s -> cdata_set_text old s = (Err (InvalidContent (lit "CDATA cannot contain ']]>'")), old)) /\
  (~ substring (lit "]]>") s -> cdata_set_text old s = (Ok tt, s)).
Proof. exact cdata_set_spec. Qed.
Theorem C10_comment_history : forall first updates,
  (substring (lit "-->") first -> comment_history first updates = Err (InvalidContent (lit "Comments cannot contain '-->'"))) /\
  (~ substring (lit "-->") first -> exists r, comment_history first updates = Ok r /\
     last_acceptable (lit "-->") (first :: updates) r).
Proof. exact comment_history_spec. Qed.
Theorem C10_cdata_history : forall first updates,
  (substring (lit "]]>") first -> cdata_history first updates = Err (InvalidContent (lit "CDATA cannot contain ']]>' as content"))) /\
  (~ substring (lit "]]>") first -> exists r, cdata_history first updates = Ok r /\
     last_acceptable (lit "]]>") (first :: updates) r).
Proof. exact cdata_history_spec. Qed.
Example C10_example :
  comment_history (lit "a") [lit "b - > --"; lit "c --> d"] = Ok (lit "b - > --") /\
  cdata_history (lit "a ]]>") [] = Err (InvalidContent (lit "CDATA cannot contain ']]>' as content")).
Proof. split; reflexivity. Qed.

(** ** C23: reachable elements keep their invariants *)

Theorem C23_built_elements_valid : forall e, built e -> elem_valid e.
Proof. exact (proj1 built_valid). Qed.
Theorem C23_built_nodes_valid : forall n, built_node n -> node_valid n.
Proof. exact (proj1 (proj2 built_valid)). Qed.
Theorem C23_calls_preserve_validity : forall e e', call e e' -> elem_valid e -> elem_valid e'.
Proof. exact (proj2 (proj2 built_valid)). Qed.
(** Validity is hereditary. *)
Theorem C23_descendants_valid : forall e, elem_valid e -> forall n, In n (descendants e) -> node_valid n.
Proof. exact descendants_valid. Qed.
Example C23_example : built
  (mkElem (lit "r") [NElem (mkElem (lit "c") [] [(lit "k", lit "v")] None None []); NComment (lit "hi")] [] None None []).
Proof.
  assert (built (mkElem (lit "r") [] [] None None [])) as B by now apply (b_new_from_name (lit "r")).
  assert (built (mkElem (lit "c") [] [] None None [])) as Bc by now apply (b_new_from_name (lit "c")).
  set (c := mkElem (lit "c") [] [] None None []) in *.
  set (c' := mkElem (lit "c") [] [(lit "k", lit "v")] None None []).
  set (r := mkElem (lit "r") [NElem c; NComment (lit "hi")] [] None None []).
  assert (built r) as Br.
  { eapply b_call; [exact B|]. apply (c_append_all _ [NElem c; NComment (lit "hi")]); [|reflexivity].
    intros n [<-|[<-|[]]]; [apply bn_elem; exact Bc|now apply (bn_comment (lit "hi"))]. }
  apply (b_call r); [exact Br|].
  apply (c_inside r [] c c' [NComment (lit "hi")]); [reflexivity|].
  exact (c_attr c (SetAttr (lit "k") (lit "v"))).
Qed.

Print Assumptions C08_new_succeeds_iff.
Print Assumptions C08_bad_element_name.
Print Assumptions C08_bad_attribute_name.
Print Assumptions C08_new_result.
Print Assumptions C08_new_from_name.
Print Assumptions C08_other_constructors.
Print Assumptions C09_set_attr.
Print Assumptions C09_remove_attr.
Print Assumptions C09_history.
Print Assumptions C09_history_changes_attributes_only.
Print Assumptions C09_attributes.
Print Assumptions C10_comment_new.
Print Assumptions C10_comment_set_content.
Print Assumptions C10_cdata_new.
Print Assumptions C10_cdata_set_text.
Print Assumptions C10_comment_history.
Print Assumptions C10_cdata_history.
Print Assumptions C23_built_elements_valid.
Print Assumptions C23_built_nodes_valid.
Print Assumptions C23_calls_preserve_validity.
Print Assumptions C23_descendants_valid.

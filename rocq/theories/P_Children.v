(** Properties C11-C22, C41, C53: child lists. *)
From Coq Require Import List NArith Arith Bool Ascii String Lia Permutation.
From Verif Require Import Base Escape Dom BaseFacts Spec SpecDom DomFacts.
Import ListNotations.

(** A sample tree for the non-vacuity examples. *)
Definition el (nm : string) (ch : list node) : elem := mkElem (lit nm) ch [] None None [].
Definition tx (s : string) : node := NText (lit s).
Definition sample : elem :=
  el "r" [tx "a"; NElem (el "x" [tx "b"; NComment (lit "c"); NElem (el "y" [tx "d"])]);
          NElem (el "y" []); NCData (lit "e"); tx "f"].

(** ** C11: text normal form after adding children *)

Theorem C11_append_normal : forall e n, exists e',
  append e n = Ok e' /\ text_normal (children e').
Proof. exact append_normal. Qed.
Theorem C11_append_all_normal : forall e ns, exists e',
  append_all e ns = Ok e' /\ text_normal (children e').
Proof. exact append_all_normal. Qed.
Theorem C11_set_text_normal : forall e t, exists e',
  set_text e t = Ok e' /\ text_normal (children e').
Proof. exact set_text_normal. Qed.
Theorem C11_insert_normal : forall e i n e',
  insert e i n = Ok e' -> text_normal (children e').
Proof. exact insert_normal. Qed.
Example C11_example : exists e', append_all sample [tx " "; tx "g"; NElem (el "z" []); tx "  "] = Ok e' /\
  children e' = [tx "a"; NElem (el "x" [tx "b"; NComment (lit "c"); NElem (el "y" [tx "d"])]);
          NElem (el "y" []); NCData (lit "e"); tx "f g"; NElem (el "z" [])].
Proof. eexists. split; vm_compute; reflexivity. Qed.

(** ** C12: clean-up loses nothing but blank text *)

(** Runs of text are concatenated and dropped only if blank, everything else is
    kept in place; [cleaned] is a total function of the child list. *)
Theorem C12_append_cleaned : forall e n, exists e' n',
  append e n = Ok e' /\ adopted e n n' /\ cleaned (children e ++ [n']) (children e').
Proof. exact append_spec. Qed.
Theorem C12_cleaned_function : forall l, exists! l', cleaned l l'.
Proof. exact cleaned_unique. Qed.
Theorem C12_non_text_kept : forall l l', cleaned l l' ->
  filter (fun n => negb (is_text n)) l' = filter (fun n => negb (is_text n)) l.
Proof. exact cleaned_non_text. Qed.
(** All characters survive except those of blank runs: with no blank run, the
    total text is unchanged. *)
Theorem C12_text_kept : forall l l', cleaned l l' ->
  filter (fun c => negb (is_whitespace c)) (flat_map text_of l') =
  filter (fun c => negb (is_whitespace c)) (flat_map text_of l).
Proof. exact cleaned_text. Qed.
Example C12_example : cleaned [tx "a"; tx " "; NElem (el "x" []); tx " "; tx "  "]
                              [tx "a "; NElem (el "x" [])].
Proof. apply cleaned_iff. vm_compute. reflexivity. Qed.

(** ** C13: append and append_all put nodes at the end *)

Theorem C13_append : forall e n, exists e' n',
  append e n = Ok e' /\ adopted e n n' /\ only_children_change e e' /\
  cleaned (children e ++ [n']) (children e').
Proof. exact append_at_end. Qed.
Theorem C13_append_all : forall e ns, exists e' ns',
  append_all e ns = Ok e' /\ Forall2 (adopted e) ns ns' /\ only_children_change e e' /\
  cleaned (children e ++ ns') (children e').
Proof. exact append_all_at_end. Qed.
Theorem C13_append_all_is_iterated_append : forall e ns,
  no_blank_text (children e) -> no_blank_text ns ->
  ns <> [] \/ no_adjacent_text (children e) ->
  append_all e ns = append_each e ns.
Proof. exact append_all_each. Qed.
(** The guard is needed: a blank text is lost when appended on its own. *)
Theorem C13_blank_guard_refuted : exists e ns, append_all e ns <> append_each e ns.
Proof. exists (el "r" []), [tx " "; tx "a"]. vm_compute. discriminate. Qed.
Example C13_example : no_blank_text (children sample) /\ no_blank_text [tx "g"; NElem (el "z" [])].
Proof. split; apply no_blank_keep; vm_compute; reflexivity. Qed.

(** ** C14: insert *)

Theorem C14_insert_out_of_bounds : forall e i n,
  List.length (children e) < i ->
  insert e i n = Err (IndexOutOfBounds i 0 (List.length (children e))).
Proof. exact insert_out_of_bounds. Qed.
Theorem C14_insert_in_bounds : forall e i n, i <= List.length (children e) ->
  exists e' front last last',
    insert e i n = Ok e' /\ only_children_change e e' /\
    firstn i (children e) ++ [n] ++ skipn i (children e) = front ++ [last] /\
    adopted e last last' /\ cleaned (front ++ [last']) (children e').
Proof. exact insert_in_bounds. Qed.
Example C14_example : exists e', insert sample 1 (NElem (el "z" [])) = Ok e' /\
  nth_error (children e') 1 = Some (NElem (el "z" [])) /\ List.length (children e') = 6.
Proof. eexists. split; [vm_compute; reflexivity|]. split; vm_compute; reflexivity. Qed.

(** ** C15: remove *)

Theorem C15_remove_in_bounds : forall e a x b, children e = a ++ [x] ++ b ->
  exists e', remove e (List.length a) = Ok (x, e') /\ only_children_change e e' /\ children e' = a ++ b.
Proof. exact remove_in_bounds. Qed.
Theorem C15_remove_out_of_bounds : forall e i, List.length (children e) <= i ->
  remove e i = Err (IndexOutOfBounds i 0 (List.length (children e))).
Proof. exact remove_out_of_bounds. Qed.
Example C15_example : exists e', remove sample 2 = Ok (NElem (el "y" []), e') /\ List.length (children e') = 4.
Proof. eexists. split; vm_compute; reflexivity. Qed.

(** ** C16: remove_by *)

Theorem C16_remove_by : forall e p, exists e' k,
  remove_by e p = Ok (e', k) /\ only_children_change e e' /\
  children e' = filter (fun n => negb (p n)) (children e) /\
  k = List.length (filter p (children e)).
Proof. exact remove_by_spec. Qed.
Example C16_example : exists e', remove_by sample is_text = Ok (e', 2) /\ List.length (children e') = 3.
Proof. eexists. split; vm_compute; reflexivity. Qed.

(** ** C17: remove_all *)

Theorem C17_remove_all_pruned : forall p e, exists e' k,
  remove_all p e = Ok (e', k) /\ only_children_change e e' /\
  pruned p (children e) (children e') k.
Proof. exact remove_all_spec. Qed.
Theorem C17_pruned_function : forall p l l1 k1 l2 k2,
  pruned p l l1 k1 -> pruned p l l2 k2 -> l1 = l2 /\ k1 = k2.
Proof. exact pruned_functional. Qed.
(** The same in terms of trails (a descendant with its ancestors below the
    receiver): survivors are the descendants none of whose trail matched, in
    document order; the count is the number of topmost matches. *)
Theorem C17_remove_all_trails : forall p e, exists e' k,
  remove_all p e = Ok (e', k) /\
  map (map shallow) (trails e') =
    map (map shallow) (filter (forallb (fun n => negb (p n))) (trails e)) /\
  k = List.length (filter (fun t => match rev t with
                                    | [] => false
                                    | n :: ancestors => p n && forallb (fun a => negb (p a)) ancestors
                                    end) (trails e)).
Proof. exact remove_all_trails_spec. Qed.
Theorem C17_remove_all_elements : forall p e,
  remove_all_elements p e = remove_all (fun n => match n with NElem c => p c | _ => false end) e.
Proof. exact remove_all_elements_eq. Qed.
Example C17_example :
  exists e', remove_all_elements (fun c => str_eqb (e_name c) (lit "y")) sample = Ok (e', 2) /\
  List.length (descendants sample) = 9 /\ List.length (descendants e') = 6.
Proof. eexists. split; [vm_compute; reflexivity|]. split; vm_compute; reflexivity. Qed.

(** ** C18: element-only removal *)

Theorem C18_remove_element : forall e k c, nth_error (child_elements e) k = Some c ->
  exists e' a b, remove_element e k = Ok (c, e') /\ only_children_change e e' /\
    children e = a ++ [NElem c] ++ b /\ children e' = a ++ b /\ List.length (elements_of a) = k.
Proof. exact remove_element_spec. Qed.
Theorem C18_remove_element_out_of_bounds : forall e k, List.length (child_elements e) <= k ->
  remove_element e k = Err (IndexOutOfBounds k 0 (List.length (child_elements e))).
Proof. exact remove_element_out_of_bounds. Qed.
Theorem C18_remove_elements : forall e p, exists e' k,
  remove_elements e p = Ok (e', k) /\ only_children_change e e' /\
  children e' = filter (fun n => match n with NElem c => negb (p c) | _ => true end) (children e) /\
  k = List.length (filter p (child_elements e)).
Proof. exact remove_elements_spec. Qed.
Theorem C18_remove_elements_by_name : forall e nm, exists e' k,
  remove_elements_by_name e nm = Ok (e', k) /\ only_children_change e e' /\
  picked (fun c => e_name c <> nm) (children e) (child_elements e') /\
  filter (fun n => negb (is_element n)) (children e') = filter (fun n => negb (is_element n)) (children e) /\
  k + List.length (child_elements e') = List.length (child_elements e).
Proof. exact remove_elements_by_name_spec. Qed.
Example C18_example : exists e', remove_element sample 1 = Ok (el "y" [], e') /\ List.length (children e') = 4.
Proof. eexists. split; vm_compute; reflexivity. Qed.

(** ** C19: set_text *)

Theorem C19_set_text : forall e t, exists e', set_text e t = Ok e' /\ only_children_change e e' /\
  (~ blank t -> children e' = [NText t] /\ elem_text e' = t) /\
  (blank t -> children e' = [] /\ elem_text e' = []).
Proof. exact set_text_spec. Qed.
Example C19_example : ~ blank (lit "x ") /\ ~ blank [] /\ blank (lit "  ").
Proof.
  repeat split; try (apply not_blank; vm_compute; reflexivity); [discriminate|repeat constructor].
Qed.

(** ** C20: look-up of children *)

Theorem C20_child_elements : forall e, picked (fun _ => True) (children e) (child_elements e).
Proof. exact child_elements_spec. Qed.
Theorem C20_elements_by_name : forall e nm,
  picked (fun c => name c = nm) (children e) (elements_by_name e nm).
Proof. exact elements_by_name_spec. Qed.
Theorem C20_elements_by_namespace : forall e ns,
  picked (fun c => namespace c = ns) (children e) (elements_by_namespace e ns).
Proof. exact elements_by_namespace_spec. Qed.
Theorem C20_elements_by_namespace_prefix : forall e p,
  picked (fun c => namespace_prefix c = p) (children e) (elements_by_namespace_prefix e p).
Proof. exact elements_by_namespace_prefix_spec. Qed.
Theorem C20_picked_function : forall P l r1 r2, picked P l r1 -> picked P l r2 -> r1 = r2.
Proof. exact picked_functional. Qed.
Theorem C20_first_element_by_name : forall e nm,
  (forall c, first_element_by_name e nm = Ok c <-> exists a b, children e = a ++ [NElem c] ++ b /\
     name c = nm /\ forall c', In (NElem c') a -> name c' <> nm) /\
  (first_element_by_name e nm = Err DoesNotExistError <->
     forall c, In (NElem c) (children e) -> name c <> nm).
Proof. exact first_element_by_name_spec. Qed.
Example C20_example : elements_by_name sample (lit "y") = [el "y" []] /\
  first_element_by_name sample (lit "y") = Ok (el "y" []) /\
  first_element_by_name sample (lit "q") = Err DoesNotExistError.
Proof. repeat split. Qed.

(** ** C21: recursive search *)

(** Every path below the element is visited exactly once. *)
Theorem C21_all_children : forall e, exists ps : list (list nat),
  NoDup ps /\ (forall p, In p ps <-> at_path (children e) p <> None) /\
  Permutation (map Some (all_children e)) (map (at_path (children e)) ps).
Proof. exact all_children_paths. Qed.
Theorem C21_all_children_descendants : forall e, Permutation (all_children e) (descendants e).
Proof. exact all_children_perm. Qed.
Theorem C21_search : forall e p, Permutation (search e p) (filter p (descendants e)).
Proof. exact search_perm. Qed.
Theorem C21_search_elements : forall e p, exists r, search_elements e p = Ok r /\
  Permutation (map (@NElem elem) r)
    (filter (fun n => match n with NElem c => p c | _ => false end) (descendants e)).
Proof. exact search_elements_perm. Qed.
Theorem C21_search_elements_by_name : forall e nm, exists r, search_elements_by_name e nm = Ok r /\
  Permutation (map (@NElem elem) r)
    (filter (fun n => match n with NElem c => if str_eq_dec (name c) nm then true else false | _ => false end)
       (descendants e)).
Proof. exact search_elements_by_name_perm. Qed.
Theorem C21_search_text : forall e p, exists r, search_text e p = Ok r /\
  Permutation (map (@NText elem) r)
    (filter (fun n => match n with NText s => p s | _ => false end) (descendants e)).
Proof. exact search_text_perm. Qed.
Theorem C21_search_comments : forall e p, exists r, search_comments e p = Ok r /\
  Permutation (map (@NComment elem) r)
    (filter (fun n => match n with NComment s => p s | _ => false end) (descendants e)).
Proof. exact search_comments_perm. Qed.
(** The order: first the children of the element, then those below each child element
    in turn; what is found comes in this order. *)
Theorem C21_order : forall e, all_children e = children e ++ flat_map all_children (child_elements e).
Proof. exact all_children_order. Qed.
Theorem C21_search_order : forall e,
  (forall p, search e p = filter p (all_children e)) /\
  (forall p r, search_elements e p = Ok r -> map (@NElem elem) r =
    filter (fun n => match n with NElem c => p c | _ => false end) (all_children e)) /\
  (forall p r, search_text e p = Ok r -> map (@NText elem) r =
    filter (fun n => match n with NText s => p s | _ => false end) (all_children e)) /\
  (forall p r, search_comments e p = Ok r -> map (@NComment elem) r =
    filter (fun n => match n with NComment s => p s | _ => false end) (all_children e)).
Proof. exact search_order. Qed.
(** It is not the order of the document. *)
Theorem C21_document_order_refuted : exists e, all_children e <> descendants e.
Proof. exists sample. vm_compute. discriminate. Qed.
Example C21_example : exists r, search_elements_by_name sample (lit "y") = Ok r /\
  List.length r = 2 /\ List.length (all_children sample) = 9 /\
  at_path (children sample) [1; 2; 0] = Some (tx "d").
Proof. eexists. repeat split. Qed.

(** ** C22: text() *)

Theorem C22_text : forall e, elem_text e = flat_map text_of (descendants e).
Proof. exact elem_text_eq. Qed.
(** [descendants] is document order: a node, then what is below it, then its
    following siblings. *)
Theorem C22_document_order : forall e,
  descendants e = flat_map (fun n => n :: match n with NElem c => descendants c | _ => [] end) (children e).
Proof. exact descendants_eq. Qed.
Example C22_example : elem_text sample = lit "abdf".
Proof. reflexivity. Qed.

(** ** C41: append inherits namespaces, insert does not *)

Theorem C41_append_adopts : forall e n, exists e' n',
  append e n = Ok e' /\ adopted e n n' /\ cleaned (children e ++ [n']) (children e').
Proof. exact append_spec. Qed.
Theorem C41_append_element : forall e c, exists e' c', append e (NElem c) = Ok e' /\
  (exists front, children e' = front ++ [NElem c']) /\
  (forall x, namespace c = Some x -> namespace c' = Some x) /\
  (namespace c = None -> namespace_prefix c = None -> namespace c' = inheritable e) /\
  (forall p, namespace c = None -> namespace_prefix c = Some p ->
     namespace c' = match aget p (get_namespace_context c) with
                    | Some v => Some v
                    | None => aget p (get_namespace_context e)
                    end).
Proof. exact append_element_ns. Qed.
Theorem C41_idempotent : forall e n n' n'', adopted e n n' -> adopted e n' n'' ->
  match n', n'' with
  | NElem c', NElem c'' => namespace c'' = namespace c' /\
      forall k, aget k (get_namespace_context c'') = aget k (get_namespace_context c')
  | _, _ => n'' = n'
  end.
Proof. exact adopted_idempotent. Qed.
(** insert gives the namespace to the last child instead of the inserted one. *)
Theorem C41_insert_refuted : exists e n e' c,
  insert e 0 n = Ok e' /\ nth_error (children e') 0 = Some (NElem c) /\
  inheritable e = Some (lit "u") /\ namespace c = None.
Proof.
  exists (mkElem (lit "r") [NElem (el "a" [])] [] (Some (lit "u")) None []), (NElem (el "b" [])).
  eexists _, _. split; [vm_compute; reflexivity|]. split; [vm_compute; reflexivity|]. split; reflexivity.
Qed.
Example C41_example :
  let parent := mkElem (lit "r") [] [] (Some (lit "u")) None [(lit "p", lit "v")] in
  exists e', append_all parent [NElem (el "a" []); NElem (mkElem (lit "b") [] [] None (Some (lit "p")) [])] = Ok e' /\
  map namespace (child_elements e') = [Some (lit "u"); Some (lit "v")].
Proof. eexists. split; vm_compute; reflexivity. Qed.

(** ** C53: updates through the _mut iterators *)

Theorem C53_child_elements_mut : forall e f,
  only_children_change e (child_elements_mut e f) /\
  modified (fun _ => True) (fun c c' => c' = f c) (children e) (children (child_elements_mut e f)).
Proof. exact child_elements_mut_spec. Qed.
Theorem C53_elements_by_name_mut : forall e nm f,
  only_children_change e (elements_by_name_mut e nm f) /\
  modified (fun c => name c = nm) (fun c c' => c' = f c) (children e) (children (elements_by_name_mut e nm f)).
Proof. exact elements_by_name_mut_spec. Qed.
Theorem C53_elements_by_namespace_mut : forall e ns f,
  only_children_change e (elements_by_namespace_mut e ns f) /\
  modified (fun c => namespace c = ns) (fun c c' => c' = f c) (children e) (children (elements_by_namespace_mut e ns f)).
Proof. exact elements_by_namespace_mut_spec. Qed.
Theorem C53_elements_by_namespace_prefix_mut : forall e p f,
  only_children_change e (elements_by_namespace_prefix_mut e p f) /\
  modified (fun c => namespace_prefix c = p) (fun c c' => c' = f c)
    (children e) (children (elements_by_namespace_prefix_mut e p f)).
Proof. exact elements_by_namespace_prefix_mut_spec. Qed.
Theorem C53_first_element_by_name_mut : forall e nm f,
  (forall a c b, children e = a ++ [NElem c] ++ b -> name c = nm ->
     (forall c', In (NElem c') a -> name c' <> nm) ->
     forall c', f c = Ok c' -> first_element_by_name_mut e nm f = Ok (set_children e (a ++ [NElem c'] ++ b))) /\
  ((forall c, In (NElem c) (children e) -> name c <> nm) ->
     first_element_by_name_mut e nm f = Err DoesNotExistError).
Proof. exact first_element_by_name_mut_spec. Qed.
Example C53_example :
  let e' := elements_by_name_mut sample (lit "y") (fun c => set_attributes c [(lit "k", lit "v")]) in
  map e_attributes (child_elements e') = [[]; [(lit "k", lit "v")]].
Proof. reflexivity. Qed.
Print Assumptions C11_append_normal.
Print Assumptions C11_append_all_normal.
Print Assumptions C11_set_text_normal.
Print Assumptions C11_insert_normal.
Print Assumptions C12_append_cleaned.
Print Assumptions C12_cleaned_function.
Print Assumptions C12_non_text_kept.
Print Assumptions C12_text_kept.
Print Assumptions C13_append.
Print Assumptions C13_append_all.
Print Assumptions C13_append_all_is_iterated_append.
Print Assumptions C13_blank_guard_refuted.
Print Assumptions C14_insert_out_of_bounds.
Print Assumptions C14_insert_in_bounds.
Print Assumptions C15_remove_in_bounds.
Print Assumptions C15_remove_out_of_bounds.
Print Assumptions C16_remove_by.
Print Assumptions C17_remove_all_pruned.
Print Assumptions C17_pruned_function.
Print Assumptions C17_remove_all_trails.
Print Assumptions C17_remove_all_elements.
Print Assumptions C18_remove_element.
Print Assumptions C18_remove_element_out_of_bounds.
Print Assumptions C18_remove_elements.
Print Assumptions C18_remove_elements_by_name.
Print Assumptions C19_set_text.
Print Assumptions C20_child_elements.
Print Assumptions C20_elements_by_name.
Print Assumptions C20_elements_by_namespace.
Print Assumptions C20_elements_by_namespace_prefix.
Print Assumptions C20_picked_function.
Print Assumptions C20_first_element_by_name.
Print Assumptions C21_all_children.
Print Assumptions C21_all_children_descendants.
Print Assumptions C21_search.
Print Assumptions C21_search_elements.
Print Assumptions C21_search_elements_by_name.
Print Assumptions C21_search_text.
Print Assumptions C21_search_comments.
Print Assumptions C21_order.
Print Assumptions C21_search_order.
Print Assumptions C21_document_order_refuted.
Print Assumptions C22_text.
Print Assumptions C22_document_order.
Print Assumptions C41_append_adopts.
Print Assumptions C41_append_element.
Print Assumptions C41_idempotent.
Print Assumptions C41_insert_refuted.
Print Assumptions C53_child_elements_mut.
Print Assumptions C53_elements_by_name_mut.
Print Assumptions C53_elements_by_namespace_mut.
Print Assumptions C53_elements_by_namespace_prefix_mut.
Print Assumptions C53_first_element_by_name_mut.

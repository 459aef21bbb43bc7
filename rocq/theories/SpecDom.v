(** Specification vocabulary for trees: only the data types [elem], [node] of
    Dom.v and the accessors of their fields are used, none of the algorithms, except for the section
    "Histories", which only iterates API calls. *)
From Coq Require Import List NArith Arith Bool Ascii String Permutation.
From Verif Require Import Base Dom Spec.
Import ListNotations.

(** * Trees *)

Definition kids (n : node) : list node :=
  match n with NElem e => e_children e | _ => [] end.

(** The node reached from a child list by following child indices. *)
Fixpoint at_path (l : list node) (path : list nat) : option node :=
  match path with
  | [] => None
  | i :: path' =>
      match nth_error l i with
      | None => None
      | Some n => match path' with [] => Some n | _ :: _ => at_path (kids n) path' end
      end
  end.

(** All proper descendants, in document order. *)
Fixpoint descendants (e : elem) : list node :=
  match e with
  | mkElem _ ch _ _ _ _ =>
      (fix go (l : list node) : list node :=
         match l with
         | [] => []
         | n :: l' =>
             n :: (match n with NElem c => descendants c | _ => [] end) ++ go l'
         end) ch
  end.

(** All proper descendants in document order, each with the chain of nodes
    leading to it: first the child of the receiver, last the node itself. *)
Fixpoint trails (e : elem) : list (list node) :=
  match e with
  | mkElem _ ch _ _ _ _ =>
      (fix go (l : list node) : list (list node) :=
         match l with
         | [] => []
         | n :: l' =>
             [n] :: map (cons n) (match n with NElem c => trails c | _ => [] end) ++ go l'
         end) ch
  end.

(** A node without what is below it. *)
Definition shallow (n : node) : node :=
  match n with NElem e => NElem (set_children e []) | _ => n end.

(** * Text *)

(** One or more whitespace characters and nothing else. *)
Definition blank (s : str) : Prop := s <> [] /\ Forall (fun c => is_whitespace c = true) s.

Definition no_adjacent_text (l : list node) : Prop :=
  forall a s t b, l <> a ++ [NText s; NText t] ++ b.
Definition no_blank_text (l : list node) : Prop := forall s, In (NText s) l -> ~ blank s.
Definition text_normal (l : list node) : Prop := no_adjacent_text l /\ no_blank_text l.

(** [cleaned l l']: [l'] is [l] with every maximal run of text nodes replaced by
    one text node holding the concatenation, or by nothing if that
    concatenation is blank. *)
Definition starts_with_text (l : list node) : Prop := exists s r, l = NText s :: r.
Inductive cleaned : list node -> list node -> Prop :=
| cl_nil : cleaned [] []
| cl_other n l l' : (forall s, n <> NText s) -> cleaned l l' -> cleaned (n :: l) (n :: l')
| cl_keep run l l' : run <> [] -> ~ starts_with_text l -> ~ blank (List.concat run) ->
    cleaned l l' -> cleaned (map (@NText elem) run ++ l) (NText (List.concat run) :: l')
| cl_drop run l l' : run <> [] -> ~ starts_with_text l -> blank (List.concat run) ->
    cleaned l l' -> cleaned (map (@NText elem) run ++ l) l'.

(** The contents of the text nodes of a list. *)
Definition text_of (n : node) : str := match n with NText s => s | _ => [] end.

(** [e'] differs from [e] at most in its children. *)
Definition only_children_change (e e' : elem) : Prop :=
  e_name e' = e_name e /\ e_attributes e' = e_attributes e /\ e_xmlns e' = e_xmlns e /\
  e_prefix e' = e_prefix e /\ e_context e' = e_context e.

(** * Pruning *)

(** [pruned p l l' k]: removing from the forest [l] every subtree whose root
    satisfies [p] leaves [l'], and [k] subtrees were removed.  [p] is always
    asked about the nodes of the original forest. *)
Inductive pruned (p : node -> bool) : list node -> list node -> nat -> Prop :=
| pr_nil : pruned p [] [] 0
| pr_cut n l l' k : p n = true -> pruned p l l' k -> pruned p (n :: l) l' (S k)
| pr_leaf n l l' k : p n = false -> (forall e, n <> NElem e) -> pruned p l l' k ->
    pruned p (n :: l) (n :: l') k
| pr_elem e ch' l l' k1 k2 : p (NElem e) = false ->
    pruned p (e_children e) ch' k1 -> pruned p l l' k2 ->
    pruned p (NElem e :: l) (NElem (set_children e ch') :: l') (k1 + k2).

(** * Names, validity *)

(** An ASCII letter or underscore followed by non-whitespace characters. *)
Definition valid_name (s : str) : Prop :=
  exists c r, s = c :: r /\
    (c = 95 \/ 65 <= c <= 90 \/ 97 <= c <= 122)%N /\
    Forall (fun x => is_whitespace x = false) r.

(** A hash map has each key once. *)
Definition map_ok (m : amap) : Prop := NoDup (map fst m).

(** Representation invariant of the hash maps of a whole tree. *)
Inductive elem_ok : elem -> Prop :=
| eo e : map_ok (e_attributes e) -> map_ok (e_context e) ->
    (forall c, In (NElem c) (e_children e) -> elem_ok c) -> elem_ok e.
Definition node_ok (n : node) : Prop := match n with NElem e => elem_ok e | _ => True end.

(** What every element built through the API satisfies, hereditarily. *)
Inductive elem_valid : elem -> Prop :=
| ev e : valid_name (e_name e) ->
    (forall k v, In (k, v) (e_attributes e) -> valid_name k) ->
    map_ok (e_attributes e) -> map_ok (e_context e) ->
    (forall c, In (NElem c) (e_children e) -> elem_valid c) ->
    (forall s, In (NComment s) (e_children e) -> ~ substring (lit "-->") s) ->
    (forall s, In (NCData s) (e_children e) -> ~ substring (lit "]]>") s) ->
    elem_valid e.
Definition node_valid (n : node) : Prop :=
  match n with
  | NElem e => elem_valid e
  | NText _ => True
  | NComment s => ~ substring (lit "-->") s
  | NCData s => ~ substring (lit "]]>") s
  end.

(** * Equality *)

(** Same name, namespace, prefix, same attribute bindings and pairwise equal
    children; the namespace context and the order of the attributes do not
    matter. *)
Inductive elem_same : elem -> elem -> Prop :=
| es e1 e2 : e_name e1 = e_name e2 -> e_xmlns e1 = e_xmlns e2 -> e_prefix e1 = e_prefix e2 ->
    Permutation (e_attributes e1) (e_attributes e2) ->
    nodes_same (e_children e1) (e_children e2) -> elem_same e1 e2
with nodes_same : list node -> list node -> Prop :=
| ns_nil : nodes_same [] []
| ns_leaf n l1 l2 : (forall e, n <> NElem e) -> nodes_same l1 l2 -> nodes_same (n :: l1) (n :: l2)
| ns_elem e1 e2 l1 l2 : elem_same e1 e2 -> nodes_same l1 l2 ->
    nodes_same (NElem e1 :: l1) (NElem e2 :: l2).
Scheme elem_same_mut := Minimality for elem_same Sort Prop
  with nodes_same_mut := Minimality for nodes_same Sort Prop.

(** * Serialization *)

(** Lexicographic order of strings by code point. *)
Definition str_lt (a b : str) : Prop :=
  (exists x r, b = a ++ x :: r) \/
  (exists p x y r s, a = p ++ x :: r /\ b = p ++ y :: s /\ (x < y)%N).

(** Order in which attributes are written: names starting with "xmlns" first,
    each group by name. *)
Definition xmlns_name (k : str) : Prop := exists r, k = lit "xmlns" ++ r.
Definition attr_before (x y : str * str) : Prop :=
  (xmlns_name (fst x) /\ ~ xmlns_name (fst y)) \/
  ((xmlns_name (fst x) <-> xmlns_name (fst y)) /\ str_lt (fst x) (fst y)).
(** [l] lists the attributes of the map [m] in that order. *)
Inductive in_order : list (str * str) -> Prop :=
| io_nil : in_order []
| io_cons x l : (forall y, In y l -> attr_before x y) -> in_order l -> in_order (x :: l).
Definition attrs_in_order (m l : amap) : Prop := Permutation m l /\ in_order l.

Definition attr_text (kv : str * str) : str :=
  lit " " ++ fst kv ++ lit "=" ++ [34%N] ++ flat_map (escape_char all_special) (snd kv) ++ [34%N].
Definition qualified (e : elem) : str :=
  match e_prefix e with None => e_name e | Some p => p ++ lit ":" ++ e_name e end.
Definition opening (e : elem) (attrs : amap) (close : str) : str :=
  lit "<" ++ qualified e ++ flat_map attr_text attrs ++ close.
Definition closing (e : elem) : str := lit "</" ++ qualified e ++ lit ">".
Definition leaf_text (n : node) (s : str) : Prop :=
  match n with
  | NElem _ => False
  | NText t => s = flat_map (escape_char text_special) t
  | NComment t => s = lit "<!--" ++ t ++ lit "-->"
  | NCData t => s = lit "<![CDATA[" ++ t ++ lit "]]>"
  end.

(** What is written for an element in mixed content: no whitespace at all. *)
Inductive inline_elem : elem -> str -> Prop :=
| ie_empty e l : attrs_in_order (e_attributes e) l -> e_children e = [] ->
    inline_elem e (opening e l (lit "/>"))
| ie_full e l s : attrs_in_order (e_attributes e) l -> e_children e <> [] ->
    inline_nodes (e_children e) s ->
    inline_elem e (opening e l (lit ">") ++ s ++ closing e)
with inline_nodes : list node -> str -> Prop :=
| in_nil : inline_nodes [] []
| in_leaf n s l r : leaf_text n s -> inline_nodes l r -> inline_nodes (n :: l) (s ++ r)
| in_elem e s l r : inline_elem e s -> inline_nodes l r -> inline_nodes (NElem e :: l) (s ++ r).

(** The general layout, for an element whose line starts with [pre]: an element
    that is empty, has a text child or has a single child that is not an element
    is written inline; otherwise each child is on a line of its own, indented by
    [ind] more than its parent. *)
Definition written_inline (e : elem) : Prop :=
  e_children e = [] \/ (exists t, In (NText t) (e_children e)) \/
  (exists n, e_children e = [n] /\ forall c, n <> NElem c).
Inductive layout (ind : str) : str -> elem -> str -> Prop :=
| la_inline pre e s : written_inline e -> inline_elem e s -> layout ind pre e (pre ++ s)
| la_block pre e l s : ~ written_inline e -> attrs_in_order (e_attributes e) l ->
    layout_lines ind (pre ++ ind) (e_children e) s ->
    layout ind pre e (pre ++ opening e l (lit ">") ++ [10%N] ++ s ++ pre ++ closing e)
with layout_lines (ind : str) : str -> list node -> str -> Prop :=
| ll_nil pre : layout_lines ind pre [] []
| ll_leaf pre n s l r : leaf_text n s -> layout_lines ind pre l r ->
    layout_lines ind pre (n :: l) (pre ++ s ++ [10%N] ++ r)
| ll_elem pre e s l r : layout ind pre e s -> layout_lines ind pre l r ->
    layout_lines ind pre (NElem e :: l) (s ++ [10%N] ++ r).

(** A tab or any number of spaces. *)
Definition good_indent (i : str) : Prop := i = [9%N] \/ Forall (fun c => c = 32%N) i.

(** * Selection *)

(** [picked P l r]: [r] are the elements of the child list [l] satisfying [P],
    in order. *)
Inductive picked (P : elem -> Prop) : list node -> list elem -> Prop :=
| pk_nil : picked P [] []
| pk_take e l r : P e -> picked P l r -> picked P (NElem e :: l) (e :: r)
| pk_skip n l r : (forall e, n = NElem e -> ~ P e) -> picked P l r -> picked P (n :: l) r.

(** [modified P F l l']: [l'] is [l] where each element [e] satisfying [P] is
    replaced by an element related to it by [F]; everything else is unchanged. *)
Inductive modified (P : elem -> Prop) (F : elem -> elem -> Prop) : list node -> list node -> Prop :=
| mo_nil : modified P F [] []
| mo_change e e' l l' : P e -> F e e' -> modified P F l l' ->
    modified P F (NElem e :: l) (NElem e' :: l')
| mo_same n l l' : (forall e, n = NElem e -> ~ P e) -> modified P F l l' -> modified P F (n :: l) (n :: l').

(** * Namespaces *)

(** The namespace an unprefixed child inherits. *)
Definition inheritable (parent : elem) : option str :=
  match e_prefix parent with None => e_xmlns parent | Some _ => None end.

(** [adopted parent n n']: [n'] is what [n] becomes when adopted by [parent].
    Only the namespace of an element and its table of known prefixes can
    change: bindings of the parent are added to the table without overriding,
    an unprefixed element without namespace takes the parent's default
    namespace, a prefixed one looks its prefix up in its table. *)
Definition adopted (parent : elem) (n n' : node) : Prop :=
  match n, n' with
  | NElem c, NElem c' =>
      e_name c' = e_name c /\ e_children c' = e_children c /\
      e_attributes c' = e_attributes c /\ e_prefix c' = e_prefix c /\
      (forall k, aget k (e_context c') =
         match aget k (e_context c) with Some v => Some v | None => aget k (e_context parent) end) /\
      e_xmlns c' = match e_xmlns c with
                   | Some x => Some x
                   | None => match e_prefix c with
                             | None => inheritable parent
                             | Some p => aget p (e_context c')
                             end
                   end
  | _, _ => n' = n
  end.

(** * Histories *)

(** Appending the nodes one at a time. *)
Fixpoint append_each (e : elem) (ns : list node) : outcome elem :=
  match ns with
  | [] => Ok e
  | n :: ns' => do e' <- append e n; append_each e' ns'
  end.

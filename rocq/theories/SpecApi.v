(** Histories of API calls: the only ways in which a program can build and
    change elements, comments and CDATA sections. *)
From Coq Require Import List NArith Arith Bool Ascii String.
From Verif Require Import Base Dom Spec SpecDom.
Import ListNotations.

(** * Attributes *)

Inductive attr_op :=
| SetAttr (k v : str)
| RemoveAttr (k : str)
| ClearAttrs.
Definition do_attr_op (e : elem) (op : attr_op) : elem :=
  match op with
  | SetAttr k v => snd (set_attr e k v)
  | RemoveAttr k => snd (remove_attr e k)
  | ClearAttrs => clear_attributes e
  end.
Definition do_attr_ops (e : elem) (ops : list attr_op) : elem := fold_left do_attr_op ops e.

(** The call has an effect on attribute [k]. *)
Definition touches (k : str) (op : attr_op) : Prop :=
  match op with
  | SetAttr k' _ => k' = k /\ valid_name k
  | RemoveAttr k' => k' = k
  | ClearAttrs => True
  end.

(** * Comments and CDATA *)

(** A comment created from the first text, then updated with the others. *)
Definition comment_history (first : str) (updates : list str) : outcome str :=
  do s <- comment_new first;
  Ok (fold_left (fun old s => snd (comment_set_content old s)) updates s).
Definition cdata_history (first : str) (updates : list str) : outcome str :=
  do s <- cdata_new first;
  Ok (fold_left (fun old s => snd (cdata_set_text old s)) updates s).

(** [r] is the last text of the list that does not contain [terminator]. *)
Definition last_acceptable (terminator : str) (l : list str) (r : str) : Prop :=
  exists a b, l = a ++ [r] ++ b /\ ~ substring terminator r /\
    forall s, In s b -> substring terminator s.

(** * Elements *)

(** [built e]: a program can obtain the element [e]; [built_node n] likewise for
    nodes; [call e e']: one API call with receiver [e], or a change made through
    a mutable reference to something below [e], leaves [e'] in its place. *)
Inductive built : elem -> Prop :=
| b_new nm text attrs xmlns prefix ch e :
    (forall l n, ch = Some l -> In n l -> built_node n) ->
    element_new nm text attrs xmlns prefix ch = Ok e -> built e
| b_new_from_name nm e : new_from_name nm = Ok e -> built e
| b_default : built default_elem
| b_clone e : built e -> built (clone_elem e)
| b_call e e' : built e -> call e e' -> built e'
| b_removed e i n e' : built e -> remove e i = Ok (n, e') -> (forall c, n = NElem c -> built c)
| b_removed_element e i c e' : built e -> remove_element e i = Ok (c, e') -> built c
| b_found e c : built e -> In (NElem c) (descendants e) -> built (clone_elem c)
with built_node : node -> Prop :=
| bn_elem e : built e -> built_node (NElem e)
| bn_text s : built_node (NText s)
| bn_comment s c : comment_new s = Ok c -> built_node (NComment c)
| bn_comment_from s c : comment_from s = Ok c -> built_node (NComment c)
| bn_comment_set c s : built_node (NComment c) -> built_node (NComment (snd (comment_set_content c s)))
| bn_cdata s c : cdata_new s = Ok c -> built_node (NCData c)
| bn_cdata_from s c : cdata_from s = Ok c -> built_node (NCData c)
| bn_cdata_set c s : built_node (NCData c) -> built_node (NCData (snd (cdata_set_text c s)))
| bn_removed e i n e' : built e -> remove e i = Ok (n, e') -> built_node n
| bn_clone n : built_node n -> built_node (clone_node n)
| bn_found e n : built e -> In n (descendants e) -> built_node (clone_node n)
with call : elem -> elem -> Prop :=
| c_attr e op : call e (do_attr_op e op)
| c_append e n e' : built_node n -> append e n = Ok e' -> call e e'
| c_append_all e l e' : (forall n, In n l -> built_node n) -> append_all e l = Ok e' -> call e e'
| c_insert e i n e' : built_node n -> insert e i n = Ok e' -> call e e'
| c_set_text e t e' : set_text e t = Ok e' -> call e e'
| c_clear e : call e (clear_children e)
| c_remove e i n e' : remove e i = Ok (n, e') -> call e e'
| c_remove_by e p e' k : remove_by e p = Ok (e', k) -> call e e'
| c_remove_all e p e' k : remove_all p e = Ok (e', k) -> call e e'
| c_remove_element e i c e' : remove_element e i = Ok (c, e') -> call e e'
| c_remove_elements e p e' k : remove_elements e p = Ok (e', k) -> call e e'
| c_remove_elements_by_name e nm e' k : remove_elements_by_name e nm = Ok (e', k) -> call e e'
| c_remove_all_elements e p e' k : remove_all_elements p e = Ok (e', k) -> call e e'
(** through [children_mut], [child_elements_mut], [elements_by_*_mut], ... *)
| c_inside e a c c' b : children e = a ++ [NElem c] ++ b -> call c c' ->
    call e (set_children e (a ++ [NElem c'] ++ b))
| c_assign e a n n' b : children e = a ++ [n] ++ b -> built_node n' ->
    call e (set_children e (a ++ [n'] ++ b))
| c_comment e a c s b : children e = a ++ [NComment c] ++ b ->
    call e (set_children e (a ++ [NComment (snd (comment_set_content c s))] ++ b))
| c_cdata e a c s b : children e = a ++ [NCData c] ++ b ->
    call e (set_children e (a ++ [NCData (snd (cdata_set_text c s))] ++ b)).
Scheme built_mut := Minimality for built Sort Prop
  with built_node_mut := Minimality for built_node Sort Prop
  with call_mut := Minimality for call Sort Prop.
Combined Scheme built_ind3 from built_mut, built_node_mut, call_mut.

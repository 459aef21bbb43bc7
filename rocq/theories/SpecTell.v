(** Telling elements apart by what calls do to them. *)
From Coq Require Import List NArith Arith Bool Ascii String.
From Verif Require Import Base Dom Spec SpecDom SpecOrders.
Import ListNotations.

(** A call on an element, with its arguments.  The last four go on with another
    element: the first child of a name, a child taken out, a clone, and an element
    into which this one is inserted. *)
Inductive call :=
| call_append (n : node) | call_append_all (l : list node) | call_insert (i : nat) (n : node)
| call_set_text (t : str) | call_clear_children
| call_set_attr (k v : str) | call_remove_attr (k : str) | call_clear_attributes
| call_remove (i : nat) | call_remove_by (p : node -> bool) | call_remove_all (p : node -> bool)
| call_remove_element (i : nat) | call_remove_elements (p : elem -> bool)
| call_remove_elements_by_name (nm : str) | call_remove_all_elements (p : elem -> bool)
| call_children_mut (f : node -> node)
| call_first (nm : str) | call_take (i : nat) | call_clone | call_insert_into (parent : elem) (i : nat).
Definition perform1 (c : call) (e : elem) : outcome elem :=
  match c with
  | call_append n => append e n
  | call_append_all l => append_all e l
  | call_insert i n => insert e i n
  | call_set_text t => set_text e t
  | call_clear_children => Ok (clear_children e)
  | call_set_attr k v => do _u <- fst (set_attr e k v); Ok (snd (set_attr e k v))
  | call_remove_attr k => Ok (snd (remove_attr e k))
  | call_clear_attributes => Ok (clear_attributes e)
  | call_remove i => do r <- remove e i; Ok (snd r)
  | call_remove_by p => do r <- remove_by e p; Ok (fst r)
  | call_remove_all p => do r <- remove_all p e; Ok (fst r)
  | call_remove_element i => do r <- remove_element e i; Ok (snd r)
  | call_remove_elements p => do r <- remove_elements e p; Ok (fst r)
  | call_remove_elements_by_name nm => do r <- remove_elements_by_name e nm; Ok (fst r)
  | call_remove_all_elements p => do r <- remove_all_elements p e; Ok (fst r)
  | call_children_mut f => Ok (children_mut e f)
  | call_first nm => first_element_by_name e nm
  | call_take i => do r <- remove_element e i; Ok (fst r)
  | call_clone => Ok (clone_elem e)
  | call_insert_into parent i => insert parent i (NElem e)
  end.
(** One call after the other, until one fails. *)
Fixpoint perform (cs : list call) (e : elem) : outcome elem :=
  match cs with
  | [] => Ok e
  | c :: cs' => do e' <- perform1 c e; perform cs' e'
  end.

(** [R] for nodes: leaves are the same. *)
Definition lifted (R : elem -> elem -> Prop) (n n' : node) : Prop :=
  match n, n' with
  | NElem a, NElem b => R a b
  | NElem _, _ => False
  | _, NElem _ => False
  | _, _ => n = n'
  end.
(** Arguments that do not themselves see more than [R] does. *)
Definition blind (R : elem -> elem -> Prop) (c : call) : Prop :=
  match c with
  | call_append n | call_insert _ n => lifted R n n
  | call_append_all l => Forall (fun n => lifted R n n) l
  | call_remove_by p | call_remove_all p => respects (lifted R) eq p
  | call_remove_elements p | call_remove_all_elements p => respects R eq p
  | call_children_mut f => respects (lifted R) (lifted R) f
  | call_insert_into parent _ => R parent parent
  | _ => True
  end.
(** The same error or panic, or values in relation. *)
Definition same_outcome {A} (R : A -> A -> Prop) (x y : outcome A) : Prop :=
  match x, y with
  | Ok a, Ok b => R a b
  | Err e, Err f => e = f
  | Panic, Panic => True
  | Fuel, Fuel => True
  | _, _ => False
  end.
(** After any calls of the kind, the elements compare equal, or both calls fail alike. *)
Definition not_told_apart (kind : call -> Prop) (e e' : elem) : Prop :=
  forall cs, Forall kind cs -> same_outcome (fun a b => elem_eqb a b = true) (perform cs e) (perform cs e').

(** Every prefix in the tree comes with a namespace. *)
Inductive bound : elem -> Prop :=
| bd e : (e_prefix e <> None -> e_xmlns e <> None) -> (forall c, In (NElem c) (e_children e) -> bound c) -> bound e.
(** Equal by [==], and prefixes with their namespaces. *)
Definition equal_bound (e e' : elem) : Prop :=
  elem_ok e /\ elem_ok e' /\ bound e /\ bound e' /\ elem_eqb e e' = true.

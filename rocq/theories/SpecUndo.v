(** Undoing changes, and making them in another order. *)
From Coq Require Import List NArith Arith Bool Ascii String.
From Verif Require Import Base Dom Spec SpecDom SpecTell.
Import ListNotations.

(** The child [n] of [e] has nothing to take over from [e]: it knows all prefixes that
    [e] knows, and if it has no namespace, [e] has none for it. *)
Definition at_home (e : elem) (n : node) : Prop :=
  match n with
  | NElem c =>
      (forall p, In p (map fst (get_namespace_context e)) -> In p (map fst (get_namespace_context c))) /\
      (namespace c = None -> match namespace_prefix c with
                             | None => default_namespace e = None
                             | Some p => ~ In p (map fst (get_namespace_context c))
                             end)
  | _ => True
  end.
Definition last_at_home (e : elem) : Prop := forall front last, children e = front ++ [last] -> at_home e last.

(** Calls that have to do with attributes, and calls that have to do with children. *)
Definition on_attributes (c : call) : Prop :=
  match c with call_set_attr _ _ | call_remove_attr _ | call_clear_attributes => True | _ => False end.
Definition on_children (c : call) : Prop :=
  match c with
  | call_append _ | call_append_all _ | call_insert _ _ | call_set_text _ | call_clear_children
  | call_remove _ | call_remove_by _ | call_remove_all _ | call_remove_element _ | call_remove_elements _
  | call_remove_elements_by_name _ | call_remove_all_elements _ | call_children_mut _ => True
  | _ => False
  end.
(** Setting or removing the attribute [k]. *)
Definition on_attribute (k : str) (c : call) : Prop :=
  match c with call_set_attr k' _ | call_remove_attr k' => k' = k | _ => False end.

(** Two places of a tree neither of which is above the other. *)
Definition apart (p q : list nat) : Prop :=
  exists common i j p' q', i <> j /\ p = common ++ i :: p' /\ q = common ++ j :: q'.

(** A predicate that does not look into the children. *)
Definition shallow_only (p : node -> bool) : Prop := forall n, p n = p (shallow n).

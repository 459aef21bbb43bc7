(** Specification of the parse tree as a plain stack machine building a rose
    tree, and the event sequence of a tree. *)
From Coq Require Import List NArith Arith Bool.
From Verif Require Import Base Dom Spec SpecDom ParseTree.
Import ListNotations.

(** Calls a parser makes. *)
Inductive pt_op :=
| OpPush (e : elem)
| OpAppend (n : node)
| OpPop.

(** One call; a call that reports an error leaves the tree as it was. *)
Definition pt_do (t : ptree) (op : pt_op) : outcome ptree :=
  match op with
  | OpPush e => pt_push t e
  | OpAppend n => pt_append t n
  | OpPop => pt_pop t
  end.
Definition recover (old : ptree) (r : outcome ptree) : outcome ptree :=
  match r with Err _ => Ok old | _ => r end.
Fixpoint pt_run (t : ptree) (ops : list pt_op) : outcome ptree :=
  match ops with
  | [] => Ok t
  | op :: ops' => do t' <- recover t (pt_do t op); pt_run t' ops'
  end.

(** The same calls on an abstract stack: the open elements, innermost first,
    each with the complete trees already below it. *)
Inductive rtree := RT (value : node) (below : list rtree).
Inductive machine :=
| MNew
| MOpen (e : elem) (below : list rtree) (outer : list (elem * list rtree))
| MDone (e : elem) (below : list rtree).
Definition m_do (m : machine) (op : pt_op) : option machine :=
  match op, m with
  | OpPush e, MNew => Some (MOpen e [] [])
  | OpPush e, MOpen e1 ks outer => Some (MOpen e [] ((e1, ks) :: outer))
  (* a second root takes the place of the first and keeps what is below it *)
  | OpPush e, MDone _ ks => Some (MOpen e ks [])
  | OpAppend n, MOpen e ks outer => Some (MOpen e (ks ++ [RT n []]) outer)
  | OpAppend _, _ => None
  | OpPop, MOpen e ks [] => Some (MDone e ks)
  | OpPop, MOpen e ks ((e1, ks1) :: outer) => Some (MOpen e1 (ks1 ++ [RT (NElem e) ks]) outer)
  | OpPop, _ => None
  end.
Fixpoint m_run (m : machine) (ops : list pt_op) : machine :=
  match ops with
  | [] => m
  | op :: ops' => m_run (match m_do m op with Some m' => m' | None => m end) ops'
  end.
Definition m_top (m : machine) : option elem :=
  match m with MOpen e _ _ => Some e | _ => None end.

(** The events of a tree.  A childless element may be appended in one go or
    pushed and popped. *)
Inductive events_of : elem -> list pt_op -> Prop :=
| evs e ops : below_events (e_children e) ops ->
    events_of e (OpPush (set_children e []) :: ops ++ [OpPop])
with below_events : list node -> list pt_op -> Prop :=
| be_nil : below_events [] []
| be_leaf n l ops : (forall e, n <> NElem e) -> below_events l ops ->
    below_events (n :: l) (OpAppend n :: ops)
| be_single e l ops : e_children e = [] -> below_events l ops ->
    below_events (NElem e :: l) (OpAppend (NElem e) :: ops)
| be_elem e l ops1 ops2 : events_of e ops1 -> below_events l ops2 ->
    below_events (NElem e :: l) (ops1 ++ ops2).
Scheme events_of_mut := Minimality for events_of Sort Prop
  with below_events_mut := Minimality for below_events Sort Prop.

(** Every child list of the tree is in text normal form. *)
Inductive tree_normal : elem -> Prop :=
| tn e : text_normal (e_children e) ->
    (forall c, In (NElem c) (e_children e) -> tree_normal c) -> tree_normal e.

(** [e'] is the tree [e] after each child has been adopted by its parent. *)
Inductive settled : elem -> elem -> Prop :=
| se e l : settled_below e (e_children e) l -> settled e (set_children e l)
with settled_below : elem -> list node -> list node -> Prop :=
| sb_nil p : settled_below p [] []
| sb_leaf p n l l' : (forall e, n <> NElem e) -> settled_below p l l' -> settled_below p (n :: l) (n :: l')
| sb_elem p e e1 n' l l' : settled e e1 -> adopted p (NElem e1) n' -> settled_below p l l' ->
    settled_below p (NElem e :: l) (n' :: l').
(** Adoption has nothing left to change: every child has its namespace and
    knows the prefixes its parent knows. *)
Inductive resolved : elem -> Prop :=
| rs e : (forall c, In (NElem c) (e_children e) -> adopted e (NElem c) (NElem c)) ->
    (forall c, In (NElem c) (e_children e) -> resolved c) -> resolved e.

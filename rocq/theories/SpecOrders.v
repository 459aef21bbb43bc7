(** When two trees differ only in the order of their hash maps, and when two
    results of a call do. *)
From Coq Require Import List NArith Arith Bool Ascii String Permutation.
From Verif Require Import Base Dom Parse Spec SpecDom Orders.
Import ListNotations.

(** Every loop over a map sees each entry once, in some order. *)
Definition fair (o : order) : Prop := forall place m, Permutation (o place m) m.

(** The same map: the same entries, each key once. *)
Definition same_map (a b : amap) : Prop := map_ok a /\ Permutation a b.
(** Trees that are the same up to the order of the entries of their maps.  Unlike
    [==] (C24) this includes the table of prefixes that an element hands down. *)
Inductive alike : elem -> elem -> Prop :=
| alike_elem e1 e2 : e_name e1 = e_name e2 -> e_xmlns e1 = e_xmlns e2 -> e_prefix e1 = e_prefix e2 ->
    same_map (e_attributes e1) (e_attributes e2) -> same_map (e_context e1) (e_context e2) ->
    alike_list (e_children e1) (e_children e2) -> alike e1 e2
with alike_node : node -> node -> Prop :=
| an_leaf n : (forall e, n <> NElem e) -> alike_node n n
| an_elem e1 e2 : alike e1 e2 -> alike_node (NElem e1) (NElem e2)
with alike_list : list node -> list node -> Prop :=
| al_nil : alike_list [] []
| al_cons n1 n2 l1 l2 : alike_node n1 n2 -> alike_list l1 l2 -> alike_list (n1 :: l1) (n2 :: l2).
Scheme alike_mut := Minimality for alike Sort Prop
  with alike_node_mut := Minimality for alike_node Sort Prop
  with alike_list_mut := Minimality for alike_list Sort Prop.
Combined Scheme alike_ind3 from alike_mut, alike_node_mut, alike_list_mut.
Definition alike_doc (a b : document) : Prop :=
  d_declaration a = d_declaration b /\ d_dtds a = d_dtds b /\ alike (d_root a) (d_root b).
Definition alike_option {A} (R : A -> A -> Prop) (a b : option A) : Prop :=
  match a, b with Some x, Some y => R x y | None, None => True | _, _ => False end.

(** The same error, except that of several invalid attribute names any may be
    named. *)
Definition alike_error (x y : error) : Prop :=
  x = y \/ exists k k', x = InvalidAttributeName k /\ y = InvalidAttributeName k'.
(** The same kind of result, with values related by [R]. *)
Definition alike_outcome {A} (R : A -> A -> Prop) (x y : outcome A) : Prop :=
  match x, y with
  | Ok a, Ok b => R a b
  | Err e, Err f => alike_error e f
  | Panic, Panic => True
  | Fuel, Fuel => True
  | _, _ => False
  end.
(** A predicate or a change made through a reference that does not itself depend
    on the order of a map. *)
Definition respects {A B} (R : A -> A -> Prop) (S : B -> B -> Prop) (f : A -> B) : Prop :=
  forall x y, R x y -> S (f x) (f y).

(** * Programs *)

(** A program that makes an element by calling the API.  What it is given from
    outside does not depend on the order of maps: given maps have each key once,
    predicates answer alike trees alike, updates turn alike trees into alike trees. *)
Inductive program :=
| New (nm : str) (text : option str) (attrs : option amap) (xmlns prefix : option str)
    (attrs_ok : forall m, attrs = Some m -> map_ok m)
| NewWithChildren (nm : str) (text : option str) (attrs : option amap) (xmlns prefix : option str) (children : pieces)
    (attrs_ok : forall m, attrs = Some m -> map_ok m)
| NewFromName (nm : str)
| RootOf (text : str)
| Append (s : program) (n : piece)
| AppendAll (s : program) (l : pieces)
| Insert (s : program) (i : nat) (n : piece)
| SetText (s : program) (t : str)
| ClearChildren (s : program)
| SetAttr (s : program) (k v : str)
| RemoveAttr (s : program) (k : str)
| ClearAttributes (s : program)
| Remove (s : program) (i : nat)
| RemoveElement (s : program) (i : nat)
| RemoveBy (s : program) (p : node -> bool) (p_ok : respects alike_node eq p)
| RemoveElements (s : program) (p : elem -> bool) (p_ok : respects alike eq p)
| RemoveElementsByName (s : program) (n : str)
| RemoveAll (s : program) (p : node -> bool) (p_ok : respects alike_node eq p)
| RemoveAllElements (s : program) (p : elem -> bool) (p_ok : respects alike eq p)
| UpdateChildren (s : program) (f : node -> node) (f_ok : respects alike_node alike_node f)
| UpdateByName (s : program) (n : str) (f : elem -> elem) (f_ok : respects alike alike f)
| UpdateFirst (s : program) (n : str) (f : elem -> outcome elem) (f_ok : respects alike (alike_outcome alike) f)
| TakeFirst (s : program) (n : str)
| TakeElement (s : program) (i : nat)
| Clone (s : program)
with piece :=
| Leaf (n : node) (n_ok : forall e, n <> NElem e)
| Made (s : program)
with pieces :=
| Nothing
| Then (n : piece) (l : pieces).
Scheme program_mut := Induction for program Sort Prop
  with piece_mut := Induction for piece Sort Prop
  with pieces_mut := Induction for pieces Sort Prop.
Combined Scheme program_ind3 from program_mut, piece_mut, pieces_mut.

(** Running a program; every call gets its own orders. *)
Fixpoint run (o : order) (s : program) : outcome elem :=
  match s with
  | New nm text attrs xmlns prefix _ => element_new_o (within 0 o) nm text attrs xmlns prefix None
  | NewWithChildren nm text attrs xmlns prefix l _ =>
      do l <- run_pieces (within 1 o) l; element_new_o (within 0 o) nm text attrs xmlns prefix (Some l)
  | NewFromName nm => new_from_name nm
  | RootOf text => do d <- parse_str_o (within 0 o) text; Ok (root_element d)
  | Append s n => do e <- run (within 1 o) s; do n <- run_piece (within 2 o) n; append_o (within 0 o) e n
  | AppendAll s l => do e <- run (within 1 o) s; do l <- run_pieces (within 2 o) l; append_all_o (within 0 o) e l
  | Insert s i n => do e <- run (within 1 o) s; do n <- run_piece (within 2 o) n; insert_o (within 0 o) e i n
  | SetText s t => do e <- run (within 1 o) s; set_text_o (within 0 o) e t
  | ClearChildren s => do e <- run o s; Ok (clear_children e)
  | SetAttr s k v => do e <- run o s; do _u <- fst (set_attr e k v); Ok (snd (set_attr e k v))
  | RemoveAttr s k => do e <- run o s; Ok (snd (remove_attr e k))
  | ClearAttributes s => do e <- run o s; Ok (clear_attributes e)
  | Remove s i => do e <- run o s; do r <- remove e i; Ok (snd r)
  | RemoveElement s i => do e <- run o s; do r <- remove_element e i; Ok (snd r)
  | RemoveBy s p _ => do e <- run o s; do r <- remove_by e p; Ok (fst r)
  | RemoveElements s p _ => do e <- run o s; do r <- remove_elements e p; Ok (fst r)
  | RemoveElementsByName s n => do e <- run o s; do r <- remove_elements_by_name e n; Ok (fst r)
  | RemoveAll s p _ => do e <- run o s; do r <- remove_all p e; Ok (fst r)
  | RemoveAllElements s p _ => do e <- run o s; do r <- remove_all_elements p e; Ok (fst r)
  | UpdateChildren s f _ => do e <- run o s; Ok (children_mut e f)
  | UpdateByName s n f _ => do e <- run o s; Ok (elements_by_name_mut e n f)
  | UpdateFirst s n f _ => do e <- run o s; first_element_by_name_mut e n f
  | TakeFirst s n => do e <- run o s; first_element_by_name e n
  | TakeElement s i => do e <- run o s; do r <- remove_element e i; Ok (fst r)
  | Clone s => do e <- run o s; Ok (clone_elem e)
  end
with run_piece (o : order) (n : piece) : outcome node :=
  match n with
  | Leaf n _ => Ok n
  | Made s => do e <- run o s; Ok (NElem e)
  end
with run_pieces (o : order) (l : pieces) : outcome (list node) :=
  match l with
  | Nothing => Ok []
  | Then n l => do n <- run_piece (within 0 o) n; do l <- run_pieces (within 1 o) l; Ok (n :: l)
  end.

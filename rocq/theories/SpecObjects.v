(** Specification vocabulary for nodes of types outside the crate. *)
From Coq Require Import List NArith Arith Bool Ascii String.
From Verif Require Import Base Escape Dom Objects.
Import ListNotations.

Definition outcome_map {A B} (f : A -> B) (x : outcome A) : outcome B := do a <- x; Ok (f a).
Definition if_ok {A} (P : A -> Prop) (x : outcome A) : Prop := forall a, x = Ok a -> P a.
(** The second outcome is the image of the first, and [P] holds for the result. *)
Definition carries {A B} (f : A -> B) (P : A -> Prop) (x : outcome A) (y : outcome B) : Prop := y = outcome_map f x /\ if_ok P x.

Section Objects.
Context {St : Type} (M : methods St).
Notation obj := (obj_ St (oelem St)).
Notation oelem := (oelem St).

(** * What a node can say about itself *)

Definition says_kind (s : St) (el tx co cd : bool) : Prop :=
  u_is_element M s = el /\ u_is_text M s = tx /\ u_is_comment M s = co /\ u_is_cdata M s = cd.
(** A wrapper of an element: it says it is an element and passes calls on. *)
Definition acts_as_element (s : St) : Prop :=
  says_kind s true false false false /\ u_node_type M s = Ok ElementNode /\
  forall e, u_text M s (Some e) = o_text M e.
(** It behaves like a text, a comment or a CDATA section with the content [t]. *)
Definition acts_as_text (s : St) (t : str) : Prop :=
  says_kind s false true false false /\ u_node_type M s = Ok TextNode /\ u_as_text M s = Some t /\
  forall i, u_text M s i = t /\ forall ind, u_to_string M s i ind = text_escape t.
Definition acts_as_comment (s : St) (t : str) : Prop :=
  says_kind s false false true false /\ u_node_type M s = Ok CommentNode /\ u_as_comment M s = Some t /\
  forall i ind, u_to_string M s i ind = lit "<!--" ++ t ++ lit "-->".
Definition acts_as_cdata (s : St) (t : str) : Prop :=
  says_kind s false false false true /\ u_node_type M s = Ok CDataNode /\ u_as_cdata M s = Some t /\
  forall i ind, u_to_string M s i ind = lit "<![CDATA[" ++ t ++ lit "]]>".
(** It says it is none of the four; [node_type] is the default, which panics then. *)
Definition stranger (s : St) : Prop :=
  says_kind s false false false false /\ u_node_type M s = Panic.

(** All nodes in the tree are those of the crate, behave like one of them, or say that
    they are none of them. *)
Inductive honest : oelem -> Prop :=
| hon e : (forall n, In n (o_children e) -> honest_obj n) -> honest e
with honest_obj : obj -> Prop :=
| hon_elem e : honest e -> honest_obj (OElem e)
| hon_text t : honest_obj (OText t)
| hon_comment t : honest_obj (OComment t)
| hon_cdata t : honest_obj (OCData t)
| hon_as_element s e : acts_as_element s -> honest e -> honest_obj (OUser s (Some e))
| hon_as_text s i t : acts_as_text s t -> honest_obj (OUser s i)
| hon_as_comment s i t : acts_as_comment s t -> honest_obj (OUser s i)
| hon_as_cdata s i t : acts_as_cdata s t -> honest_obj (OUser s i)
| hon_stranger s i : stranger s -> honest_obj (OUser s i).

(** There is a node in the tree that says it is none of the four. *)
Inductive has_stranger : oelem -> Prop :=
| hs_here e s i : In (OUser s i) (o_children e) -> stranger s -> has_stranger e
| hs_below e n c : In n (o_children e) -> o_is_element M n = true -> o_as_element n = Some c ->
    has_stranger c -> has_stranger e.

(** All nodes in the tree are of types of the crate. *)
Inductive own : oelem -> Prop :=
| own_e e : (forall s i, ~ In (OUser s i) (o_children e)) -> (forall c, In (OElem c) (o_children e) -> own c) -> own e.

(** The nodes in the tree. *)
Inductive below : oelem -> obj -> Prop :=
| bl_child e n : In n (o_children e) -> below e n
| bl_in e n c m : In n (o_children e) -> o_is_element M n = true -> o_as_element n = Some c -> below c m -> below e m.
(** Nodes that say they are an element or a text and then are not; nodes that say they
    are a comment or CDATA section only and then are not. *)
Definition hollow_element (n : obj) : Prop := o_is_element M n = true /\ o_as_element n = None.
Definition hollow_text (n : obj) : Prop := o_is_text M n = true /\ o_as_text M n = None.
Definition hollow_other (n : obj) : Prop :=
  o_is_element M n = false /\ o_is_text M n = false /\
  (o_is_comment M n = true /\ o_as_comment M n = None \/
   o_is_comment M n = false /\ o_is_cdata M n = true /\ o_as_cdata M n = None).

(** * The tree a tree stands for *)

(** Nodes become the nodes of the crate that they behave like; those that are none of
    the four become CDATA sections with the content [mark s]. *)
Variable mark : St -> str.
Fixpoint meant (e : oelem) : elem :=
  match e with
  | mkO nm ch at_ ns px cx =>
      mkElem nm
        (map (fun n => match n with
                       | OElem c => NElem (meant c)
                       | OText t => NText t
                       | OComment t => NComment t
                       | OCData t => NCData t
                       | OUser s i =>
                           if u_is_element M s then match i with Some c => NElem (meant c) | None => NCData [] end
                           else if u_is_text M s then match u_as_text M s with Some t => NText t | None => NCData [] end
                           else if u_is_comment M s then match u_as_comment M s with Some t => NComment t | None => NCData [] end
                           else if u_is_cdata M s then match u_as_cdata M s with Some t => NCData t | None => NCData [] end
                           else NCData (mark s)
                       end) ch)
        at_ ns px cx
  end.
Definition meant_obj (n : obj) : node :=
  match n with
  | OElem c => NElem (meant c)
  | OText t => NText t
  | OComment t => NComment t
  | OCData t => NCData t
  | OUser s i =>
      if u_is_element M s then match i with Some c => NElem (meant c) | None => NCData [] end
      else if u_is_text M s then match u_as_text M s with Some t => NText t | None => NCData [] end
      else if u_is_comment M s then match u_as_comment M s with Some t => NComment t | None => NCData [] end
      else if u_is_cdata M s then match u_as_cdata M s with Some t => NCData t | None => NCData [] end
      else NCData (mark s)
  end.

(** * What is written for strangers *)

(** [filled l x y]: [x] and [y] are the same but for the pairs of [l], found one after
    the other, the first parts in [x] and the second in [y]. *)
Inductive filled : list (str * str) -> str -> str -> Prop :=
| fl_nil : filled [] [] []
| fl_same c l x y : filled l x y -> filled l (c :: x) (c :: y)
| fl_hole a b l x y : filled l x y -> filled ((a, b) :: l) (a ++ x) (b ++ y).
(** What the strangers in the tree show, in document order, and the CDATA sections with
    their marks.  The indent is passed on, but an only child gets the empty one. *)
Fixpoint shown (indent : str) (e : oelem) : list (str * str) :=
  match e with
  | mkO _ ch _ _ _ _ =>
      flat_map (fun n => match n with
                         | OElem c => shown indent c
                         | OUser s (Some c) => if u_is_element M s then shown indent c
                             else if negb (u_is_text M s || u_is_comment M s || u_is_cdata M s)
                             then [(u_to_string M s (Some c) (match ch with [_] => [] | _ => indent end),
                                    lit "<![CDATA[" ++ mark s ++ lit "]]>")] else []
                         | OUser s None => if negb (u_is_element M s || u_is_text M s || u_is_comment M s || u_is_cdata M s)
                             then [(u_to_string M s None (match ch with [_] => [] | _ => indent end),
                                    lit "<![CDATA[" ++ mark s ++ lit "]]>")] else []
                         | _ => []
                         end) ch
  end.
End Objects.
Scheme honest_mut := Minimality for honest Sort Prop
  with honest_obj_mut := Minimality for honest_obj Sort Prop.

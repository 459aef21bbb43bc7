(** Model of the rest of the node and document API of src/dom.rs: literal
    versions of [clone_node] and [node_eq], [_mut] casts, orderings, stateful
    searches, mutable access to the parts of a document. *)
From Coq Require Import List NArith Arith Bool Ascii String.
From Verif Require Import Base Escape Dom.
Import ListNotations.

(** src/dom.rs:243-252 [Display for DomNodeType] *)
Definition node_type_to_string (t : node_type) : str :=
  match t with
  | CDataNode => lit "CDATA"
  | CommentNode => lit "Comment"
  | ElementNode => lit "Element"
  | TextNode => lit "Text"
  end.
Definition node_type_eqb (a b : node_type) : bool :=
  match a, b with
  | CDataNode, CDataNode | CommentNode, CommentNode | ElementNode, ElementNode | TextNode, TextNode => true
  | _, _ => false
  end.

(** src/dom.rs:375-387 [clone_node], with its tests and casts.  [Clone] of the
    leaves copies the string. *)
Definition clone_node_lit (n : node) : outcome node :=
  if is_element n then do e <- expect (as_element n); Ok (NElem (clone_elem e))
  else if is_text n then do s <- expect (as_text n); Ok (NText s)
  else if is_comment n then do s <- expect (as_comment n); Ok (NComment s)
  else if is_cdata n then do s <- expect (as_cdata n); Ok (NCData s)
  else Panic.

(** src/dom.rs:390-406 [node_eq]; == of elements is [elem_eqb] *)
Definition node_eq (n1 n2 : node) : outcome bool :=
  do t1 <- node_type_of n1;
  do t2 <- node_type_of n2;
  if negb (node_type_eqb t1 t2) then Ok false
  else match t1 with
       | CDataNode => do a <- expect (as_cdata n1); do b <- expect (as_cdata n2); Ok (str_eqb a b)
       | CommentNode => do a <- expect (as_comment n1); do b <- expect (as_comment n2); Ok (str_eqb a b)
       | ElementNode => do a <- expect (as_element n1); do b <- expect (as_element n2); Ok (elem_eqb a b)
       | TextNode => do a <- expect (as_text n1); do b <- expect (as_text n2); Ok (str_eqb a b)
       end.
(** src/dom.rs:1594-1609 [PartialEq for Element]: the loop over the indices.
    [eq_from k i] compares the children from index [i] on, [k] of them. *)
Fixpoint eq_from (k i : nat) (l1 l2 : list node) : outcome bool :=
  match k with
  | O => Ok true
  | S k' =>
      do a <- vget l1 i;
      do b <- vget l2 i;
      do r <- node_eq a b;
      if negb r then Ok false else eq_from k' (S i) l1 l2
  end.
Definition elem_eq_lit (x y : elem) : outcome bool :=
  if str_eqb (e_name x) (e_name y) && ostr_eqb (e_xmlns x) (e_xmlns y)
     && ostr_eqb (e_prefix x) (e_prefix y)
     && amap_eqb (e_attributes x) (e_attributes y)
     && (List.length (e_children x) =? List.length (e_children y))
  then eq_from (List.length (e_children x)) 0 (e_children x) (e_children y)
  else Ok false.

(** src/dom.rs:1527-1533, :1706-1712, :1826-1832, :1958-1964: mutable casts.
    The update [f] is made through the reference. *)
Definition as_element_mut (n : node) (f : elem -> elem) : outcome node :=
  match n with NElem e => Ok (NElem (f e)) | _ => Err (TypeCastError (cast_name n) (lit "Element")) end.
Definition as_text_mut (n : node) (f : str -> str) : outcome node :=
  match n with NText s => Ok (NText (f s)) | _ => Err (TypeCastError (cast_name n) (lit "Text")) end.
Definition as_comment_mut (n : node) (f : str -> str) : outcome node :=
  match n with NComment s => Ok (NComment (f s)) | _ => Err (TypeCastError (cast_name n) (lit "Comment")) end.
Definition as_cdata_mut (n : node) (f : str -> str) : outcome node :=
  match n with NCData s => Ok (NCData (f s)) | _ => Err (TypeCastError (cast_name n) (lit "CData")) end.

(** src/dom.rs:1731-1735, :1863-1867, :1995-1999 [PartialOrd] of the leaves *)
Definition text_partial_cmp (a b : str) : option comparison := Some (str_cmp a b).
Definition comment_partial_cmp (a b : str) : option comparison := Some (str_cmp a b).
Definition cdata_partial_cmp (a b : str) : option comparison := Some (str_cmp a b).

(** src/dom.rs:1045-1050 [search] with a predicate that has a state of its own
    ([FnMut]); the whole result is consumed. *)
Fixpoint filter_st {S A} (p : S -> A -> bool * S) (s : S) (l : list A) : list A * S :=
  match l with
  | [] => ([], s)
  | x :: l' =>
      let (b, s1) := p s x in
      let (r, s2) := filter_st p s1 l' in
      (if b then x :: r else r, s2)
  end.
Definition search_st {S} (p : S -> node -> bool * S) (s : S) (e : elem) : list node * S :=
  filter_st p s (children_recursive e).
(** src/dom.rs:1080-1087 [search_elements] *)
Definition search_elements_st {S} (p : S -> elem -> bool * S) (s : S) (e : elem) : outcome (list elem * S) :=
  do l <- map_expect as_element (search e is_element); Ok (filter_st p s l).

(** src/dom.rs:89-91 [doctype_defs_mut] *)
Definition doctype_defs_mut (d : document) (f : str -> str) : document :=
  mkDoc (d_declaration d) (map f (d_dtds d)) (d_root d).
(** src/dom.rs:199-201 [root_element_mut] *)
Definition root_element_mut (d : document) (f : elem -> elem) : document :=
  mkDoc (d_declaration d) (d_dtds d) (f (d_root d)).
(** src/dom.rs:2046-2055 [Declaration::new] and [default] *)
Definition declaration_new : outcome str :=
  expect (declaration_from_str (lit "<?xml version=""1.0"" encoding=""UTF-8""?>")).

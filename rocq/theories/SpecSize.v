(** Sizes of trees and documents, in bytes of UTF-8. *)
From Coq Require Import List NArith Arith Bool String.
From Verif Require Import Base Dom SpecDom.
Import ListNotations.

Definition sum {A} (f : A -> nat) (l : list A) : nat := list_sum (map f l).
(** What must at least be written for an attribute: a space, the name, an equals
    sign and the value in quotes. *)
Definition size_attr (kv : str * str) : nat := 4 + blen (fst kv) + blen (snd kv).
(** For an element: "<", the name, the attributes, "/>", and its children.
    Namespaces do not count, they follow from the attributes. *)
Fixpoint size_elem (e : elem) : nat :=
  match e with
  | mkElem nm ch at_ _ p _ =>
      3 + blen nm + match p with None => 0 | Some p => blen p + 1 end + sum size_attr at_ +
      sum (fun n => match n with
                    | NElem c => size_elem c
                    | NText s => blen s
                    | NComment s => 7 + blen s
                    | NCData s => 12 + blen s
                    end) ch
  end.
Definition size_node (n : node) : nat :=
  match n with NElem c => size_elem c | NText s => blen s | NComment s => 7 + blen s | NCData s => 12 + blen s end.
(** For a document: the declaration in "<?" and "?>", the DTDs in "<!DOCTYPE" and
    ">", and the root element. *)
Definition size_doc (d : document) : nat :=
  match d_declaration d with None => 0 | Some x => blen x + 4 end + sum (fun x => blen x + 10) (d_dtds d) + size_elem (d_root d).

(** The elements of a tree. *)
Fixpoint elements (e : elem) : list elem :=
  match e with
  | mkElem nm ch at_ ns p ctx => e :: flat_map (fun n => match n with NElem c => elements c | _ => [] end) ch
  end.
(** The bytes of the namespaces kept with the elements of a tree. *)
Definition size_namespaces (e : elem) : nat := sum (fun c => match namespace c with None => 0 | Some v => blen v end) (elements e).

(** The bytes of the table of prefixes in scope kept with an element, names and values. *)
Definition size_prefixes (e : elem) : nat := sum (fun kv => blen (fst kv) + blen (snd kv)) (e_context e).
(** [drawn_from P e]: attributes, namespace and prefixes of [e] are attributes of the list [P]. *)
Definition drawn_from (P : list (str * str)) (e : elem) : Prop :=
  incl (e_attributes e) P /\ (forall v, namespace e = Some v -> exists k, In (k, v) P) /\
  forall p v, aget p (e_context e) = Some v -> In (lit "xmlns:" ++ p, v) P.
(** "<a xmlns='uu...u'><a/><a/>...<a/></a>" with [n] letters u and [n] children, and a line break *)
Definition crowd (n : nat) : str :=
  lit "<a xmlns='" ++ repeat 117%N n ++ lit "'>" ++ List.concat (repeat (lit "<a/>") n) ++ lit "</a>" ++ [10%N].

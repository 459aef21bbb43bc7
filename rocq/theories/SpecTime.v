(** Measures for the time of writing: nodes and bytes of a tree. *)
From Coq Require Import List NArith Arith Bool String.
From Verif Require Import Base Dom SpecSize.
Import ListNotations.

(** The nodes of a tree. *)
Fixpoint nodes (e : elem) : nat :=
  match e with
  | mkElem _ ch _ _ _ _ => 1 + sum (fun n => match n with NElem c => nodes c | _ => 1 end) ch
  end.
(** Nodes and bytes together; the nodes matter only where there are empty texts. *)
Definition heft (e : elem) : nat := nodes e + size_elem e.
Definition heft_node (n : node) : nat := match n with NElem c => heft c | _ => 1 + size_node n end.
(** The bytes of the tags of one element. *)
Definition head_size (e : elem) : nat :=
  3 + blen (e_name e) + match e_prefix e with None => 0 | Some p => blen p + 1 end + sum size_attr (e_attributes e).
(** For each element of a tree the square of the number of its children. *)
Definition squares (e : elem) : nat := sum (fun c => List.length (e_children c) * List.length (e_children c)) (elements e).
(** What an element keeps about itself, without attributes and children: name, prefix,
    namespace, and the prefixes in force. *)
Definition kept_size (e : elem) : nat :=
  blen (e_name e) + match e_prefix e with None => 0 | Some p => blen p end + match e_xmlns e with None => 0 | Some x => blen x end +
  sum (fun kv => 1 + blen (fst kv) + blen (snd kv)) (e_context e).
Definition kept_node (n : node) : nat := match n with NElem e => kept_size e | _ => 0 end.
(** Children: one for each, and the bytes of texts. *)
Definition row_size (l : list node) : nat := sum (fun n => 1 + match n with NText t => blen t | _ => 0 end) l.

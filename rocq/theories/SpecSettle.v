(** Specification of what is left of texts side by side, of empty texts and of blank
    texts, when a tree is written and read again. *)
From Coq Require Import List NArith Arith Bool Ascii String.
From Verif Require Import Base Escape Dom Spec SpecDom SpecWhite SpecMade.
Import ListNotations.

(** A text that is empty or white space leaves nothing. *)
Definition said (t : str) : list node := if white t then [] else [NText t].
(** [settled e]: in [e] and in every element below it, texts side by side are joined
    into one, and what is then empty or white space is left out; nothing else is
    changed.  [t] is the text seen since the last node that is not a text. *)
Fixpoint settled (e : elem) : elem :=
  match e with
  | mkElem nm ch at_ x p ctx =>
      mkElem nm
        ((fix row (t : str) (l : list node) {struct l} : list node :=
            match l with
            | [] => said t
            | NText s :: l' => row (t ++ s) l'
            | NElem c :: l' => said t ++ NElem (settled c) :: row [] l'
            | n :: l' => said t ++ n :: row [] l'
            end) [] ch) at_ x p ctx
  end.
Definition settled_doc (d : document) : document := mkDoc (d_declaration d) (d_dtds d) (settled (d_root d)).
(** Nothing to settle, here or below. *)
Inductive at_rest : elem -> Prop :=
| ar e : no_adjacent_text (e_children e) -> (forall t, In (NText t) (e_children e) -> white t = false) ->
    (forall c, In (NElem c) (e_children e) -> at_rest c) -> at_rest e.
(** The same arguments, but no empty texts. *)
Definition filled (K : kinds) : kinds :=
  Kinds (k_name K) (k_key K) (k_value K) (fun t => t <> [] /\ k_text K t) (k_comment K) (k_cdata K) (k_namespaces K).
Definition settled_node (n : node) : node := match n with NElem c => NElem (settled c) | _ => n end.
(** The characters of a text that are not white space. *)
Definition inked (t : str) : str := filter (fun c => negb (is_whitespace c)) t.

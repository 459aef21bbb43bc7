(** Changing one place of a tree, and the part of the text that belongs to it. *)
From Coq Require Import List NArith Arith Bool Ascii String.
From Verif Require Import Base Dom Spec SpecDom.
Import ListNotations.

(** The element reached from [e] by child indices; [] is [e] itself. *)
Fixpoint element_at (e : elem) (path : list nat) : option elem :=
  match path with
  | [] => Some e
  | i :: path' => match nth_error (children e) i with Some (NElem c) => element_at c path' | _ => None end
  end.
(** [e] with [c'] in place of the element at [path]; nothing else changes. *)
Fixpoint put_element (path : list nat) (c' e : elem) : elem :=
  match path with
  | [] => c'
  | i :: path' =>
      match nth_error (children e) i with
      | Some (NElem c) =>
          mkElem (e_name e) (firstn i (children e) ++ NElem (put_element path' c' c) :: skipn (S i) (children e))
            (e_attributes e) (e_xmlns e) (e_prefix e) (e_context e)
      | _ => e
      end
  end.
(** An element with other children, or with other attributes. *)
Definition other_children (e : elem) (l : list node) : elem :=
  mkElem (e_name e) l (e_attributes e) (e_xmlns e) (e_prefix e) (e_context e).
Definition other_attributes (e : elem) (m : amap) : elem :=
  mkElem (e_name e) (e_children e) m (e_xmlns e) (e_prefix e) (e_context e).
(** Some element on the way from [e] to the one at [path], both included, has a text
    child. *)
Definition mixed (e : elem) (path : list nat) : Prop :=
  exists up down d t, path = up ++ down /\ element_at e up = Some d /\ In (NText t) (children d).
(** Both elements, both texts, or both neither. *)
Definition same_sort (a b : node) : Prop :=
  match a, b with
  | NElem _, NElem _ => True
  | NText _, NText _ => True
  | (NComment _ | NCData _), (NComment _ | NCData _) => True
  | _, _ => False
  end.
(** The indentation of the children of the element at [path]. *)
Definition indentation (ind : str) (path : list nat) : str := List.concat (repeat ind (S (List.length path))).
(** What is written for a child of the element at [path]. *)
Inductive part (ind : str) (e : elem) (path : list nat) : node -> str -> Prop :=
| part_leaf n s : leaf_text n s -> part ind e path n s
| part_inline c s : mixed e path -> inline_elem c s -> part ind e path (NElem c) s
| part_lines c s : ~ mixed e path -> layout ind (indentation ind path) c s -> part ind e path (NElem c) s.
(** Its line: the layout of an element begins with the indentation, to that of
    another node it is added. *)
Inductive line (ind : str) (e : elem) (path : list nat) : node -> str -> Prop :=
| line_leaf n s : leaf_text n s -> line ind e path n (indentation ind path ++ s ++ [10%N])
| line_elem c s : part ind e path (NElem c) s -> line ind e path (NElem c) (s ++ [10%N]).

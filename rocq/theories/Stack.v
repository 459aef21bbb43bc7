(** The recursive functions of src/dom.rs again, with a bound on the stack: [k] is the
    number of nested activations of the function that the stack has room for.  One
    more and the program is aborted ([Overflow]).  Activations of other functions
    have constant depth and are not counted: of the functions of src/lib.rs and
    src/parsing.rs none is recursive, nor are those of src/dom.rs not listed here.  Here, unlike in Dom.v, the functions
    recurse on [k], as written in the source. *)
From Coq Require Import List NArith Arith Bool String.
From Verif Require Import Base Escape Dom.
Import ListNotations.

Inductive stacked (A : Type) : Type :=
| Fits (a : A)
| Overflow.
Arguments Fits {A} a.
Arguments Overflow {A}.

Definition sbind {A B} (x : stacked A) (f : A -> stacked B) : stacked B :=
  match x with Fits a => f a | Overflow => Overflow end.

(** src/dom.rs:1492-1501 [text()] of an Element *)
Fixpoint text_s (k : nat) (e : elem) : stacked str :=
  match k with
  | O => Overflow
  | S k' =>
      (fix go (l : list node) : stacked str :=
         match l with
         | [] => Fits []
         | NText s :: l' => sbind (go l') (fun r => Fits (s ++ r))
         | NElem c :: l' => sbind (text_s k' c) (fun t => sbind (go l') (fun r => Fits (t ++ r)))
         | NComment _ :: l' => go l'
         | NCData _ :: l' => go l'
         end) (e_children e)
  end.

(** src/dom.rs:1415-1486 [to_string_with_prefix_and_indent] *)
Fixpoint elem_to_string_s (k : nat) (prefix indent : str) (inline : bool) (e : elem) : stacked str :=
  match k with
  | O => Overflow
  | S k' =>
      let tag := tag_name e in
      let out := (if inline then [] else prefix) ++ sLt ++ tag ++ attrs_to_string (e_attributes e) in
      match e_children e with
      | [] => Fits (out ++ lit "/>")
      | c0 :: rest =>
          if (match rest with [] => true | _ => false end) && negb (is_element c0)
          then Fits (out ++ sGt ++ leaf_to_string c0 ++ lit "</" ++ tag ++ sGt)
          else
            let inline := inline || existsb is_text (e_children e) in
            let next_prefix := prefix ++ indent in
            sbind
              ((fix go (l : list node) : stacked str :=
                  match l with
                  | [] => Fits []
                  | c :: l' =>
                      sbind (match c with
                             | NText t => Fits (text_escape t)
                             | NElem e' => elem_to_string_s k' next_prefix indent inline e'
                             | NComment _ | NCData _ =>
                                 Fits ((if inline then [] else next_prefix) ++ leaf_to_string c)
                             end) (fun t =>
                      sbind (go l') (fun r => Fits (t ++ (if inline then [] else [cNL]) ++ r)))
                  end) (e_children e))
              (fun inner =>
                 Fits (out ++ sGt ++ (if inline then [] else [cNL]) ++ inner ++
                       (if inline then [] else prefix) ++ lit "</" ++ tag ++ sGt))
      end
  end.
(** src/dom.rs:1543-1551 *)
Definition elem_to_string_with_indent_s (k : nat) (e : elem) (indent : str) : stacked str :=
  if validate_indent indent then elem_to_string_s k [] indent false e
  else elem_to_string_s k [] default_indent false e.
(** src/dom.rs:128-152 *)
Definition doc_to_string_with_indent_s (k : nat) (d : document) (indent : str) : stacked str :=
  let indent := if validate_indent indent then indent else default_indent in
  sbind (elem_to_string_with_indent_s k (d_root d) indent) (fun t =>
  Fits ((match d_declaration d with
         | None => []
         | Some decl => declaration_to_string decl ++ [cNL]
         end) ++
        flat_map (fun dtd => dtd_to_string dtd ++ [cNL]) (d_dtds d) ++ t ++ [cNL])).

(** src/dom.rs:1558-1573 [Clone for Element] with [clone_node] (:375-387) *)
Fixpoint clone_s (k : nat) (e : elem) : stacked elem :=
  match k with
  | O => Overflow
  | S k' =>
      sbind
        ((fix go (l : list node) : stacked (list node) :=
            match l with
            | [] => Fits []
            | c :: l' =>
                sbind (match c with
                       | NElem c' => sbind (clone_s k' c') (fun x => Fits (NElem x))
                       | NText s => Fits (NText s)
                       | NComment s => Fits (NComment s)
                       | NCData s => Fits (NCData s)
                       end) (fun x =>
                sbind (go l') (fun r => Fits (x :: r)))
            end) (e_children e))
        (fun new_children => Fits (set_children e new_children))
  end.

(** src/dom.rs:1594-1609 [PartialEq for Element] with [node_eq] (:390-406) *)
Fixpoint eq_s (k : nat) (e1 e2 : elem) : stacked bool :=
  match k with
  | O => Overflow
  | S k' =>
      if str_eqb (e_name e1) (e_name e2) && ostr_eqb (e_xmlns e1) (e_xmlns e2)
         && ostr_eqb (e_prefix e1) (e_prefix e2) && amap_eqb (e_attributes e1) (e_attributes e2)
         && (List.length (e_children e1) =? List.length (e_children e2))
      then
        (fix go (l1 l2 : list node) : stacked bool :=
           match l1, l2 with
           | n1 :: l1', n2 :: l2' =>
               sbind (match n1, n2 with
                      | NElem a, NElem b => eq_s k' a b
                      | NText a, NText b => Fits (str_eqb a b)
                      | NComment a, NComment b => Fits (str_eqb a b)
                      | NCData a, NCData b => Fits (str_eqb a b)
                      | _, _ => Fits false
                      end) (fun same => if same then go l1' l2' else Fits false)
           | _, _ => Fits true
           end) (e_children e1) (e_children e2)
      else Fits false
  end.

(** What the compiler makes for an element that goes out of scope: its children are
    dropped, one after the other. *)
Fixpoint drop_s (k : nat) (e : elem) : stacked unit :=
  match k with
  | O => Overflow
  | S k' =>
      (fix go (l : list node) : stacked unit :=
         match l with
         | [] => Fits tt
         | NElem c :: l' => sbind (drop_s k' c) (fun _ => go l')
         | _ :: l' => go l'
         end) (e_children e)
  end.
Fixpoint drop_nodes (k : nat) (l : list node) : stacked unit :=
  match l with
  | [] => Fits tt
  | NElem c :: l' => sbind (drop_s k c) (fun _ => drop_nodes k l')
  | _ :: l' => drop_nodes k l'
  end.

(** src/dom.rs:868-876 [children_recursive], all items requested: the iterator of an
    element asks the iterators of its child elements. *)
Fixpoint children_recursive_s (k : nat) (e : elem) : stacked (list node) :=
  match k with
  | O => Overflow
  | S k' =>
      sbind
        ((fix go (l : list node) : stacked (list node) :=
            match l with
            | [] => Fits []
            | NElem c :: l' =>
                sbind (children_recursive_s k' c) (fun x => sbind (go l') (fun r => Fits (x ++ r)))
            | _ :: l' => go l'
            end) (e_children e))
        (fun below => Fits (e_children e ++ below))
  end.
(** src/dom.rs:1045-1050 [search], all items requested *)
Definition search_s (k : nat) (e : elem) (p : node -> bool) : stacked (list node) :=
  sbind (children_recursive_s k e) (fun l => Fits (filter p l)).

(** src/dom.rs:1340-1352 [remove_by], :1370-1386 [remove_elements]: the removed nodes
    are dropped, last one first. *)
Definition remove_by_s (k : nat) (e : elem) (p : node -> bool) : stacked (outcome (elem * nat)) :=
  sbind (drop_nodes k (rev (filter p (e_children e)))) (fun _ => Fits (remove_by e p)).
Definition remove_elements_s (k : nat) (e : elem) (p : elem -> bool) : stacked (outcome (elem * nat)) :=
  sbind (drop_nodes k (rev (filter (elem_pred p) (e_children e)))) (fun _ => Fits (remove_elements e p)).

(** src/dom.rs:1330-1332 *)
Fixpoint remove_below_s (rm : elem -> stacked (outcome (elem * nat))) (l : list node)
  : stacked (outcome (list node * nat)) :=
  match l with
  | [] => Fits (Ok ([], 0))
  | NElem c :: l' =>
      sbind (rm c) (fun x =>
      match x with
      | Ok ec => sbind (remove_below_s rm l') (fun r =>
                 Fits (do rest <- r; Ok (NElem (fst ec) :: fst rest, snd ec + snd rest)))
      | Err x => Fits (Err x)
      | Panic => Fits Panic
      | Fuel => Fits Fuel
      end)
  | n :: l' =>
      sbind (remove_below_s rm l') (fun r =>
      Fits (do rest <- r; Ok (n :: fst rest, snd rest)))
  end.
(** src/dom.rs:1328-1334 [remove_all] *)
Fixpoint remove_all_s (k : nat) (p : node -> bool) (e : elem) : stacked (outcome (elem * nat)) :=
  match k with
  | O => Overflow
  | S k' =>
      sbind (remove_by_s k' e p) (fun x =>
      match x with
      | Ok ec => sbind (remove_below_s (remove_all_s k' p) (e_children (fst ec))) (fun r =>
                 Fits (do rec <- r; Ok (set_children (fst ec) (fst rec), snd ec + snd rec)))
      | Err x => Fits (Err x)
      | Panic => Fits Panic
      | Fuel => Fits Fuel
      end)
  end.
(** src/dom.rs:1392-1404 [remove_all_elements]: calls [remove_all], not itself *)
Definition remove_all_elements_s (k : nat) (p : elem -> bool) (e : elem) : stacked (outcome (elem * nat)) :=
  sbind (remove_by_s k e (elem_pred p)) (fun x =>
  match x with
  | Ok ec => sbind (remove_below_s (remove_all_s k (elem_pred p)) (e_children (fst ec))) (fun r =>
             Fits (do rec <- r; Ok (set_children (fst ec) (fst rec), snd ec + snd rec)))
  | Err x => Fits (Err x)
  | Panic => Fits Panic
  | Fuel => Fits Fuel
  end).
(** src/dom.rs:1354-1366 [remove_element]: the removed element is cloned, then dropped *)
Definition remove_element_s (k : nat) (e : elem) (index : nat) : stacked (outcome (elem * elem)) :=
  match nth_error (child_elements e) index with
  | None => Fits (remove_element e index)
  | Some c => sbind (clone_s k c) (fun _ => sbind (drop_s k c) (fun _ => Fits (remove_element e index)))
  end.
(** src/dom.rs:879 [clear_children], :881-884 [set_text] *)
Definition clear_children_s (k : nat) (e : elem) : stacked elem :=
  sbind (drop_nodes k (e_children e)) (fun _ => Fits (clear_children e)).
Definition set_text_s (k : nat) (e : elem) (t : str) : stacked (outcome elem) :=
  sbind (clear_children_s k e) (fun _ => Fits (set_text e t)).

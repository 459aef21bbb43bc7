(** The crate with a clock, continued (see Time.v): searching a tree, collecting its
    text, and taking nodes out of it.  The caller's predicate takes [q n] steps for [n]. *)
From Coq Require Import List NArith Arith Bool Ascii String.
From Verif Require Import Base Dom SpecSize Time.
Import ListNotations.

(** src/dom.rs:868-876 [children_recursive], run to its end.  The children are gone
    through by [chain] and again by [child_elements]; whatever the iterator of a child
    element gives passes through [flatten] and [chain]: one step for each item on each
    level.  Each iterator is asked once more to find its end. *)
Fixpoint children_recursive_t (e : elem) : timed (list node) :=
  match e with
  | mkElem _ ch _ _ _ _ =>
      spend (3 + List.length ch + List.length ch)
      (do* l <- (fix go (l : list node) : timed (list node) :=
                   match l with
                   | [] => after 1 (Ok [])
                   | NElem c :: l' =>
                       do* a <- children_recursive_t c;
                       do* b <- go l';
                       after (1 + List.length a) (Ok (a ++ b))
                   | _ :: l' => go l'
                   end) ch;
       after 0 (Ok (ch ++ l)))
  end.
(** src/dom.rs:1045-1050 [search]: a predicate for each item *)
Definition search_t (e : elem) (p : node -> bool) (q : node -> nat) : timed (list node) :=
  do* l <- children_recursive_t e;
  after (1 + sum (fun n => 1 + q n) l) (Ok (filter p l)).

(** src/dom.rs:1492-1501 and :1678-1680 [text]: the text of each child is made anew and
    pushed onto the text of the parent. *)
Fixpoint elem_text_t (e : elem) : timed str :=
  match e with
  | mkElem _ ch _ _ _ _ =>
      (fix go (l : list node) : timed str :=
         match l with
         | [] => after 1 (Ok [])
         | NText s :: l' =>
             do* r <- go l';
             after (copy_t s + copy_t s) (Ok (s ++ r))
         | NElem c :: l' =>
             do* t <- elem_text_t c;
             do* r <- go l';
             after (copy_t t) (Ok (t ++ r))
         | NComment _ :: l' => spend 1 (go l')
         | NCData _ :: l' => spend 1 (go l')
         end) ch
  end.

(** src/dom.rs:1291-1296 [remove] *)
Definition remove_t (e : elem) (index : nat) : timed (node * elem) :=
  if List.length (e_children e) <=? index
  then after 1 (Err (IndexOutOfBounds index 0 (List.length (e_children e))))
  else do* r <- after (shift_t (e_children e) index) (vremove (e_children e) index);
       after 1 (Ok (fst r, set_children e (snd r))).

Section RemoveByT.
  Context {A : Type}.
  (** src/dom.rs:1342-1346 *)
  Fixpoint matching_t (p : A -> bool) (q : A -> nat) (l : list A) (idx : list nat) : timed (list nat) :=
    match idx with
    | [] => after 1 (Ok [])
    | i :: idx' =>
        do* x <- after 1 (vget l i);
        do* r <- matching_t p q l idx';
        after (1 + q x) (Ok (if p x then i :: r else r))
    end.
  (** src/dom.rs:1348-1350: each [Vec::remove] moves what is behind. *)
  Fixpoint remove_indices_t (l : list A) (idx : list nat) : timed (list A) :=
    match idx with
    | [] => after 1 (Ok l)
    | i :: idx' => do* r <- after (shift_t l i) (vremove l i); remove_indices_t (snd r) idx'
    end.
  Definition remove_by_vec_t (p : A -> bool) (q : A -> nat) (l : list A) : timed (list A * nat) :=
    do* rm <- matching_t p q l (rev (seq 0 (List.length l)));
    do* l' <- remove_indices_t l rm;
    after 1 (Ok (l', List.length rm)).
End RemoveByT.
(** src/dom.rs:1340-1352 [remove_by] *)
Definition remove_by_t (e : elem) (p : node -> bool) (q : node -> nat) : timed (elem * nat) :=
  do* r <- remove_by_vec_t p q (e_children e);
  after 0 (Ok (set_children e (fst r), snd r)).

(** src/dom.rs:1330-1332; each child comes paired with its recursive call. *)
Fixpoint collect_removed_t (l : list (node * timed (elem * nat))) : timed (list node * nat) :=
  match l with
  | [] => after 1 (Ok ([], 0))
  | (n, r) :: l' =>
      match n with
      | NElem _ =>
          do* ec <- r;
          do* rest <- collect_removed_t l';
          after 1 (Ok (NElem (fst ec) :: fst rest, snd ec + snd rest))
      | _ =>
          do* rest <- collect_removed_t l';
          after 1 (Ok (n :: fst rest, snd rest))
      end
  end.
(** src/dom.rs:1328-1334 [remove_all]; only the children that stay are gone into, so
    only their steps are counted. *)
Fixpoint remove_all_t (p : node -> bool) (q : node -> nat) (e : elem) : timed (elem * nat) :=
  match e with
  | mkElem nm ch at_ ns px cx =>
      let annotated :=
        (fix go (l : list node) : list (node * timed (elem * nat)) :=
           match l with
           | [] => []
           | c :: l' =>
               (c, match c with NElem c' => remove_all_t p q c' | _ => after 0 Panic end) :: go l'
           end) ch in
      do* r <- remove_by_vec_t (fun a => p (fst a)) (fun a => q (fst a)) annotated;
      do* rec <- collect_removed_t (fst r);
      after 0 (Ok (mkElem nm (fst rec) at_ ns px cx, snd r + snd rec))
  end.

(** A program that calls [append] for each node of a list *)
Fixpoint appends_t (e : elem) (l : list node) : timed elem :=
  match l with
  | [] => after 1 (Ok e)
  | n :: l' => do* e' <- append_t e n; appends_t e' l'
  end.

(** The crate with a clock, continued (see Time.v): comparing, copying and hashing. *)
From Coq Require Import List NArith Arith Bool Ascii String.
From Verif Require Import Base Dom SpecSize Time.
Import ListNotations.

(** [==] of strings: the lengths, and if they are the same all bytes. *)
Definition str_eq_t (a b : str) : timed bool := after (1 + if blen a =? blen b then blen a else 0) (Ok (str_eqb a b)).
Definition ostr_eq_t (a b : option str) : timed bool :=
  match a, b with
  | Some x, Some y => spend 1 (str_eq_t x y)
  | _, _ => after 1 (Ok (ostr_eqb a b))
  end.
(** [&&] *)
Definition and_t (x y : timed bool) : timed bool := do* b <- x; if b then y else after 0 (Ok false).
(** [HashMap == HashMap]: the sizes, then each entry of the first is looked up in the
    second, until one is not found or has another value. *)
Fixpoint entries_eq_t (l m : amap) : timed bool :=
  match l with
  | [] => after 1 (Ok true)
  | (k, v) :: l' =>
      spend (key_t k)
        match aget k m with
        | Some w => and_t (str_eq_t v w) (entries_eq_t l' m)
        | None => after 0 (Ok false)
        end
  end.
Definition amap_eq_t (m1 m2 : amap) : timed bool :=
  and_t (after 1 (Ok (List.length m1 =? List.length m2))) (entries_eq_t m1 m2).
(** src/dom.rs:1594-1609 [PartialEq for Element] with [node_eq] (:390-406): the kinds
    of both nodes, then what they are. *)
Fixpoint elem_eq_t (e1 e2 : elem) : timed bool :=
  match e1, e2 with
  | mkElem n1 c1 a1 x1 p1 _, mkElem n2 c2 a2 x2 p2 _ =>
      and_t (and_t (and_t (and_t (and_t (str_eq_t n1 n2) (ostr_eq_t x1 x2)) (ostr_eq_t p1 p2)) (amap_eq_t a1 a2))
        (after 1 (Ok (List.length c1 =? List.length c2))))
        ((fix go (l1 l2 : list node) : timed bool :=
            match l1, l2 with
            | NElem a :: l1', NElem b :: l2' => spend 2 (and_t (elem_eq_t a b) (go l1' l2'))
            | NText a :: l1', NText b :: l2' => spend 2 (and_t (str_eq_t a b) (go l1' l2'))
            | NComment a :: l1', NComment b :: l2' => spend 2 (and_t (str_eq_t a b) (go l1' l2'))
            | NCData a :: l1', NCData b :: l2' => spend 2 (and_t (str_eq_t a b) (go l1' l2'))
            | [], [] => after 1 (Ok true)
            | _, _ => after 2 (Ok false)
            end) c1 c2)
  end.

(** src/dom.rs:1558-1573 [Clone for Element] with [clone_node] (:375-387): a new
    vector, the children one by one, then the other parts. *)
Fixpoint clone_elem_t (e : elem) : timed elem :=
  match e with
  | mkElem nm ch at_ ns px cx =>
      do* l <- (fix go (l : list node) : timed (list node) :=
                  match l with
                  | [] => after 1 (Ok [])
                  | NElem c :: l' => do* c' <- clone_elem_t c; do* r <- go l'; after 1 (Ok (NElem c' :: r))
                  | NText s :: l' => do* r <- go l'; after (1 + copy_t s) (Ok (NText s :: r))
                  | NComment s :: l' => do* r <- go l'; after (1 + copy_t s) (Ok (NComment s :: r))
                  | NCData s :: l' => do* r <- go l'; after (1 + copy_t s) (Ok (NCData s :: r))
                  end) ch;
      after (1 + copy_t nm + map_t at_ + copy_opt_t ns + copy_opt_t px + map_t cx) (Ok (mkElem nm l at_ ns px cx))
  end.
(** src/dom.rs:1354-1366 [remove_element]: the children are numbered, the one found is
    taken out and copied. *)
Definition remove_element_t (e : elem) (index : nat) : timed (elem * elem) :=
  let elems := element_indices (e_children e) 0 in
  spend (1 + List.length (e_children e))
  (if List.length elems <=? index
   then after 1 (Err (IndexOutOfBounds index 0 (List.length elems)))
   else
     do* i <- after 1 (vget elems index);
     do* r <- after (shift_t (e_children e) i) (vremove (e_children e) i);
     do* c <- after 1 (expect (as_element (fst r)));
     do* c' <- clone_elem_t c;
     after 1 (Ok (c', set_children e (snd r)))).

(** src/dom.rs:1611-1616, :1743-1747, :1875-1879, :2007-2011 [Hash]: the bytes given to
    the hasher *)
Definition node_hash_t (n : node) : nat :=
  copy_t (fst (node_hash_input n)) + match snd (node_hash_input n) with Some o => copy_opt_t o | None => 0 end.

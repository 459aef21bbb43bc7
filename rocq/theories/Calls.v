(** Model of the API calls that take a closure, with closures that remember
    things between calls and may panic. *)
From Coq Require Import List NArith Arith Bool Ascii String.
From Verif Require Import Base Dom.
Import ListNotations.

(** What a closure does when called in state [st] of everything it can reach (its
    captured variables, cells, ...): it returns an answer or panics; either way it
    may leave another state. *)
Inductive reply (St : Type) :=
| Says (b : bool) (st : St)
| Panics (st : St).
Arguments Says {St} b st.
Arguments Panics {St} st.
Definition question (St A : Type) : Type := A -> St -> reply St.

Section Calls.
  Context {St : Type}.

  (** * Iterators *)

  (** What [next()] on an iterator gives. *)
  Inductive item (A : Type) :=
  | Yields (a : A)
  | Finished
  | Unwinds.          (* the closure panicked *)
  Arguments Yields {A} a.
  Arguments Finished {A}.
  Arguments Unwinds {A}.

  (** [Iterator::next] of [iter.filter(p)], where [l] is what [iter] has not given
      yet; the second component is what is left afterwards. *)
  Fixpoint filter_next {A} (p : question St A) (l : list A) (st : St) : item A * list A * St :=
    match l with
    | [] => (Finished, [], st)
    | x :: l' =>
        match p x st with
        | Panics st' => (Unwinds, l', st')
        | Says true st' => (Yields x, l', st')
        | Says false st' => filter_next p l' st'
        end
    end.
  (** src/dom.rs:1045-1050 [search]: nothing happens until [next] is called; the
      tree is borrowed, so it does not change meanwhile, and [children_recursive]
      calls no closure: what it has not given yet is a suffix of its list. *)
  Definition search_start (e : elem) : list node := children_recursive e.
  Definition search_next (p : question St node) (l : list node) (st : St) : item node * list node * St :=
    filter_next p l st.
  (** src/dom.rs:1080-1087 [search_elements], :1123-1130 [search_text], :1133-1140
      [search_comments]: [filter(is_x).map(|n| n.as_x().expect(..)).filter(p)], the
      two filters in one loop. *)
  Fixpoint kind_next {A} (is : node -> bool) (as_ : node -> outcome A) (p : question St A)
      (l : list node) (st : St) : outcome (item A * list node * St) :=
    match l with
    | [] => Ok (Finished, [], st)
    | n :: l' =>
        if is n then
          do x <- expect (as_ n);
          match p x st with
          | Panics st' => Ok (Unwinds, l', st')
          | Says true st' => Ok (Yields x, l', st')
          | Says false st' => kind_next is as_ p l' st'
          end
        else kind_next is as_ p l' st
    end.
  Definition search_elements_next := kind_next is_element as_element.
  Definition search_text_next := kind_next is_text as_text.
  Definition search_comments_next := kind_next is_comment as_comment.

  (** * Removing *)

  (** The results below are what is left of the receiver, the value returned
      ([None]: the closure panicked and the call unwinds) and the state. *)
  Section Vec.
    Context {A : Type}.
    (** src/dom.rs:1342-1346 *)
    Fixpoint matching_st (p : question St A) (l : list A) (idx : list nat) (st : St) : outcome (option (list nat) * St) :=
      match idx with
      | [] => Ok (Some [], st)
      | i :: idx' =>
          do x <- vget l i;
          match p x st with
          | Panics st' => Ok (None, st')
          | Says b st' =>
              do r <- matching_st p l idx' st';
              Ok (option_map (fun m => if b then i :: m else m) (fst r), snd r)
          end
      end.
    (** src/dom.rs:1341-1351 *)
    Definition remove_by_vec_st (p : question St A) (l : list A) (st : St) : outcome (list A * option nat * St) :=
      do m <- matching_st p l (rev (seq 0 (List.length l))) st;
      match fst m with
      | None => Ok (l, None, snd m)
      | Some rm => do l' <- remove_indices l rm; Ok (l', Some (List.length rm), snd m)
      end.
  End Vec.

  (** src/dom.rs:1340-1352 [remove_by] *)
  Definition remove_by_st (e : elem) (p : question St node) (st : St) : outcome (elem * option nat * St) :=
    do r <- remove_by_vec_st p (e_children e) st;
    Ok (set_children e (fst (fst r)), snd (fst r), snd r).

  (** src/dom.rs:1330-1332 and :1400-1402: the loop over the child elements. Each
      child comes with what calling [remove_all] on it does. *)
  Fixpoint collect_st (l : list (node * (St -> outcome (elem * option nat * St)))) (st : St) : outcome (list node * option nat * St) :=
    match l with
    | [] => Ok ([], Some 0, st)
    | (n, f) :: l' =>
        match n with
        | NElem _ =>
            do r <- f st;
            match snd (fst r) with
            | None => Ok (NElem (fst (fst r)) :: map fst l', None, snd r)
            | Some k =>
                do rest <- collect_st l' (snd r);
                Ok (NElem (fst (fst r)) :: fst (fst rest), option_map (plus k) (snd (fst rest)), snd rest)
            end
        | _ =>
            do rest <- collect_st l' st;
            Ok (n :: fst (fst rest), snd (fst rest), snd rest)
        end
    end.
  (** src/dom.rs:1328-1334 [remove_all]; for structural recursion as in Dom.v.
      CallsFacts.v proves the literal equation of the source ([remove_all_st_eq]). *)
  Fixpoint remove_all_st (p : question St node) (e : elem) : St -> outcome (elem * option nat * St) :=
    match e with
    | mkElem nm ch at_ ns px cx =>
        let annotated :=
          (fix go (l : list node) : list (node * (St -> outcome (elem * option nat * St))) :=
             match l with
             | [] => []
             | c :: l' => (c, match c with NElem c' => remove_all_st p c' | _ => fun _ => Panic end) :: go l'
             end) ch in
        fun st =>
          do r <- remove_by_vec_st (fun a => p (fst a)) annotated st;
          match snd (fst r) with
          | None => Ok (mkElem nm (map fst (fst (fst r))) at_ ns px cx, None, snd r)
          | Some k =>
              do rec <- collect_st (fst (fst r)) (snd r);
              Ok (mkElem nm (fst (fst rec)) at_ ns px cx, option_map (plus k) (snd (fst rec)), snd rec)
          end
    end.

  (** src/dom.rs:1393-1398 *)
  Definition elem_question (p : question St elem) : question St node :=
    fun n st => match n with NElem c => p c st | _ => Says false st end.
  (** src/dom.rs:1392-1404 [remove_all_elements] *)
  Definition remove_all_elements_st (p : question St elem) (e : elem) (st : St) : outcome (elem * option nat * St) :=
    do r <- remove_by_st e (elem_question p) st;
    match snd (fst r) with
    | None => Ok r
    | Some k =>
        do rec <- collect_st
          (map (fun c => (c, match c with NElem c' => remove_all_st (elem_question p) c' | _ => fun _ => Panic end))
             (e_children (fst (fst r)))) (snd r);
        Ok (set_children (fst (fst r)) (fst (fst rec)), option_map (plus k) (snd (fst rec)), snd rec)
    end.
  (** src/dom.rs:1370-1386 [remove_elements] *)
  Definition remove_elements_st (e : elem) (p : question St elem) (st : St) : outcome (elem * option nat * St) :=
    do r <- remove_by_vec_st (fun n st => if is_element n then elem_question p n st else Says false st) (e_children e) st;
    Ok (set_children e (fst (fst r)), snd (fst r), snd r).
End Calls.
Arguments Yields {A} a.
Arguments Finished {A}.
Arguments Unwinds {A}.

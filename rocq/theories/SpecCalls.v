(** Vocabulary for closures handed to the API: what they are asked, in which
    order, and what follows from their answers. *)
From Coq Require Import List NArith Arith Bool Sorted.
From Verif Require Import Base Dom SpecDom Calls.
Import ListNotations.

Section Asking.
  Context {St A : Type} (p : question St A).

  (** [asks st t st']: called one after the other on the values of [t], starting
      in [st], the closure gives the answers of [t] and ends in [st']. *)
  Inductive asks : St -> list (A * bool) -> St -> Prop :=
  | as_none st : asks st [] st
  | as_more x b st st1 t st' : p x st = Says b st1 -> asks st1 t st' -> asks st ((x, b) :: t) st'.
  (** The same, and then it panics on [x]. *)
  Definition breaks (st : St) (t : list (A * bool)) (x : A) (st' : St) : Prop :=
    exists st1, asks st t st1 /\ p x st1 = Panics st'.
End Asking.

Definition said_yes {A} (t : list (A * bool)) : list A := map fst (filter snd t).
Definition said_no {A} (t : list (A * bool)) : list A := map fst (filter (fun x => negb (snd x)) t).

(** The parts of a list of nodes. *)
Definition elements_in (l : list node) : list elem := flat_map (fun n => match n with NElem e => [e] | _ => [] end) l.
Definition texts_in (l : list node) : list str := flat_map (fun n => match n with NText s => [s] | _ => [] end) l.
Definition comments_in (l : list node) : list str := flat_map (fun n => match n with NComment s => [s] | _ => [] end) l.

(** The part of a transcript that is about elements. *)
Definition element_part (t : list (node * bool)) : list (elem * bool) :=
  flat_map (fun x => match fst x with NElem c => [(c, snd x)] | _ => [] end) t.

(** The answer depends on the argument only. *)
Definition steady {St A} (p : question St A) (f : A -> bool) : Prop := forall x st, exists st', p x st = Says (f x) st'.

(** [pulls next l st xs l' st']: as many calls of [next] as there are items in [xs]
    give these items. *)
Inductive pulls {St A} (next : list A -> St -> item A * list A * St) : list A -> St -> list A -> list A -> St -> Prop :=
| pu_none l st : pulls next l st [] l st
| pu_more l st x l1 st1 xs l' st' : next l st = (Yields x, l1, st1) -> pulls next l1 st1 xs l' st' -> pulls next l st (x :: xs) l' st'.
(** [pulled p l st xs l' st']: what an iterator with the filter [p] may have done
    after giving the items [xs]: of the values [l] it went through some, asking the
    closure about each once, in order, the last one being the last one given; [l']
    has not been looked at. *)
Definition pulled {St A} (p : question St A) (l : list A) (st : St) (xs : list A) (l' : list A) (st' : St) : Prop :=
  exists t, map fst t ++ l' = l /\ asks p st t st' /\ said_yes t = xs /\ (forall t1 x b, t = t1 ++ [(x, b)] -> b = true).

(** * Positions in a tree *)

(** A position is a list of child indices, see [at_path]. *)
Definition position := list nat.

(** In [remove_all], children are asked about before anything below them or below
    their siblings, the last child first; then what is below the first child is
    asked about, then what is below the second, and so on. *)
Fixpoint asked_before (q r : position) : Prop :=
  match q, r with
  | i :: u, j :: v =>
      match u, v with
      | [], [] => j < i
      | [], _ :: _ => True
      | _ :: _, [] => False
      | _ :: _, _ :: _ => i < j \/ (i = j /\ asked_before u v)
      end
  | _, _ => False
  end.

Definition heard (t : list (position * bool)) (stop : option position) : list position :=
  map fst t ++ match stop with Some s => [s] | None => [] end.

(** [t]: the positions asked about and the answers; [stop]: where the closure
    panicked. Everything is asked about in the order above, once, except what is
    below a node for which the answer was yes, and what comes after [stop]. *)
Definition protocol (l : list node) (t : list (position * bool)) (stop : option position) : Prop :=
  StronglySorted asked_before (heard t stop) /\
  forall q, In q (heard t stop) <->
    (exists n, at_path l q = Some n) /\
    (forall a r, q = a ++ r -> r <> [] -> ~ In (a, true) t) /\
    (forall s, stop = Some s -> q = s \/ asked_before q s).

(** What is removed: all nodes for which the answer was yes, except that after a
    panic the siblings of the node in question are left where they are. *)
Definition acted (t : list (position * bool)) (stop : option position) (q : position) : Prop :=
  In (q, true) t /\ forall s, stop = Some s -> removelast q <> removelast s.

(** [pruned_at cut i l l' k]: [l'] is the forest [l], whose first tree has index
    [i], without the nodes at the positions in [cut] and what is below them; [k]
    is the number of subtrees removed. *)
Inductive pruned_at : (position -> Prop) -> nat -> list node -> list node -> nat -> Prop :=
| pa_nil cut i : pruned_at cut i [] [] 0
| pa_cut (cut : position -> Prop) i n l l' k : cut [i] -> pruned_at cut (S i) l l' k -> pruned_at cut i (n :: l) l' (S k)
| pa_leaf (cut : position -> Prop) i n l l' k : ~ cut [i] -> (forall e, n <> NElem e) ->
    pruned_at cut (S i) l l' k -> pruned_at cut i (n :: l) (n :: l') k
| pa_elem (cut : position -> Prop) i e ch' l l' k1 k2 : ~ cut [i] ->
    pruned_at (fun q => cut (i :: q)) 0 (e_children e) ch' k1 -> pruned_at cut (S i) l l' k2 ->
    pruned_at cut i (NElem e :: l) (NElem (set_children e ch') :: l') (k1 + k2).

(** [answers p l st t stop st']: asked about the nodes of the forest [l] at the
    positions of [t], the closure gives the answers of [t], and panics on that at
    [stop]. *)
Inductive answers {St} (p : question St node) (l : list node) : St -> list (position * bool) -> option position -> St -> Prop :=
| an_done st : answers p l st [] None st
| an_stop st q n st' : at_path l q = Some n -> p n st = Panics st' -> answers p l st [] (Some q) st'
| an_more st q n b st1 t stop st' : at_path l q = Some n -> p n st = Says b st1 ->
    answers p l st1 t stop st' -> answers p l st ((q, b) :: t) stop st'.

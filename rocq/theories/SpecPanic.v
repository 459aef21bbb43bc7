(** What a program made of calls of the API hands to it from outside. *)
From Coq Require Import List NArith.
From Verif Require Import Base Dom SpecOrders.
Import ListNotations.

(** The texts a program parses. *)
Fixpoint texts (s : program) : list str :=
  match s with
  | New _ _ _ _ _ _ | NewFromName _ => []
  | NewWithChildren _ _ _ _ _ l _ => pieces_texts l
  | RootOf text => [text]
  | Append s n | Insert s _ n => texts s ++ piece_texts n
  | AppendAll s l => texts s ++ pieces_texts l
  | SetText s _ | ClearChildren s | SetAttr s _ _ | RemoveAttr s _ | ClearAttributes s | Remove s _
  | RemoveElement s _ | RemoveBy s _ _ | RemoveElements s _ _ | RemoveElementsByName s _ | RemoveAll s _ _
  | RemoveAllElements s _ _ | UpdateChildren s _ _ | UpdateByName s _ _ _ | UpdateFirst s _ _ _
  | TakeFirst s _ | TakeElement s _ | Clone s => texts s
  end
with piece_texts (n : piece) : list str :=
  match n with Leaf _ _ => [] | Made s => texts s end
with pieces_texts (l : pieces) : list str :=
  match l with Nothing => [] | Then n l => piece_texts n ++ pieces_texts l end.

(** The changes a program makes itself, through a reference it was given, that can
    fail or panic. *)
Fixpoint changes (s : program) : list (elem -> outcome elem) :=
  match s with
  | New _ _ _ _ _ _ | NewFromName _ | RootOf _ => []
  | NewWithChildren _ _ _ _ _ l _ => pieces_changes l
  | Append s n | Insert s _ n => changes s ++ piece_changes n
  | AppendAll s l => changes s ++ pieces_changes l
  | UpdateFirst s _ f _ => changes s ++ [f]
  | SetText s _ | ClearChildren s | SetAttr s _ _ | RemoveAttr s _ | ClearAttributes s | Remove s _
  | RemoveElement s _ | RemoveBy s _ _ | RemoveElements s _ _ | RemoveElementsByName s _ | RemoveAll s _ _
  | RemoveAllElements s _ _ | UpdateChildren s _ _ | UpdateByName s _ _ _
  | TakeFirst s _ | TakeElement s _ | Clone s => changes s
  end
with piece_changes (n : piece) : list (elem -> outcome elem) :=
  match n with Leaf _ _ => [] | Made s => changes s end
with pieces_changes (l : pieces) : list (elem -> outcome elem) :=
  match l with Nothing => [] | Then n l => piece_changes n ++ pieces_changes l end.

(** The result is a value or an error. *)
Definition returns {A} (x : outcome A) : Prop := (exists a, x = Ok a) \/ (exists e, x = Err e).

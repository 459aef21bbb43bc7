(** Measures for the time of changing a tree. *)
From Coq Require Import List NArith Arith Bool String.
From Verif Require Import Base Dom SpecDom SpecSize.
Import ListNotations.

(** The places of a row where a text follows a text. *)
Fixpoint seams (l : list node) : nat :=
  match l with
  | [] => 0
  | NText _ :: ((NText _ :: _) as r) => 1 + seams r
  | _ :: r => seams r
  end.
(** The texts of a row that are nothing but white space, and not empty. *)
Definition blanks (l : list node) : nat :=
  List.length (filter (fun n => match n with NText (c :: t) => forallb is_whitespace (c :: t) | _ => false end) l).
(** [jumps p l]: pairs of nodes of a row of which the one in front satisfies [p] and the
    one behind does not. *)
Fixpoint jumps {A} (p : A -> bool) (l : list A) : nat :=
  match l with
  | [] => 0
  | x :: r => (if p x then List.length (filter (fun y => negb (p y)) r) else 0) + jumps p r
  end.
(** The tables of prefixes in scope kept with the elements of a tree. *)
Definition size_tables (e : elem) : nat :=
  sum (fun c => sum (fun kv => 1 + blen (fst kv) + blen (snd kv)) (e_context c)) (elements e).

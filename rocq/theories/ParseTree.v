(** Model of src/parsing.rs: the arena used as a stack while parsing. *)
From Coq Require Import List NArith Arith Bool.
From Verif Require Import Base Dom.
Import ListNotations.

(** src/parsing.rs:134-143 [ParseTreeNode] *)
Record ptnode := mkPT {
  pt_id : nat;
  pt_value : node;
  pt_parent : option nat;
  pt_children : list nat
}.

(** src/parsing.rs:13-18 [ParseTree] *)
Record ptree := mkTree {
  t_data : list (nat * ptnode);
  t_pos : option nat
}.

Definition dget : nat -> list (nat * ptnode) -> option ptnode := mget Nat.eqb.
Definition dset : nat -> ptnode -> list (nat * ptnode) -> list (nat * ptnode) := mset Nat.eqb.
Definition ddel : nat -> list (nat * ptnode) -> list (nat * ptnode) := mdel Nat.eqb.

(** src/parsing.rs:22-24 *)
Definition pt_new : ptree := mkTree [] None.
(** src/parsing.rs:27-32 *)
Definition pt_empty_stack (t : ptree) : bool :=
  match t_pos t with None => true | Some _ => false end.

(** [self.data.get_mut(&pos).expect("logic error").child_ids.push(id)]
    (lines 46-47 and 75-76) *)
Definition pt_add_child (data : list (nat * ptnode)) (pos id : nat) : outcome (list (nat * ptnode)) :=
  do p <- unwrap (dget pos data);
  Ok (dset pos (mkPT (pt_id p) (pt_value p) (pt_parent p) (pt_children p ++ [id])) data).

(** src/parsing.rs:34-56 [push] *)
Definition pt_push (t : ptree) (e : elem) : outcome ptree :=
  match t_pos t with
  | None => Ok (mkTree (dset 0 (mkPT 0 (NElem e) None []) (t_data t)) (Some 0))
  | Some old_pos =>
      let new_pos := List.length (t_data t) in
      do data <- pt_add_child (t_data t) old_pos new_pos;
      Ok (mkTree (dset new_pos (mkPT new_pos (NElem e) (Some old_pos) []) data) (Some new_pos))
  end.

(** src/parsing.rs:58-67 [pop] *)
Definition pt_pop (t : ptree) : outcome ptree :=
  match t_pos t with
  | None => Err (ParsingError PPopEmpty None)
  | Some pos =>
      do p <- unwrap (dget pos (t_data t));
      Ok (mkTree (t_data t) (pt_parent p))
  end.

(** src/parsing.rs:69-84 [append] *)
Definition pt_append (t : ptree) (n : node) : outcome ptree :=
  match t_pos t with
  | None => Err (ParsingError PNoRootElement None)
  | Some pos =>
      let new_id := List.length (t_data t) in
      do data <- pt_add_child (t_data t) pos new_id;
      Ok (mkTree (dset new_id (mkPT new_id n (Some pos) []) data) (Some pos))
  end.

(** src/parsing.rs:86-94 [top_element] *)
Definition pt_top_element (t : ptree) : outcome (option elem) :=
  match t_pos t with
  | None => Ok None
  | Some pos =>
      do p <- unwrap (dget pos (t_data t));
      do e <- expect (as_element (pt_value p));
      Ok (Some e)
  end.

(** src/parsing.rs:108-116, one iteration of the loop of [to_dom] *)
Definition to_dom_step (i : nat) (data : list (nat * ptnode)) : outcome (list (nat * ptnode)) :=
  do n <- unwrap (dget i data);
  let data := ddel i data in
  let value := match pt_value n with
               | NElem e => NElem (reverse_children e)
               | v => v
               end in
  do parent_index <- unwrap (pt_parent n);
  do p <- unwrap (dget parent_index data);
  do pe <- expect (as_element (pt_value p));
  do pe <- append pe value;
  Ok (dset parent_index (mkPT (pt_id p) (NElem pe) (pt_parent p) (pt_children p)) data).

(** [for i in (1..len).rev()]: [to_dom_loop k] handles i = k, k-1, ..., 1. *)
Fixpoint to_dom_loop (k : nat) (data : list (nat * ptnode)) : outcome (list (nat * ptnode)) :=
  match k with
  | O => Ok data
  | S k' => do data <- to_dom_step k data; to_dom_loop k' data
  end.

(** src/parsing.rs:96-129 [to_dom] *)
Definition pt_to_dom (t : ptree) : outcome elem :=
  match t_data t with
  | [] => Err (ParsingError PNoRootElement None)
  | _ :: _ =>
      do data <- to_dom_loop (List.length (t_data t) - 1) (t_data t);
      do root <- unwrap (dget 0 data);
      do e <- expect (as_element (pt_value root));
      Ok (reverse_children e)
  end.

(** Property C89: the time of changing a tree, of searching it and of collecting its
    text.  The functions of Time.v and TimeEdit.v count the steps. *)
From Coq Require Import List NArith Arith Bool Ascii String Lia.
From Verif Require Import Base BaseFacts Escape Dom DomFacts Spec SpecDom ParseTree Parse SpecStack StackFacts DepthFacts
  Time SpecSize SpecTime SizeFacts SizeMore TimeFacts TimeUnesc TimeElem TimeDom TimeWide TimeParse TimeOut TimeCount TimeDoc TimeLow
  TimeEdit SpecTimeEdit TimeRow TimeTree.
Import ListNotations.

Local Arguments sum {A} f l : simpl never.

(** * What is counted are the steps of the functions of the model *)

Theorem C89_same :
  (forall e, result (children_recursive_t e) = Ok (children_recursive e)) /\
  (forall e p q, result (search_t e p q) = Ok (search e p)) /\
  (forall e, result (elem_text_t e) = Ok (elem_text e)) /\
  (forall e i, result (remove_t e i) = remove e i) /\
  (forall e p q, result (remove_by_t e p q) = remove_by e p) /\
  (forall p q e, result (remove_all_t p q e) = remove_all p e).
Proof.
  split; [intro e; apply walk_eq|]. split; [exact search_t_ok|]. split; [intro e; apply text_steps|]. split; [exact remove_t_ok|].
  split; [exact remove_by_t_ok|exact remove_all_t_ok].
Qed.

(** * Putting nodes in *)

(** Nodes appended at once: linear in what each new element inherits, and in the row,
    once more for each place where two texts meet and for each text of white space. *)
Theorem C89_append_all : forall e l, let row := children e ++ l in
  steps (append_all_t e l) <= 10 * (List.length l * kept_size e + sum kept_node l) +
    27 * row_size row + (seams row + blanks row) * (3 * row_size row + 8) + 5.
Proof. exact append_all_steps. Qed.
(** There are no such places exactly when the row is in the form the crate keeps; *)
Theorem C89_normal : forall l, text_normal l <-> seams l = 0 /\ blanks l = 0.
Proof. exact normal_row. Qed.
(** so then it is linear. *)
Theorem C89_append_all_normal : forall e l, text_normal (children e ++ l) ->
  steps (append_all_t e l) <= 10 * (List.length l * kept_size e + sum kept_node l) + 27 * row_size (children e ++ l) + 5.
Proof. intros e l N. pose proof (append_all_steps e l) as H. cbn zeta in H. apply normal_row in N as [N1 N2]. unfold children in *. rewrite N1, N2 in H. change (sum mass) with row_size in H. lia. Qed.
(** Texts that become one text take quadratic time. *)
Theorem C89_texts : forall c e k, children e = [] -> k * k <= 2 * steps (append_all_t e (repeat (NText [c]) (S k))).
Proof. exact texts_slow. Qed.
(** Inserting a node at any place is linear in the row. *)
Theorem C89_insert : forall e i n, text_normal (children e) -> let row := n :: children e in
  steps (insert_t e i n) <= 10 * (kept_size e + sum kept_node row) + 18 * row_size row + 70.
Proof. exact insert_steps. Qed.
(** Nodes appended one by one give the same as when appended at once, but take quadratic time. *)
Theorem C89_one_by_one : forall l e, text_normal (children e) -> Forall (fun n => is_text n = false) l ->
  result (appends_t e l) = append_all e l /\ List.length l * List.length l <= 2 * steps (appends_t e l).
Proof. intros l e N F. destruct (appends_slow l e N F) as [S R]. split; [exact R|lia]. Qed.
Theorem C89_as_fast_refuted : forall k, exists e l, text_normal (children e) /\
  result (appends_t e l) = result (append_all_t e l) /\ k * steps (append_all_t e l) < steps (appends_t e l).
Proof.
  intro k. set (e := mkElem (lit "a") [] [] None None []). set (x := NElem (mkElem (lit "b") [] [] None None [])).
  set (n := 200 * k + 10). exists e, (repeat x n).
  assert (N : text_normal (children e)) by (apply normal_row; now split).
  assert (F : Forall (fun n => is_text n = false) (repeat x n)) by (apply Forall_forall; intros y Hy; apply repeat_spec in Hy; now subst).
  assert (Nr : text_normal (children e ++ repeat x n)).
  { change (children e ++ repeat x n) with (repeat x n). apply normal_row. generalize n as j. unfold x.
    induction j as [|j [I1 I2]]; [easy|]. cbn [repeat]. rewrite seams_cons, blanks_cons, I1, I2. now split. }
  destruct (C89_one_by_one _ _ N F) as [R S]. pose proof (C89_append_all_normal _ _ Nr) as A. split; [exact N|]. rewrite append_all_t_ok. split; [exact R|].
  rewrite repeat_length in *. change (children e ++ repeat x n) with (repeat x n) in A.
  assert (K : forall j, sum kept_node (repeat x j) = j /\ row_size (repeat x j) = j).
  { induction j as [|j [I1 I2]]; [easy|]. unfold row_size in *. cbn [repeat]. rewrite !sum_cons, I1, I2. now split. }
  destruct (K n) as [K1 K2]. rewrite K1, K2 in A. clear K K1 K2. change (kept_size e) with 1 in A.
  set (a := steps (append_all_t e (repeat x n))) in *. set (b := steps (appends_t e (repeat x n))) in *. clearbody a b.
  assert (P : k * a <= k * (47 * n + 5)) by (apply Nat.mul_le_mono_l; lia).
  assert (E : n * n = 200 * (k * n) + 10 * n) by (unfold n at 1; ring). assert (E' : n = 200 * k + 10) by reflexivity. clearbody n. nia.
Qed.

(** * Taking nodes out *)

Theorem C89_remove : forall e i, steps (remove_t e i) <= 2 + (List.length (children e) - i).
Proof. exact remove_steps. Qed.
(** Exactly: the predicate once for each child, and for each child taken out the ones
    behind it that stay. *)
Theorem C89_remove_by : forall e p q, steps (remove_by_t e p q) =
  3 + sum (fun n => 2 + q n) (children e) + 2 * List.length (filter p (children e)) + jumps p (children e).
Proof. exact remove_by_steps. Qed.
(** That is at most a quarter of the square of the number of children, *)
Theorem C89_jumps : forall (p : node -> bool) l, 4 * jumps p l <= List.length l * List.length l.
Proof. exact jumps_square. Qed.
(** which is reached when the first half is taken out. *)
Theorem C89_first_half : forall (p : node -> bool) x y k, p x = true -> p y = false ->
  let l := repeat x k ++ repeat y k in List.length l = 2 * k /\ 4 * jumps p l = List.length l * List.length l.
Proof. intros p x y k X Y l. unfold l. rewrite (jumps_halves _ _ _ _ X Y), app_length, !repeat_length. lia. Qed.
(** In the whole tree: the predicate at most once for each node below, and the squares
    of the numbers of children. *)
Theorem C89_remove_all : forall p q e, steps (remove_all_t p q e) <= sum q (children_recursive e) + 9 * nodes e + squares e.
Proof. intros p q e. pose proof (remove_all_steps p q e). lia. Qed.

(** * Searching *)

(** A search takes time bounded by the number of nodes and the depth: what is found in
    a tree is passed up through all the levels above it. *)
Lemma levels_below k e : ~ deeper k e -> levels e <= k.
Proof. intro D. destruct (Nat.le_gt_cases (levels e) k) as [|X]; [assumption|elim D; now apply deeper_levels]. Qed.
Theorem C89_search : forall e p q k, ~ deeper k e ->
  steps (search_t e p q) <= (k + 10) * nodes e + sum q (children_recursive e).
Proof.
  intros e p q k D. apply levels_below in D. rewrite search_steps. pose proof (walk_le e) as W. pose proof (recursive_length e) as L.
  assert (Q : (levels e + 9) * nodes e <= (k + 9) * nodes e) by (apply Nat.mul_le_mono_r; lia).
  assert (E : forall l, sum (fun n => 1 + q n) l = List.length l + sum q l) by (induction l as [|n l IH]; [reflexivity|rewrite !sum_cons, IH; cbn [List.length]; lia]).
  rewrite E. lia.
Qed.
(** It takes at least one step for each node, and half the square of the depth. *)
Theorem C89_search_least : forall e p q,
  nodes e <= steps (search_t e p q) /\ forall k, deeper k e -> (k + 1) * (k + 1) <= 2 * steps (search_t e p q).
Proof.
  intros e p q. rewrite search_steps. split.
  - rewrite <- recursive_length. rewrite (proj2 (walk_eq e)).
    assert (E : forall l, List.length l <= sum (fun n => 1 + q n) l) by (induction l as [|n l IH]; [apply le_n|rewrite !sum_cons; cbn [List.length]; lia]).
    specialize (E (children_recursive e)). lia.
  - intros k D. apply deeper_levels in D. pose proof (walk_least e) as W.
    assert (Q : (k + 1) * (k + 1) <= levels e * levels e) by (apply Nat.mul_le_mono; lia). lia.
Qed.
(** So a document that was read is searched in quadratic time, *)
Theorem C89_search_read : forall s d p q, parse_str s = Ok d ->
  7 * steps (search_t (root_element d) p q) <= (blen s + 73) * blen s + 7 * sum q (children_recursive (root_element d)).
Proof.
  intros s d p q P. pose proof (parse_nodes _ _ P) as N. pose proof (parsed_depth _ _ P) as D. pose proof (length_le_blen s) as L.
  assert (X : ~ deeper (levels (root_element d)) (root_element d)) by (rewrite deeper_levels; lia).
  pose proof (C89_search (root_element d) p q _ X) as S. change (d_root d) with (root_element d) in D, N. unfold str, char in *.
  assert (Q : 7 * (levels (root_element d) + 10) * nodes (root_element d) <= (blen s + 73) * blen s) by (apply Nat.mul_le_mono; lia). lia.
Qed.
(** and it may take so long. *)
Theorem C89_search_nest : forall n, exists d, parse_str (nest n) = Ok d /\ blen (nest n) = 7 * n + 4 /\
  forall p q, n * n <= 2 * steps (search_t (root_element d) p q).
Proof.
  intro n. destruct (nest_parsed n) as (d & P & L). exists d. split; [exact P|]. split; [apply nest_blen|]. intros p q.
  assert (D : deeper n (root_element d)) by (apply deeper_levels; unfold root_element; lia).
  pose proof (proj2 (C89_search_least (root_element d) p q) n D). nia.
Qed.

(** * Texts *)

(** The text of a tree is copied on each level. *)
Theorem C89_text : forall e k, ~ deeper k e -> steps (elem_text_t e) <= 2 * nodes e + (k + 1) * blen (elem_text e).
Proof.
  intros e k D. apply levels_below in D. pose proof (text_le e) as T.
  assert (Q : (levels e + 1) * blen (elem_text e) <= (k + 1) * blen (elem_text e)) by (apply Nat.mul_le_mono_r; lia). lia.
Qed.
Theorem C89_text_wrapped : forall k t, elem_text (wrapped k t) = t /\ nodes (wrapped k t) = k + 2 /\
  (k + 2) * blen t <= steps (elem_text_t (wrapped k t)).
Proof. intros k t. destruct (wrapped_text k t) as (H1 & H2 & H3). auto. Qed.
Theorem C89_text_linear_refuted : forall c, exists e, c * (nodes e + blen (elem_text e)) < steps (elem_text_t e).
Proof.
  intro c. set (n := 2 * c + 1). exists (wrapped n (repeat 97%N n)). destruct (C89_text_wrapped n (repeat 97%N n)) as (H1 & H2 & H3). rewrite H1, H2.
  assert (B : forall j, blen (repeat 97%N j) = j) by (induction j as [|j IH]; [reflexivity|]; cbn [repeat blen]; rewrite IH; reflexivity).
  rewrite B in *. assert (E : n = 2 * c + 1) by reflexivity. clearbody n. nia.
Qed.

(** * Examples *)

Definition ex_tree : elem :=
  mkElem (lit "a") [NText (lit "x"); NElem (mkElem (lit "b") [NElem (mkElem (lit "c") [NText (lit "yz")] [] None None [])] [] None None []); NComment (lit "!")] [] None None [].
Example ex_premises : text_normal (children ex_tree) /\ ~ deeper 3 ex_tree /\ deeper 2 ex_tree /\ nodes ex_tree = 6.
Proof.
  split; [apply C89_normal; now split|]. rewrite !deeper_levels. vm_compute. repeat split; lia.
Qed.
Example ex_steps :
  steps (search_t ex_tree (fun _ => true) (fun _ => 1)) = 38 /\ steps (elem_text_t ex_tree) = 20 /\
  steps (remove_by_t ex_tree is_text (fun _ => 1)) = 16 /\ steps (remove_all_t is_text (fun _ => 1) ex_tree) = 36 /\
  steps (insert_t ex_tree 1 (NText (lit "w"))) = 41.
Proof. vm_compute. repeat split. Qed.
Print Assumptions C89_same.
Print Assumptions C89_append_all.
Print Assumptions C89_normal.
Print Assumptions C89_append_all_normal.
Print Assumptions C89_texts.
Print Assumptions C89_insert.
Print Assumptions C89_one_by_one.
Print Assumptions C89_as_fast_refuted.
Print Assumptions C89_remove.
Print Assumptions C89_remove_by.
Print Assumptions C89_jumps.
Print Assumptions C89_first_half.
Print Assumptions C89_remove_all.
Print Assumptions C89_search.
Print Assumptions C89_search_least.
Print Assumptions C89_search_read.
Print Assumptions C89_search_nest.
Print Assumptions C89_text.
Print Assumptions C89_text_wrapped.
Print Assumptions C89_text_linear_refuted.

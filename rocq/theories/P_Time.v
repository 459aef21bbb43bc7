(** Property C84: time.  The functions of Time.v count the steps of reading and writing:
    reading takes at most quadratic time and writing at most cubic time, and there are
    texts for which they take that long. *)
From Coq Require Import List NArith Arith Bool Ascii String Lia.
From Verif Require Import Base BaseFacts Escape Dom DomFacts Spec SpecDom ParseTree Parse SpecStack StackFacts DepthFacts
  Time SpecSize SpecTime SizeFacts SizeMore TimeFacts TimeUnesc TimeElem TimeDom TimeWide TimeParse TimeOut TimeCount TimeDoc TimeLow.
Import ListNotations.

(** * What is counted are the steps of the functions of the model *)

Theorem C84_same :
  (forall s, result (unescape_t s) = unescape s) /\
  (forall e n, result (append_t e n) = append e n) /\
  (forall e l, result (append_all_t e l) = append_all e l) /\
  (forall e i n, result (insert_t e i n) = insert e i n) /\
  (forall nm text attrs ns px ch, result (element_new_t nm text attrs ns px ch) = element_new nm text attrs ns px ch) /\
  (forall s, result (parse_str_t s) = parse_str s).
Proof.
  split; [exact unescape_t_ok|]. split; [exact append_t_ok|]. split; [exact append_all_t_ok|]. split; [exact insert_t_ok|].
  split; [exact element_new_t_ok|exact parse_str_t_ok].
Qed.

(** * Reading *)

(** Every text is read, or refused, in quadratic time. *)
Theorem C84_parse : forall s, steps (parse_str_t s) <= 1000 * ((blen s + 1) * (blen s + 1)).
Proof. exact parse_str_steps. Qed.
Theorem C84_unescape : forall s, steps (unescape_t s) <= 26 * (blen s + 1) * (blen s + 1).
Proof. exact unescape_t_le. Qed.
(** It takes quadratic time for a text with many entity references, *)
Theorem C84_entities : forall k, let t := List.concat (repeat (lit "&amp;") k) in let s := lit "<a>" ++ t ++ lit "</a>" in
  blen t = 5 * k /\ k * k <= steps (unescape_t t) /\
  blen s = 5 * k + 7 /\ (exists d, parse_str s = Ok d) /\ k * k <= steps (parse_str_t s).
Proof.
  intros k t s. destruct (unescape_slow k) as (U1 & _ & U2). destruct (parse_slow k) as (P1 & P2 & P3). repeat split; assumption.
Qed.
(** and for every element with many children: each of them is looked at again
    when the next one is added. *)
Theorem C84_children : forall s d, parse_str s = Ok d -> squares (root_element d) <= 2 * steps (parse_str_t s).
Proof. exact parse_str_squares. Qed.
Theorem C84_linear_refuted : forall c, exists s d, parse_str s = Ok d /\ c * (blen s + 1) < steps (parse_str_t s).
Proof.
  intro c. destruct (parse_slow (13 * c + 1)) as (B & (d & P) & S). exists (boxed (ents (13 * c + 1))), d. split; [exact P|]. rewrite B.
  set (w := steps _) in *. clearbody w. clear - S. assert (E : (13 * c + 1) * (13 * c + 1) = 169 * (c * c) + 26 * c + 1) by ring. replace (c * (5 * (13 * c + 1) + 7 + 1)) with (65 * (c * c) + 13 * c) by ring. lia.
Qed.

(** * Adding nodes *)

(** Adding a node takes time linear in the children there are, with their texts, and in
    what is inherited; and it looks at each child at least once. *)
Theorem C84_append : forall e n, text_normal (children e) ->
  steps (append_t e n) <= 10 * (kept_size e + kept_node n) + 8 * (row_size (children e) + row_size [n]) + 40.
Proof.
  intros e n N. destruct (append_le (kept_size e + kept_node n + 1) e n) as [H _].
  - unfold kept_size. constructor; unfold map_t, opt_len; lia.
  - destruct n as [c|t|t|t]; try exact I. cbn [node_fits kept_node]. unfold kept_size. constructor; unfold map_t, opt_len; lia.
  - exact N.
  - assert (M : forall l, sum mass l = row_size l) by reflexivity. rewrite M in H.
    assert (M1 : mass n = row_size [n]) by (unfold row_size, sum; cbn; unfold mass, text_bytes; lia). rewrite M1 in H. change (children e) with (e_children e). lia.
Qed.
Theorem C84_append_least : forall e n, List.length (children e) < steps (append_t e n).
Proof. exact append_least. Qed.

(** * Writing *)

(** Writing takes time bounded by size and depth: every line is copied once on each level,
    with its indentation. *)
Theorem C84_write : forall d ind k, ~ deeper k (root_element d) ->
  let h := nodes (root_element d) + size_doc d in
  doc_write_t d ind <= 110 * (k * (6 + k * Nat.max 2 (blen ind))) * h + h * h.
Proof.
  intros d ind k D h. pose proof (doc_write_le d ind) as W. cbn zeta in W. fold (root_element d) in *. fold h in W.
  assert (L : levels (root_element d) <= k) by (destruct (Nat.le_gt_cases (levels (root_element d)) k) as [|X]; [assumption|elim D; now apply deeper_levels]).
  apply Nat.le_trans with (1 := W), Nat.add_le_mono_r, Nat.mul_le_mono_r, Nat.mul_le_mono_l, Nat.mul_le_mono; [exact L|].
  apply Nat.add_le_mono_l. now apply Nat.mul_le_mono_r.
Qed.
(** A text that is read yields no more nodes than it has bytes, *)
Theorem C84_nodes : forall s d, parse_str s = Ok d -> nodes (root_element d) <= blen s.
Proof. exact parse_nodes. Qed.
(** so what was read is written in cubic time; *)
Theorem C84_rewrite : forall s d ind, parse_str s = Ok d ->
  doc_write_t d ind <= 50 * Nat.max 2 (blen ind) * ((blen s + 1) * (blen s + 1) * (blen s + 1)).
Proof. exact rewrite_le. Qed.
(** and deep nesting takes so long. *)
Theorem C84_nesting : forall n, blen (nest n) = 7 * n + 4 /\
  exists d, parse_str (nest n) = Ok d /\ n * n * n <= 3 * doc_write_t d default_indent + 3 * (n * n).
Proof. intro n. split; [apply nest_blen|apply deep_slow]. Qed.
Theorem C84_quadratic_refuted : forall c, exists s d, parse_str s = Ok d /\ c * ((blen s + 1) * (blen s + 1)) < doc_write_t d default_indent.
Proof.
  intro c. destruct (deep_slow (300 * c + 10)) as (d & P & S). exists (nest (300 * c + 10)), d. split; [exact P|]. rewrite nest_blen.
  set (n := 300 * c + 10) in *. assert (E : n = 300 * c + 10) by reflexivity. clearbody n.
  set (w := doc_write_t d default_indent) in *. clearbody w.
  assert (Q : (7 * n + 4 + 1) * (7 * n + 4 + 1) <= 8 * n * (8 * n)) by (apply Nat.mul_le_mono; lia).
  assert (R : c * ((7 * n + 4 + 1) * (7 * n + 4 + 1)) <= c * (8 * n * (8 * n))) by now apply Nat.mul_le_mono_l.
  replace (c * (8 * n * (8 * n))) with (64 * (c * (n * n))) in R by ring.
  replace (n * n * n) with (300 * (c * (n * n)) + 10 * (n * n)) in S by (rewrite E at 5; ring).
  assert (M : 1 <= n * n) by (apply (Nat.mul_le_mono 1 n 1 n); lia). lia.
Qed.

(** * Examples *)

Definition ex_text : str := lit "<a k='1'>x<b/>y<b>&lt;</b></a>".
Example ex_read : steps (parse_str_t ex_text) = 653 /\
  match parse_str ex_text with
  | Ok d => squares (root_element d) = 17 /\ nodes (root_element d) = 6 /\ doc_write_t d default_indent = 200
  | _ => False
  end.
Proof. vm_compute. repeat split. Qed.
Example ex_counts : map (fun k => steps (unescape_t (List.concat (repeat (lit "&amp;") k)))) [0; 1; 5; 10] = [1; 33; 471; 1716].
Proof. vm_compute. reflexivity. Qed.
(** The premises of [C84_append] and [C84_write] *)
Example ex_premises : text_normal (children (mkElem (lit "a") [NText (lit "x")] [] None None [])) /\
  ~ deeper 3 (mkElem (lit "a") [NElem (mkElem (lit "b") [] [] None None [])] [] None None []).
Proof.
  split.
  - split; [intros [|x [|y a]] s t b; discriminate|]. intros t [[= <-]|[]] [_ W]. inversion W as [|c l H]. vm_compute in H. discriminate H.
  - rewrite deeper_levels. vm_compute. lia.
Qed.
Print Assumptions C84_same.
Print Assumptions C84_parse.
Print Assumptions C84_unescape.
Print Assumptions C84_entities.
Print Assumptions C84_children.
Print Assumptions C84_linear_refuted.
Print Assumptions C84_append.
Print Assumptions C84_append_least.
Print Assumptions C84_write.
Print Assumptions C84_nodes.
Print Assumptions C84_rewrite.
Print Assumptions C84_nesting.
Print Assumptions C84_quadratic_refuted.

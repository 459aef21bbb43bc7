(** An element with many children takes long to build. *)
From Coq Require Import List NArith Arith Bool Ascii String Lia Permutation.
From Verif Require Import Base Escape Dom ParseTree Parse Time BaseFacts Spec SpecDom DomFacts ParsedFacts TimeFacts TimeUnesc TimeElem TimeDom.
From Verif Require Import SpecSize SizeFacts SizeMore SpecTime.
Import ListNotations.

Local Arguments map_t : simpl never.
Local Arguments sum {A} f l : simpl never.

Definition sq_node (n : node) : nat := match n with NElem c => squares c | _ => 0 end.
Lemma squares_eq e : squares e = List.length (e_children e) * List.length (e_children e) + sum sq_node (e_children e).
Proof.
  unfold squares at 1. destruct e as [nm ch at_ ns px ctx]. cbn [elements e_children]. rewrite sum_cons. cbn [e_children]. f_equal.
  induction ch as [|n ch IH]; [reflexivity|]. cbn [flat_map]. rewrite sum_app, sum_cons, IH. f_equal. now destruct n.
Qed.
Definition wide (d : list (nat * ptnode)) : nat := sum (fun kv => sq_node (pt_value (snd kv))) d.
Lemma wide_cons kv d : wide (kv :: d) = sq_node (pt_value (snd kv)) + wide d.
Proof. reflexivity. Qed.
Lemma ddel_wide i d n : dget i d = Some n -> wide (ddel i d) + sq_node (pt_value n) = wide d.
Proof.
  unfold dget, ddel. induction d as [|[k v] d IH]; cbn [mget mdel]; [discriminate|]. rewrite wide_cons.
  destruct (i =? k); [intros [= <-]; cbn [snd]; lia|]. intro H. specialize (IH H). rewrite wide_cons. lia.
Qed.
Lemma dget_wide i d n : dget i d = Some n -> sq_node (pt_value n) <= wide d.
Proof. intro H. apply ddel_wide in H. lia. Qed.
Lemma dset_wide i v d : wide (dset i v d) <= wide d + sq_node (pt_value v).
Proof.
  unfold dset. induction d as [|[k w] d IH]; cbn [mset]; rewrite wide_cons; cbn [snd]; [lia|].
  destruct (i =? k); rewrite wide_cons; cbn [snd]; lia.
Qed.
Lemma dset_wide' i v d n : dget i d = Some n -> wide (dset i v d) + sq_node (pt_value n) = wide d + sq_node (pt_value v).
Proof.
  unfold dset, dget. induction d as [|[k w] d IH]; cbn [mset mget]; [discriminate|]. rewrite wide_cons. cbn [snd].
  destruct (i =? k); rewrite wide_cons; cbn [snd]; [intros [= <-]; lia|]. intro H. specialize (IH H). lia.
Qed.

(** * Adding a node looks at all children *)

Lemma bind_inv {A B} (x : timed A) (f : A -> timed B) w : result (tbind x f) = Ok w ->
  exists v, result x = Ok v /\ result (f v) = Ok w /\ steps (tbind x f) = steps x + steps (f v).
Proof. unfold tbind. destruct (result x) as [v|e| |]; cbn [result]; try discriminate. intro H. exists v. now repeat split. Qed.
Lemma merge_least : forall i l r, result (merge_text_loop_t i l) = Ok r -> S i <= steps (merge_text_loop_t i l).
Proof.
  induction i as [|i IH]; intros l r; cbn [merge_text_loop_t]; [cbn; lia|]. intro H.
  apply bind_inv in H as (a & _ & H & ->). cbn [after steps].
  destruct (is_text a); [|apply IH in H; lia].
  apply bind_inv in H as (b & _ & H & ->). cbn [after steps].
  destruct (is_text b); [|apply IH in H; lia].
  apply bind_inv in H as (? & _ & H & ->). apply bind_inv in H as (? & _ & H & ->). apply bind_inv in H as (? & _ & H & ->).
  apply bind_inv in H as (? & _ & H & ->). apply bind_inv in H as (? & _ & H & ->). apply IH in H. lia.
Qed.
Lemma cleanup_least l : List.length l <= steps (cleanup_text_nodes_t l).
Proof.
  assert (C : result (cleanup_text_nodes_t l) = Ok (clean l)) by (rewrite cleanup_text_nodes_t_ok; apply cleanup_clean).
  unfold cleanup_text_nodes_t in *. destruct l as [|n l]; [cbn; lia|]. apply bind_inv in C as (a & H & _ & ->).
  apply merge_least in H. cbn [List.length] in *. lia.
Qed.
Lemma append_least e n : S (List.length (e_children e)) <= steps (append_t e n).
Proof.
  unfold append_t. rewrite (steps_bind_ok _ _ (apply_xmlns_context (default_namespace e) (e_context e) n)) by apply apply_xmlns_context_t_ok.
  set (n' := apply_xmlns_context _ _ n). 
  assert (C : result (cleanup_text_nodes_t (e_children e ++ [n'])) = Ok (clean (e_children e ++ [n']))) by (rewrite cleanup_text_nodes_t_ok; apply cleanup_clean).
  rewrite (steps_bind_ok _ _ _ C). pose proof (cleanup_least (e_children e ++ [n'])) as L. rewrite app_length in L. cbn [List.length] in L. lia.
Qed.
Lemma merge_wide l : sum sq_node (merge_text l) <= sum sq_node l /\ List.length (merge_text l) <= List.length l.
Proof.
  unfold merge_text. induction l as [|n l [I1 I2]]; [cbn; lia|]. cbn [fold_right]. unfold merge1 at 1 3.
  destruct n as [e|t|t|t], (fold_right merge1 [] l) as [|[e'|t'|t'|t'] r] eqn:E; rewrite ?sum_cons in *; cbn [List.length sq_node] in *; lia.
Qed.
Lemma filter_wide p l : sum sq_node (filter p l) <= sum sq_node l /\ List.length (filter p l) <= List.length l.
Proof. induction l as [|n l [I1 I2]]; [cbn; lia|]. cbn [filter]. destruct (p n); rewrite ?sum_cons; cbn [List.length]; lia. Qed.
Lemma clean_wide l : sum sq_node (clean l) <= sum sq_node l /\ List.length (clean l) <= List.length l.
Proof. unfold clean. pose proof (filter_wide keep_node (merge_text l)). pose proof (merge_wide l). lia. Qed.
Lemma apply_wide df ctx n : sq_node (apply_xmlns_context df ctx n) = sq_node n.
Proof. destruct n as [e|t|t|t]; [|reflexivity..]. cbn [apply_xmlns_context sq_node]. rewrite !squares_eq.
  replace (e_children (set_namespace_context e df (Some ctx))) with (e_children e); [reflexivity|].
  unfold set_namespace_context. destruct e as [nm ch at_ [ns|] [p|] c]; cbn; try destruct (aget _ _); try destruct df; reflexivity.
Qed.
Lemma append_wide e n r : append e n = Ok r -> squares r <= squares e + sq_node n + 2 * steps (append_t e n).
Proof.
  unfold append. rewrite cleanup_clean. cbn [bind]. intros [= <-]. pose proof (append_least e n) as L.
  set (n' := apply_xmlns_context _ _ n) in *. pose proof (clean_wide (e_children e ++ [n'])) as [C1 C2]. rewrite !squares_eq.
  replace (e_children (set_children e (clean (e_children e ++ [n'])))) with (clean (e_children e ++ [n'])) by now destruct e.
  rewrite sum_app, sum_cons in C1. change (@sum node sq_node []) with 0 in C1. rewrite app_length in C2. cbn [List.length] in C2.
  assert (N : sq_node n' = sq_node n) by apply apply_wide.
  set (a := List.length (clean _)) in *. set (b := List.length (e_children e)) in *.
  assert (Q : a * a <= (b + 1) * (b + 1)) by (apply Nat.mul_le_mono; lia). lia.
Qed.
Lemma to_dom_step_wide i d d' : to_dom_step i d = Ok d' -> wide d' <= wide d + 2 * steps (to_dom_step_t i d).
Proof.
  intro R. rewrite <- to_dom_step_t_ok in R. unfold to_dom_step_t in *. 
  apply bind_inv in R as (n & En & R & ->). cbn [after result] in En. destruct (dget i d) as [n'|] eqn:Ed; [|discriminate]. injection En as ->.
  apply ddel_wide in Ed. set (d1 := ddel i d) in *. cbv zeta in R |- *. cbn [spend result steps] in R |- *.
  apply bind_inv in R as (pi & _ & R & ->). apply bind_inv in R as (p & Ep & R & ->). apply bind_inv in R as (pe & Ee & R & ->).
  apply bind_inv in R as (r & Er & R & ->). cbn [after result] in R, Ep, Ee. injection R as <-.
  destruct (dget pi d1) as [p'|] eqn:Eg; [|discriminate]. injection Ep as ->.
  destruct (pt_value p) as [e|t|t|t] eqn:Ev; try discriminate. injection Ee as ->.
  pose proof (dset_wide' pi (mkPT (pt_id p) (NElem r) (pt_parent p) (pt_children p)) d1 p Eg) as Ls. cbn [pt_value] in Ls. rewrite Ev in Ls. cbn [sq_node] in Ls.
  rewrite append_t_ok in Er. apply append_wide in Er.
  set (value := match pt_value n with NElem e => NElem (reverse_children e) | v => v end) in *.
  assert (V : sq_node value = sq_node (pt_value n)).
  { unfold value. destruct (pt_value n) as [e|t|t|t]; [|reflexivity..]. cbn [sq_node]. rewrite !squares_eq.
    replace (e_children (reverse_children e)) with (rev (e_children e)) by now destruct e. rewrite rev_length. f_equal.
    apply sum_perm, Permutation_sym, Permutation_rev. }
  lia.
Qed.
Lemma to_dom_loop_wide : forall k d d', to_dom_loop k d = Ok d' -> wide d' <= wide d + 2 * steps (to_dom_loop_t k d).
Proof.
  induction k as [|k IH]; intros d d'; cbn [to_dom_loop to_dom_loop_t].
  - intros [= <-]. lia.
  - destruct (to_dom_step (S k) d) as [d1| | |] eqn:E; cbn [bind]; try discriminate. intro H. apply IH in H.
    rewrite (steps_bind_ok _ _ d1) by (rewrite to_dom_step_t_ok; exact E). apply to_dom_step_wide in E. lia.
Qed.
Lemma to_dom_wide t e : pt_to_dom t = Ok e -> squares e <= wide (t_data t) + 2 * steps (pt_to_dom_t t).
Proof.
  intro R. rewrite <- pt_to_dom_t_ok in R. unfold pt_to_dom_t in *. destruct (t_data t) as [|kv d] eqn:Et; [discriminate|]. rewrite <- Et in *.
  apply bind_inv in R as (d1 & E1 & R & ->). rewrite to_dom_loop_t_ok in E1. apply to_dom_loop_wide in E1.
  apply bind_inv in R as (p & Ep & R & ->). apply bind_inv in R as (e' & Ee & R & ->). cbn [after result] in *. injection R as <-.
  destruct (dget 0 d1) as [p'|] eqn:Eg; [|discriminate]. injection Ep as ->. apply dget_wide in Eg.
  destruct (pt_value p) as [e|c|c|c]; try discriminate. injection Ee as ->. cbn [sq_node] in Eg. rewrite squares_eq in *.
  replace (e_children (reverse_children e')) with (rev (e_children e')) by now destruct e'. rewrite rev_length.
  rewrite (sum_perm sq_node (rev (e_children e')) (e_children e')) by (apply Permutation_sym, Permutation_rev). lia.
Qed.

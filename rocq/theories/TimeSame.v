(** How long it takes to compare and to copy elements. *)
From Coq Require Import List NArith Arith Bool Ascii String Lia.
From Verif Require Import Base Escape Dom ParseTree Parse Time BaseFacts Spec SpecDom DomFacts ApiFacts ParsedFacts TimeFacts TimeUnesc TimeElem.
From Verif Require P_Parse.
From Verif Require Import SpecSize SizeFacts SizeMore SpecTime TimeDom TimeWide TimeCount TimeOut TimeTree TimeEq SpecTimeEdit.
Import ListNotations.

Local Arguments sum {A} f l : simpl never.

(** * Comparing *)

Lemma and_result x y b c : result x = Ok b -> result y = Ok c -> result (and_t x y) = Ok (b && c).
Proof. intros X Y. unfold and_t. rewrite result_tbind, X. cbn [bind]. destruct b; [exact Y|easy]. Qed.
Lemma and_le x y b : result x = Ok b -> steps (and_t x y) <= steps x + steps y.
Proof. intro X. unfold and_t. rewrite (steps_bind_ok _ _ _ X). destruct b; cbn; lia. Qed.
Lemma and_all x y : result x = Ok true -> steps (and_t x y) = steps x + steps y.
Proof. intro X. unfold and_t. now rewrite (steps_bind_ok _ _ _ X). Qed.
Lemma and_stops x y : result x = Ok false -> result (and_t x y) = Ok false /\ steps (and_t x y) = steps x.
Proof. intro X. unfold and_t. rewrite result_tbind, (steps_bind_ok _ _ _ X), X. cbn. split; [easy|lia]. Qed.
Definition opt_bytes (o : option str) : nat := match o with None => 0 | Some s => blen s end.
Lemma str_eq_le a b : steps (str_eq_t a b) <= 1 + blen a.
Proof. cbn [str_eq_t after steps]. destruct (_ =? _); lia. Qed.
Lemma ostr_eq_result a b : result (ostr_eq_t a b) = Ok (ostr_eqb a b).
Proof. now destruct a, b. Qed.
Lemma ostr_eq_le a b : steps (ostr_eq_t a b) <= 2 + opt_bytes a.
Proof. destruct a as [a|], b as [b|]; cbn [ostr_eq_t opt_bytes after steps spend]; try lia. pose proof (str_eq_le a b). lia. Qed.
Lemma entries_result l m : result (entries_eq_t l m) = Ok (forallb (fun kv => match aget (fst kv) m with Some v => str_eqb (snd kv) v | None => false end) l).
Proof.
  induction l as [|[k v] l IH]; [easy|]. cbn [entries_eq_t forallb fst snd spend result]. destruct (aget k m) as [w|]; [|easy]. now apply and_result.
Qed.
Lemma entries_le l m : steps (entries_eq_t l m) <= 1 + sum (fun kv => 2 + blen (fst kv) + blen (snd kv)) l.
Proof.
  induction l as [|[k v] l IH]; [easy|]. cbn [entries_eq_t spend steps]. rewrite sum_cons. cbn [fst snd]. unfold key_t. destruct (aget k m) as [w|]; [|cbn [after steps]; lia].
  pose proof (and_le (str_eq_t v w) (entries_eq_t l m) _ eq_refl). pose proof (str_eq_le v w). lia.
Qed.
Lemma amap_eq_result a b : result (amap_eq_t a b) = Ok (amap_eqb a b).
Proof. unfold amap_eq_t, amap_eqb. apply and_result; [easy|apply entries_result]. Qed.
Lemma amap_eq_le a b : steps (amap_eq_t a b) <= 2 + sum (fun kv => 2 + blen (fst kv) + blen (snd kv)) a.
Proof. unfold amap_eq_t. pose proof (and_le (after 1 (Ok (List.length a =? List.length b))) (entries_eq_t a b) _ eq_refl) as H. pose proof (entries_le a b). cbn [after steps] in H. lia. Qed.
Fixpoint nodes_eq_t (l1 l2 : list node) : timed bool :=
  match l1, l2 with
  | NElem a :: l1', NElem b :: l2' => spend 2 (and_t (elem_eq_t a b) (nodes_eq_t l1' l2'))
  | NText a :: l1', NText b :: l2' => spend 2 (and_t (str_eq_t a b) (nodes_eq_t l1' l2'))
  | NComment a :: l1', NComment b :: l2' => spend 2 (and_t (str_eq_t a b) (nodes_eq_t l1' l2'))
  | NCData a :: l1', NCData b :: l2' => spend 2 (and_t (str_eq_t a b) (nodes_eq_t l1' l2'))
  | [], [] => after 1 (Ok true)
  | _, _ => after 2 (Ok false)
  end.
Definition head_eq_t (a b : elem) : timed bool :=
  and_t (and_t (and_t (and_t (str_eq_t (e_name a) (e_name b)) (ostr_eq_t (e_xmlns a) (e_xmlns b))) (ostr_eq_t (e_prefix a) (e_prefix b)))
    (amap_eq_t (e_attributes a) (e_attributes b))) (after 1 (Ok (List.length (e_children a) =? List.length (e_children b)))).
Definition head_eqb (a b : elem) : bool :=
  str_eqb (e_name a) (e_name b) && ostr_eqb (e_xmlns a) (e_xmlns b) && ostr_eqb (e_prefix a) (e_prefix b) && amap_eqb (e_attributes a) (e_attributes b) &&
  (List.length (e_children a) =? List.length (e_children b)).
Lemma elem_eq_t_eq a b : elem_eq_t a b = and_t (head_eq_t a b) (nodes_eq_t (e_children a) (e_children b)).
Proof. now destruct a, b. Qed.
Fixpoint nodes_same (l1 l2 : list node) : bool :=
  match l1, l2 with
  | n :: l1', m :: l2' => node_eqb n m && nodes_same l1' l2'
  | [], [] => true
  | _, _ => false
  end.
Lemma elem_eqb_parts a b : elem_eqb a b = head_eqb a b && nodes_same (e_children a) (e_children b).
Proof.
  destruct a as [n1 c1 a1 x1 p1 y1], b as [n2 c2 a2 x2 p2 y2]. unfold head_eqb. cbn [elem_eqb e_name e_children e_attributes e_xmlns e_prefix]. f_equal.
  revert c2. induction c1 as [|n c1 IH]; intros [|m c2]; [easy|easy|now destruct n|]. cbn [nodes_same]. rewrite <- IH. now destruct n, m.
Qed.
Lemma head_result a b : result (head_eq_t a b) = Ok (head_eqb a b).
Proof. unfold head_eq_t, head_eqb. repeat (apply and_result; [|first [apply ostr_eq_result|apply amap_eq_result|reflexivity]]). reflexivity. Qed.
Lemma head_le a b : steps (head_eq_t a b) <= 8 + blen (e_name a) + opt_bytes (e_xmlns a) + opt_bytes (e_prefix a) + sum (fun kv => 2 + blen (fst kv) + blen (snd kv)) (e_attributes a).
Proof.
  unfold head_eq_t. set (x1 := str_eq_t (e_name a) (e_name b)). set (x2 := ostr_eq_t (e_xmlns a) (e_xmlns b)). set (x3 := ostr_eq_t (e_prefix a) (e_prefix b)).
  set (x4 := amap_eq_t (e_attributes a) (e_attributes b)). set (x5 := after 1 (Ok (List.length (e_children a) =? List.length (e_children b)))).
  assert (R1 : result x1 = Ok _) by reflexivity. assert (R2 : result x2 = Ok _) by apply ostr_eq_result. assert (R3 : result x3 = Ok _) by apply ostr_eq_result. assert (R4 : result x4 = Ok _) by apply amap_eq_result.
  pose proof (and_result _ _ _ _ R1 R2) as R12. pose proof (and_result _ _ _ _ R12 R3) as R13. pose proof (and_result _ _ _ _ R13 R4) as R14.
  pose proof (and_le x1 x2 _ R1). pose proof (and_le _ x3 _ R12). pose proof (and_le _ x4 _ R13). pose proof (and_le _ x5 _ R14).
  assert (steps x1 <= 1 + blen (e_name a)) by apply str_eq_le. assert (steps x2 <= 2 + opt_bytes (e_xmlns a)) by apply ostr_eq_le. assert (steps x3 <= 2 + opt_bytes (e_prefix a)) by apply ostr_eq_le.
  assert (steps x4 <= 2 + sum (fun kv => 2 + blen (fst kv) + blen (snd kv)) (e_attributes a)) by apply amap_eq_le. assert (steps x5 = 1) by reflexivity. lia.
Qed.
Definition ns_node (n : node) : nat := match n with NElem c => size_namespaces c | _ => 0 end.
Lemma size_namespaces_eq e : size_namespaces e = opt_bytes (e_xmlns e) + sum ns_node (e_children e).
Proof.
  unfold size_namespaces at 1. rewrite elements_eq, sum_cons, sum_flat. f_equal. induction (e_children e) as [|n l IH]; [easy|]. rewrite !sum_cons, IH. f_equal. now destruct n.
Qed.
Lemma eq_bound e1 : forall e2, result (elem_eq_t e1 e2) = Ok (elem_eqb e1 e2) /\ steps (elem_eq_t e1 e2) + 2 <= 3 * (heft e1 + size_namespaces e1).
Proof.
  induction e1 as [a IH] using elem_ind'. intro b. rewrite elem_eq_t_eq, elem_eqb_parts, heft_eq, size_namespaces_eq.
  assert (G : forall l m, incl l (e_children a) -> result (nodes_eq_t l m) = Ok (nodes_same l m) /\ steps (nodes_eq_t l m) <= 2 + 3 * (sum heft_node l + sum ns_node l)).
  { induction l as [|n l IHl]; intros [|m k] I; [split; [easy|cbn; lia]|split; [easy|cbn; lia]|split; [now destruct n|destruct n; cbn; lia]|].
    destruct (IHl k (fun x h => I x (or_intror h))) as [R S]. rewrite !sum_cons.
    assert (Leaf : forall s t, result (spend 2 (and_t (str_eq_t s t) (nodes_eq_t l k))) = Ok (str_eqb s t && nodes_same l k) /\
      steps (spend 2 (and_t (str_eq_t s t) (nodes_eq_t l k))) <= 2 + 3 * (1 + blen s + sum heft_node l + sum ns_node l)).
    { intros s t. split; [now apply and_result|]. cbn [spend steps]. pose proof (and_le (str_eq_t s t) (nodes_eq_t l k) _ eq_refl). pose proof (str_eq_le s t). lia. }
    destruct n as [c|t|t|t], m as [c'|t'|t'|t']; cbn [nodes_eq_t nodes_same node_eqb heft_node ns_node size_node];
      try (split; [reflexivity|cbn [after steps]; lia]).
    - destruct (IH c (I _ (or_introl eq_refl)) c') as [Rc Sc]. split; [now apply and_result|]. cbn [spend steps]. pose proof (and_le _ (nodes_eq_t l k) _ Rc).
      lia.
    - destruct (Leaf t t') as [L1 L2]. split; [exact L1|lia].
    - destruct (Leaf t t') as [L1 L2]. split; [exact L1|lia].
    - destruct (Leaf t t') as [L1 L2]. split; [exact L1|lia]. }
  destruct (G (e_children a) (e_children b) (incl_refl _)) as [R S]. split; [now apply and_result; [apply head_result|]|].
  pose proof (and_le _ (nodes_eq_t (e_children a) (e_children b)) _ (head_result a b)) as H. pose proof (head_le a b) as L. unfold head_size, opt_bytes in *.
  assert (A : sum (fun kv => 2 + blen (fst kv) + blen (snd kv)) (e_attributes a) <= sum size_attr (e_attributes a)) by (apply SizeMore.sum_le; intros x _; unfold size_attr; lia).
  destruct (e_prefix a); lia.
Qed.

(** Equal elements are gone through to the end. *)
Lemma str_eq_all a b : str_eqb a b = true -> result (str_eq_t a b) = Ok true /\ steps (str_eq_t a b) = 1 + blen a.
Proof. intro E. cbn [str_eq_t after steps result]. rewrite E. apply str_eqb_eq in E. subst b. now rewrite Nat.eqb_refl. Qed.
Lemma ostr_eq_all a b : ostr_eqb a b = true -> opt_bytes a < steps (ostr_eq_t a b).
Proof.
  destruct a as [a|], b as [b|]; try discriminate; cbn [ostr_eq_t opt_bytes after steps spend]; [|lia]. intro E. change (ostr_eqb (Some a) (Some b)) with (str_eqb a b) in E.
  destruct (str_eq_all a b E) as [_ ->]. lia.
Qed.
Lemma entries_all l m : forallb (fun kv => match aget (fst kv) m with Some v => str_eqb (snd kv) v | None => false end) l = true ->
  steps (entries_eq_t l m) = 1 + sum (fun kv => 2 + blen (fst kv) + blen (snd kv)) l.
Proof.
  induction l as [|[k v] l IH]; intro F; [easy|]. cbn [forallb fst snd] in F. cbn [entries_eq_t spend steps]. rewrite sum_cons. cbn [fst snd]. unfold key_t.
  destruct (aget k m) as [w|]; [|discriminate]. apply andb_true_iff in F. destruct F as [F1 F2]. destruct (str_eq_all v w F1) as [R S]. rewrite (and_all _ _ R), S, (IH F2). lia.
Qed.
Lemma amap_eq_all a b : amap_eqb a b = true -> steps (amap_eq_t a b) = 2 + sum (fun kv => 2 + blen (fst kv) + blen (snd kv)) a.
Proof.
  unfold amap_eqb, amap_eq_t. rewrite andb_true_iff. intros [E F]. rewrite and_all by (cbn [after result]; now rewrite E). rewrite (entries_all _ _ F). cbn [after steps]. lia.
Qed.
Lemma head_all a b : head_eqb a b = true ->
  6 + blen (e_name a) + opt_bytes (e_xmlns a) + opt_bytes (e_prefix a) + sum (fun kv => 2 + blen (fst kv) + blen (snd kv)) (e_attributes a) <= steps (head_eq_t a b).
Proof.
  unfold head_eqb, head_eq_t. rewrite !andb_true_iff. intros [[[[E1 E2] E3] E4] E5].
  destruct (str_eq_all _ _ E1) as [R1 S1]. pose proof (ostr_eq_all _ _ E2) as S2. pose proof (ostr_eq_all _ _ E3) as S3. pose proof (amap_eq_all _ _ E4) as S4.
  assert (R2 : result (ostr_eq_t (e_xmlns a) (e_xmlns b)) = Ok true) by now rewrite ostr_eq_result, E2.
  assert (R3 : result (ostr_eq_t (e_prefix a) (e_prefix b)) = Ok true) by now rewrite ostr_eq_result, E3.
  assert (R4 : result (amap_eq_t (e_attributes a) (e_attributes b)) = Ok true) by now rewrite amap_eq_result, E4.
  pose proof (and_result _ _ _ _ R1 R2) as R12. pose proof (and_result _ _ _ _ R12 R3) as R13. pose proof (and_result _ _ _ _ R13 R4) as R14.
  rewrite (and_all _ _ R14), (and_all _ _ R13), (and_all _ _ R12), (and_all _ _ R1), S1, S4. cbn [after steps]. lia.
Qed.
Lemma eq_least e1 : forall e2, elem_eqb e1 e2 = true -> heft e1 + size_namespaces e1 <= 5 * steps (elem_eq_t e1 e2).
Proof.
  induction e1 as [a IH] using elem_ind'. intros b E. rewrite elem_eqb_parts in E. apply andb_true_iff in E. destruct E as [E F]. rewrite elem_eq_t_eq, heft_eq, size_namespaces_eq.
  rewrite and_all by now rewrite head_result, E. apply head_all in E.
  assert (G : forall l m, incl l (e_children a) -> nodes_same l m = true -> sum heft_node l + sum ns_node l <= 5 * steps (nodes_eq_t l m)).
  { induction l as [|n l IHl]; intros [|m k] I N; try discriminate; [change (0 + 0 <= 5); lia|]. cbn [nodes_same] in N. apply andb_true_iff in N. destruct N as [N1 N2].
    specialize (IHl k (fun x h => I x (or_intror h)) N2). rewrite !sum_cons.
    destruct n as [c|t|t|t], m as [c'|t'|t'|t']; try discriminate; cbn [nodes_eq_t node_eqb heft_node ns_node size_node spend steps] in *.
    - rewrite and_all by (rewrite (proj1 (eq_bound c c')); now rewrite N1). specialize (IH c (I _ (or_introl eq_refl)) c' N1). lia.
    - destruct (str_eq_all _ _ N1) as [R S]. rewrite (and_all _ _ R), S. lia.
    - destruct (str_eq_all _ _ N1) as [R S]. rewrite (and_all _ _ R), S. lia.
    - destruct (str_eq_all _ _ N1) as [R S]. rewrite (and_all _ _ R), S. lia. }
  specialize (G _ _ (incl_refl _) F). unfold head_size, opt_bytes in *.
  assert (A : sum size_attr (e_attributes a) <= 5 * sum (fun kv => 2 + blen (fst kv) + blen (snd kv)) (e_attributes a)).
  { rewrite <- sum_mul. apply SizeMore.sum_le. intros x _. unfold size_attr. lia. }
  destruct (e_prefix a); lia.
Qed.
(** Different ones only until a difference is found: the names, or the numbers of
    children. *)
Lemma and_stop3 x y z : result x = Ok false -> steps (and_t (and_t x y) z) = steps x.
Proof. intro R. destruct (and_stops x y R) as [R1 S1]. destruct (and_stops _ z R1) as [_ S2]. lia. Qed.
Lemma eq_names a b : blen (e_name a) <> blen (e_name b) -> steps (elem_eq_t a b) = 1.
Proof.
  intro N. rewrite elem_eq_t_eq. unfold head_eq_t. assert (E : str_eqb (e_name a) (e_name b) = false).
  { apply not_true_iff_false. intro E. apply str_eqb_eq in E. now rewrite E in N. }
  assert (R : result (str_eq_t (e_name a) (e_name b)) = Ok false) by (cbn [str_eq_t after result]; now rewrite E).
  assert (S : steps (str_eq_t (e_name a) (e_name b)) = 1) by (cbn [str_eq_t after steps]; apply Nat.eqb_neq in N; now rewrite N).
  destruct (and_stops _ (ostr_eq_t (e_xmlns a) (e_xmlns b)) R) as [R1 S1]. destruct (and_stops _ (ostr_eq_t (e_prefix a) (e_prefix b)) R1) as [R2 S2].
  destruct (and_stops _ (amap_eq_t (e_attributes a) (e_attributes b)) R2) as [R3 S3]. rewrite (and_stop3 _ _ _ R3). lia.
Qed.
Lemma eq_lengths a b : List.length (e_children a) <> List.length (e_children b) -> steps (elem_eq_t a b) <= 3 * (head_size a + opt_bytes (e_xmlns a)).
Proof.
  intro N. rewrite elem_eq_t_eq. assert (E : head_eqb a b = false) by (unfold head_eqb; apply Nat.eqb_neq in N; rewrite N; apply andb_false_r).
  pose proof (head_result a b) as R. rewrite E in R. destruct (and_stops _ (nodes_eq_t (e_children a) (e_children b)) R) as [_ ->]. pose proof (head_le a b) as L. unfold head_size, opt_bytes in *.
  assert (A : sum (fun kv => 2 + blen (fst kv) + blen (snd kv)) (e_attributes a) <= sum size_attr (e_attributes a)) by (apply SizeMore.sum_le; intros x _; unfold size_attr; lia).
  destruct (e_prefix a); lia.
Qed.

(** * Copying *)

Definition tables_node (n : node) : nat := match n with NElem c => size_tables c | _ => 0 end.
Lemma size_tables_eq e : size_tables e = sum (fun kv => 1 + blen (fst kv) + blen (snd kv)) (e_context e) + sum tables_node (e_children e).
Proof.
  unfold size_tables at 1. rewrite elements_eq, sum_cons, sum_flat. f_equal. induction (e_children e) as [|n l IH]; [easy|]. rewrite !sum_cons, IH. f_equal. now destruct n.
Qed.
Definition clone_cost (n : node) : nat := 1 + match n with NElem c => steps (clone_elem_t c) | NText s => copy_t s | NComment s => copy_t s | NCData s => copy_t s end.
Lemma clone_eq e : result (clone_elem_t e) = Ok (clone_elem e) /\
  steps (clone_elem_t e) = 2 + copy_t (e_name e) + map_t (e_attributes e) + copy_opt_t (e_xmlns e) + copy_opt_t (e_prefix e) + map_t (e_context e) + sum clone_cost (e_children e).
Proof.
  induction e as [e IH] using elem_ind'. destruct e as [nm ch at_ ns px cx]. cbn [clone_elem_t clone_elem e_children e_name e_attributes e_xmlns e_prefix e_context] in *.
  match goal with |- context [tbind (?g ch) _] => set (go := g) end. match goal with |- context [mkElem nm (?g ch)] => set (gc := g) end.
  assert (G : forall l, incl l ch -> result (go l) = Ok (gc l) /\ steps (go l) = 1 + sum clone_cost l).
  { induction l as [|n l IHl]; intro I; [easy|]. destruct (IHl (fun x h => I x (or_intror h))) as [R S]. rewrite sum_cons.
    destruct n as [c|t|t|t]; cbn [go gc clone_cost]; fold go; fold gc.
    - destruct (IH c (I _ (or_introl eq_refl))) as [Rc _]. split.
      + rewrite result_tbind, Rc. cbn [bind]. now rewrite result_tbind, R.
      + rewrite (steps_bind_ok _ _ _ Rc), (steps_bind_ok _ _ _ R), S. cbn [after steps]; unfold clone_cost; lia.
    - split; [now rewrite result_tbind, R|]. rewrite (steps_bind_ok _ _ _ R), S. cbn [after steps]; unfold clone_cost; lia.
    - split; [now rewrite result_tbind, R|]. rewrite (steps_bind_ok _ _ _ R), S. cbn [after steps]; unfold clone_cost; lia.
    - split; [now rewrite result_tbind, R|]. rewrite (steps_bind_ok _ _ _ R), S. cbn [after steps]; unfold clone_cost; lia. }
  destruct (G ch (incl_refl _)) as [R S]. split; [now rewrite result_tbind, R|]. rewrite (steps_bind_ok _ _ _ R), S. cbn [after steps]; unfold clone_cost; lia.
Qed.
Lemma copy_opt_bytes o : copy_opt_t o = 1 + opt_bytes o.
Proof. now destruct o. Qed.
Lemma clone_le e : steps (clone_elem_t e) + 1 <= 3 * (heft e + size_namespaces e + size_tables e).
Proof.
  induction e as [e IH] using elem_ind'. rewrite (proj2 (clone_eq e)), heft_eq, size_namespaces_eq, size_tables_eq, !copy_opt_bytes.
  assert (G : forall l, incl l (e_children e) -> sum clone_cost l <= 3 * (sum heft_node l + sum ns_node l + sum tables_node l)).
  { induction l as [|n l IHl]; intro I; [apply Nat.le_0_l|]. specialize (IHl (fun x h => I x (or_intror h))). rewrite !sum_cons.
    destruct n as [c|t|t|t]; unfold clone_cost at 1; cbn [heft_node ns_node tables_node size_node]; unfold copy_t; [|lia..]. specialize (IH c (I _ (or_introl eq_refl))). lia. }
  specialize (G _ (incl_refl _)). unfold head_size, copy_t, map_t, opt_bytes in *.
  assert (A : sum (fun kv => 1 + blen (fst kv) + blen (snd kv)) (e_attributes e) <= sum size_attr (e_attributes e)) by (apply SizeMore.sum_le; intros x _; unfold size_attr; lia).
  destruct (e_prefix e); lia.
Qed.
Lemma clone_least e : heft e + size_namespaces e + size_tables e <= 7 * steps (clone_elem_t e).
Proof.
  induction e as [e IH] using elem_ind'. rewrite (proj2 (clone_eq e)), heft_eq, size_namespaces_eq, size_tables_eq, !copy_opt_bytes.
  assert (G : forall l, incl l (e_children e) -> sum heft_node l + sum ns_node l + sum tables_node l <= 7 * sum clone_cost l).
  { induction l as [|n l IHl]; intro I; [apply Nat.le_0_l|]. specialize (IHl (fun x h => I x (or_intror h))). rewrite !sum_cons.
    destruct n as [c|t|t|t]; unfold clone_cost at 1; cbn [heft_node ns_node tables_node size_node]; unfold copy_t; [|lia..]. specialize (IH c (I _ (or_introl eq_refl))). lia. }
  specialize (G _ (incl_refl _)). unfold head_size, copy_t, map_t, opt_bytes in *.
  assert (A : sum size_attr (e_attributes e) <= 5 * sum (fun kv => 1 + blen (fst kv) + blen (snd kv)) (e_attributes e)).
  { rewrite <- sum_mul. apply SizeMore.sum_le. intros x _. unfold size_attr. lia. }
  destruct (e_prefix e); lia.
Qed.

(** * Elements of documents *)

Lemma drawn_table P e : map_ok (e_context e) -> drawn_from P e -> sum (fun kv => 1 + blen (fst kv) + blen (snd kv)) (e_context e) <= sum size_attr P.
Proof.
  intros M (_ & _ & D). set (f := fun kv : str * str => (lit "xmlns:" ++ fst kv, snd kv)).
  assert (S : sum size_attr (map f (e_context e)) <= sum size_attr P).
  { apply sum_incl.
    - apply FinFun.Injective_map_NoDup; [|now apply NoDup_map_inv with (f := fst)].
      intros [k v] [k' v'] E. unfold f in E. cbn [fst snd] in E. injection E as E1 ->. now subst.
    - intros y I. apply in_map_iff in I. destruct I as ([k v] & <- & I). apply D. now apply in_aget. }
  enough (sum (fun kv => 1 + blen (fst kv) + blen (snd kv)) (e_context e) <= sum size_attr (map f (e_context e))) by lia.
  clear. induction (e_context e) as [|[k v] l IH]; [apply Nat.le_0_l|]. cbn [map]. rewrite !sum_cons. unfold f at 1, size_attr at 1. cbn [fst snd]. rewrite blen_app. lia.
Qed.
Theorem tables_size s d : parse_str s = Ok d -> 4 * size_tables (d_root d) <= blen s * blen s.
Proof.
  intro H. pose proof (parse_size _ _ H) as Z. destruct (parsed_drawn _ _ H) as (P & S & D). rewrite Forall_forall in D.
  destruct (P_Parse.C48_parsed_valid _ _ H) as [V _]. pose proof (elements_size _ V) as L. unfold size_doc in Z.
  unfold size_tables. match goal with |- 4 * sum ?f _ <= _ => assert (G : sum f (elements (d_root d)) <= List.length (elements (d_root d)) * blen s) end.
  { apply sum_ge. intros e I. apply valid_elements with (c := e) in V; [|exact I]. inversion V as [e' V0 V1 V2 M V4 V5 V6]; subst.
    pose proof (drawn_table _ _ M (D e I)). lia. }
  nia.
Qed.
Lemma parsed_heft s d : parse_str s = Ok d -> heft (d_root d) <= 2 * blen s.
Proof. intro H. pose proof (parse_size _ _ H) as Z. pose proof (parse_nodes _ _ H) as N. unfold size_doc in Z. unfold heft. lia. Qed.
Theorem parsed_compare s d e : parse_str s = Ok d -> 4 * steps (elem_eq_t (d_root d) e) <= 24 * blen s + 3 * (blen s * blen s).
Proof. intro H. pose proof (parsed_heft _ _ H). destruct (namespaces_size _ _ H) as (_ & _ & _ & N). pose proof (proj2 (eq_bound (d_root d) e)). lia. Qed.
Theorem parsed_clone s d : parse_str s = Ok d -> 4 * steps (clone_elem_t (d_root d)) <= 24 * blen s + 6 * (blen s * blen s).
Proof. intro H. pose proof (parsed_heft _ _ H). destruct (namespaces_size _ _ H) as (_ & _ & _ & N). pose proof (tables_size _ _ H). pose proof (clone_le (d_root d)). lia. Qed.

(** * Taking an element out *)

Lemma remove_element_t_ok e i : result (remove_element_t e i) = remove_element e i.
Proof.
  unfold remove_element_t, remove_element, spend. cbn [result]. destruct (_ <=? i); [easy|].
  rewrite result_tbind. cbn [after result]. destruct (vget (element_indices (e_children e) 0) i) as [j| | |]; try easy. cbn [bind].
  rewrite result_tbind. cbn [after result]. destruct (vremove (e_children e) j) as [[n r]| | |]; try easy. cbn [bind fst snd].
  rewrite result_tbind. cbn [after result]. destruct (expect (as_element n)) as [c| | |]; try easy. cbn [bind].
  now rewrite result_tbind, (proj1 (clone_eq c)).
Qed.
Lemma remove_element_le e i c e' : remove_element e i = Ok (c, e') ->
  steps (clone_elem_t c) <= steps (remove_element_t e i) <= 5 + 2 * List.length (e_children e) + steps (clone_elem_t c).
Proof.
  unfold remove_element, remove_element_t, spend. cbn [steps]. destruct (_ <=? i); [discriminate|].
  destruct (vget (element_indices (e_children e) 0) i) as [j| | |]; try discriminate. cbn [bind]. destruct (vremove (e_children e) j) as [[n r]| | |] eqn:V; try discriminate. cbn [bind fst snd].
  destruct (expect (as_element n)) as [x| | |] eqn:X; try discriminate. cbn [bind]. intro H. injection H as <- <-. rewrite clone_id.
  rewrite (steps_bind_ok (after 1 (Ok j)) _ j eq_refl). cbn [after steps]. rewrite (steps_bind_ok _ _ (n, r)) by (cbn [after result]; exact V). cbn [after steps fst snd].
  rewrite (steps_bind_ok _ _ x) by (cbn [after result]; exact X). rewrite (steps_bind_ok _ _ _ (proj1 (clone_eq x))). cbn [after steps]. unfold shift_t. lia.
Qed.

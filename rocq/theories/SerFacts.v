(** Proofs about equality, hashing, attribute order and serialization. *)
From Coq Require Import List NArith Arith Bool Ascii String Lia Permutation.
From Verif Require Import Base Escape Dom BaseFacts Spec SpecDom EscapeFacts DomFacts.
Import ListNotations.

(** * Maps *)

Lemma amap_eqb_spec m1 m2 : map_ok m1 -> map_ok m2 -> (amap_eqb m1 m2 = true <-> Permutation m1 m2).
Proof.
  intros H1 H2. unfold amap_eqb. rewrite andb_true_iff, Nat.eqb_eq, forallb_forall. split.
  - intros [Hl Hf]. apply NoDup_Permutation_bis.
    + eapply NoDup_map_inv. exact H1.
    + lia.
    + intros [k v] Hi. apply Hf in Hi. cbn [fst snd] in Hi. destruct (aget k m2) as [v'|] eqn:E; [|discriminate].
      apply str_eqb_eq in Hi. subst. now apply aget_in.
  - intro P. split; [now apply Permutation_length|]. intros [k v] Hi. cbn [fst snd].
    rewrite (in_aget k v m2) by (try easy; eapply Permutation_in; eauto). apply str_eqb_refl.
Qed.

(** * Equality *)

Lemma elem_ok_inv e : elem_ok e -> map_ok (e_attributes e) /\ map_ok (e_context e) /\
  (forall c, In (NElem c) (e_children e) -> elem_ok c).
Proof. now intros [e' H1 H2 H3]. Qed.
Lemma elem_valid_ok : forall e, elem_valid e -> elem_ok e.
Proof. induction 1. constructor; auto. Qed.

Fixpoint nodes_eqb (l1 l2 : list node) : bool :=
  match l1, l2 with
  | [], [] => true
  | n1 :: l1', n2 :: l2' => node_eqb n1 n2 && nodes_eqb l1' l2'
  | _, _ => false
  end.
Lemma elem_eqb_eq e1 e2 : elem_eqb e1 e2 =
  str_eqb (e_name e1) (e_name e2) && ostr_eqb (e_xmlns e1) (e_xmlns e2) && ostr_eqb (e_prefix e1) (e_prefix e2)
  && amap_eqb (e_attributes e1) (e_attributes e2) && nodes_eqb (e_children e1) (e_children e2).
Proof.
  destruct e1 as [n1 c1 a1 x1 p1 cx1], e2 as [n2 c2 a2 x2 p2 cx2]. cbn [elem_eqb e_name e_xmlns e_prefix e_attributes e_children].
  rewrite <- !andb_assoc. do 4 f_equal.
  revert c2. induction c1 as [|m1 c1 IH]; intros [|m2 c2].
  - reflexivity.
  - reflexivity.
  - cbn [List.length Nat.eqb nodes_eqb andb]. reflexivity.
  - cbn [nodes_eqb List.length Nat.eqb]. rewrite <- IH.
    destruct m1, m2; cbn [node_eqb andb]; try (now rewrite andb_false_r); now rewrite andb_comm, <- andb_assoc, (andb_comm (List.length _ =? _)).
Qed.
Lemma elem_eqb_same : forall e1 e2, elem_ok e1 -> elem_ok e2 -> (elem_eqb e1 e2 = true <-> elem_same e1 e2).
Proof.
  induction e1 as [e1 IH] using elem_ind'. intros e2 H1 H2. rewrite elem_eqb_eq, !andb_true_iff.
  apply elem_ok_inv in H1 as (Ha1 & _ & Hc1). apply elem_ok_inv in H2 as (Ha2 & _ & Hc2).
  rewrite str_eqb_eq, !ostr_eqb_eq, (amap_eqb_spec _ _ Ha1 Ha2).
  enough (nodes_eqb (e_children e1) (e_children e2) = true <-> nodes_same (e_children e1) (e_children e2)) as ->.
  { split; [intros ((((E1 & E2) & E3) & E4) & E5); now constructor|]. intro H. inversion H; subst. now repeat split. }
  clear Ha1 Ha2. revert IH Hc1 Hc2. generalize (e_children e1) (e_children e2). clear e1 e2.
  induction l as [|n1 l1 IHl]; intros [|n2 l2] IH Hc1 Hc2; cbn [nodes_eqb].
  - split; [constructor|reflexivity].
  - split; [discriminate|]. intro H; inversion H.
  - split; [discriminate|]. intro H; inversion H.
  - rewrite andb_true_iff, IHl; [|intros c Hc; apply IH; now right|intros c Hc; apply Hc1; now right|intros c Hc; apply Hc2; now right].
    split.
    + intros [En El]. destruct n1 as [x|x|x|x], n2 as [y|y|y|y]; cbn [node_eqb] in En; try discriminate.
      * apply ns_elem; [|easy]. apply (IH x) in En; [easy|now left|apply Hc1; now left|apply Hc2; now left].
      * apply str_eqb_eq in En. subst. now apply ns_leaf.
      * apply str_eqb_eq in En. subst. now apply ns_leaf.
      * apply str_eqb_eq in En. subst. now apply ns_leaf.
    + intro H. inversion H as [|n l1' l2' Hn Hs E1 E2|x y l1' l2' Hxy Hs E1 E2]; subst.
      * split; [|easy]. destruct n2 as [y|y|y|y]; cbn [node_eqb]; try apply str_eqb_refl. now destruct (Hn y).
      * split; [|easy]. cbn [node_eqb]. apply (IH x); [now left|apply Hc1; now left|apply Hc2; now left|easy].
Qed.

Lemma elem_same_refl : forall e, elem_same e e.
Proof.
  induction e as [e IH] using elem_ind'. constructor; try easy.
  induction (e_children e) as [|n l IHl]; [constructor|].
  specialize (IHl ltac:(intros c Hc; apply IH; now right)).
  destruct n as [c|s|s|s]; [apply ns_elem; [apply IH; now left|easy]|now apply ns_leaf..].
Qed.
Lemma elem_same_sym : forall e1 e2, elem_same e1 e2 -> elem_same e2 e1.
Proof.
  apply (elem_same_mut (fun e1 e2 => elem_same e2 e1) (fun l1 l2 => nodes_same l2 l1)).
  - intros. constructor; try easy; now apply Permutation_sym.
  - constructor.
  - intros. now apply ns_leaf.
  - intros. now apply ns_elem.
Qed.
Lemma elem_same_trans : forall e1 e2, elem_same e1 e2 -> forall e3, elem_same e2 e3 -> elem_same e1 e3.
Proof.
  apply (elem_same_mut (fun e1 e2 => forall e3, elem_same e2 e3 -> elem_same e1 e3)
                       (fun l1 l2 => forall l3, nodes_same l2 l3 -> nodes_same l1 l3)).
  - intros e1 e2 H1 H2 H3 H4 _ IH e3 H. inversion H as [a b E1 E2 E3 E4 E5 Ea Eb]; subst.
    constructor; try congruence; [|auto]. eapply Permutation_trans; eauto.
  - easy.
  - intros n l1 l2 Hn _ IH l3 H. inversion H as [|m a b Hm Hs E1 E2|x y a b Hxy Hs E1 E2]; subst.
    + apply ns_leaf; auto.
    + now destruct (Hn x).
  - intros e1 e2 l1 l2 _ IH1 _ IH2 l3 H. inversion H as [|m a b Hm Hs E1 E2|x y a b Hxy Hs E1 E2]; subst.
    + now destruct (Hm e2).
    + apply ns_elem; auto.
Qed.
Lemma elem_eqb_refl e : elem_ok e -> elem_eqb e e = true.
Proof. intro H. apply elem_eqb_same; [easy..|]. apply elem_same_refl. Qed.
Lemma elem_eqb_sym e1 e2 : elem_ok e1 -> elem_ok e2 -> elem_eqb e1 e2 = true -> elem_eqb e2 e1 = true.
Proof. intros H1 H2 H. apply elem_eqb_same in H; [|easy..]. apply elem_eqb_same; [easy..|]. now apply elem_same_sym. Qed.
Lemma elem_eqb_trans e1 e2 e3 : elem_ok e1 -> elem_ok e2 -> elem_ok e3 ->
  elem_eqb e1 e2 = true -> elem_eqb e2 e3 = true -> elem_eqb e1 e3 = true.
Proof.
  intros H1 H2 H3 E1 E2. apply elem_eqb_same in E1, E2; [|easy..]. apply elem_eqb_same; [easy..|].
  eapply elem_same_trans; eauto.
Qed.
Lemma node_eqb_refl n : node_ok n -> node_eqb n n = true.
Proof. destruct n; cbn [node_ok node_eqb]; intro; try apply str_eqb_refl. now apply elem_eqb_refl. Qed.
Lemma node_eqb_sym a b : node_ok a -> node_ok b -> node_eqb a b = true -> node_eqb b a = true.
Proof.
  destruct a, b; cbn [node_ok node_eqb]; intros Ha Hb; try easy; try (rewrite str_eqb_sym; easy). now apply elem_eqb_sym.
Qed.
Lemma node_eqb_trans a b c : node_ok a -> node_ok b -> node_ok c ->
  node_eqb a b = true -> node_eqb b c = true -> node_eqb a c = true.
Proof.
  destruct a as [x|x|x|x], b as [y|y|y|y], c as [z|z|z|z]; cbn [node_ok node_eqb]; intros Ha Hb Hc H1 H2; try discriminate.
  - now apply (elem_eqb_trans x y z).
  - apply str_eqb_eq in H1. now subst.
  - apply str_eqb_eq in H1. now subst.
  - apply str_eqb_eq in H1. now subst.
Qed.
(** Equal kinds of node, equal contents. *)
Lemma node_eqb_spec a b : node_ok a -> node_ok b ->
  (node_eqb a b = true <-> a = b \/ exists x y, a = NElem x /\ b = NElem y /\ elem_same x y).
Proof.
  intros Ha Hb. split.
  - destruct a as [x|x|x|x], b as [y|y|y|y]; cbn [node_ok node_eqb] in *; try discriminate; intro H.
    + right. exists x, y. split; [easy|]. split; [easy|]. now apply elem_eqb_same.
    + left. apply str_eqb_eq in H. now subst.
    + left. apply str_eqb_eq in H. now subst.
    + left. apply str_eqb_eq in H. now subst.
  - intros [->|(x & y & -> & -> & H)]; [now apply node_eqb_refl|]. cbn [node_eqb]. now apply elem_eqb_same.
Qed.

Definition doc_same (a b : document) : Prop :=
  d_declaration a = d_declaration b /\ d_dtds a = d_dtds b /\ elem_same (d_root a) (d_root b).
Lemma dtds_eqb (l1 : list str) : forall l2, (List.length l1 =? List.length l2) &&
  forallb (fun xy => str_eqb (fst xy) (snd xy)) (combine l1 l2) = true <-> l1 = l2.
Proof.
  induction l1 as [|x l1 IH]; intros [|y l2]; cbn [List.length Nat.eqb combine forallb]; try (split; easy).
  specialize (IH l2). cbn [fst snd]. rewrite andb_true_iff in *. rewrite andb_true_iff, str_eqb_eq. split.
  - intros (H1 & -> & H2). f_equal. apply IH. easy.
  - intro H. injection H as -> ->. destruct (proj2 IH eq_refl). easy.
Qed.
Lemma doc_eqb_same a b : elem_ok (d_root a) -> elem_ok (d_root b) -> (doc_eqb a b = true <-> doc_same a b).
Proof.
  intros Ha Hb. unfold doc_eqb, doc_same.
  rewrite andb_true_iff, <- andb_assoc, andb_true_iff, ostr_eqb_eq, dtds_eqb, elem_eqb_same by easy. tauto.
Qed.
Lemma doc_same_refl a : doc_same a a.
Proof. split; [easy|]. split; [easy|]. apply elem_same_refl. Qed.
Lemma doc_same_sym a b : doc_same a b -> doc_same b a.
Proof. intros (H1 & H2 & H3). split; [easy|]. split; [easy|]. now apply elem_same_sym. Qed.
Lemma doc_same_trans a b c : doc_same a b -> doc_same b c -> doc_same a c.
Proof.
  intros (H1 & H2 & H3) (H4 & H5 & H6). split; [congruence|]. split; [congruence|]. eapply elem_same_trans; eauto.
Qed.
Lemma doc_eqb_refl a : elem_ok (d_root a) -> doc_eqb a a = true.
Proof. intro H. apply doc_eqb_same; [easy..|]. apply doc_same_refl. Qed.
Lemma doc_eqb_sym a b : elem_ok (d_root a) -> elem_ok (d_root b) -> doc_eqb a b = true -> doc_eqb b a = true.
Proof. intros H1 H2 H. apply doc_eqb_same in H; [|easy..]. apply doc_eqb_same; [easy..|]. now apply doc_same_sym. Qed.
Lemma doc_eqb_trans a b c : elem_ok (d_root a) -> elem_ok (d_root b) -> elem_ok (d_root c) ->
  doc_eqb a b = true -> doc_eqb b c = true -> doc_eqb a c = true.
Proof.
  intros H1 H2 H3 E1 E2. apply doc_eqb_same in E1, E2; [|easy..]. apply doc_eqb_same; [easy..|].
  eapply doc_same_trans; eauto.
Qed.

(** * Hash *)

Lemma elem_hash_same a b : elem_eqb a b = true -> elem_hash_input a = elem_hash_input b.
Proof.
  rewrite elem_eqb_eq, !andb_true_iff, str_eqb_eq, !ostr_eqb_eq. intros ((((E1 & E2) & _) & _) & _).
  unfold elem_hash_input. congruence.
Qed.
Lemma node_hash_same a b : node_eqb a b = true -> node_hash_input a = node_hash_input b.
Proof.
  destruct a, b; cbn [node_eqb node_hash_input]; try discriminate; try (rewrite str_eqb_eq; congruence).
  apply elem_hash_same.
Qed.

(** * Order of strings and attributes *)

Lemma str_cmp_eq a : forall b, str_cmp a b = Eq <-> a = b.
Proof.
  induction a as [|x a IH]; intros [|y b]; cbn [str_cmp]; try (split; easy).
  destruct (N.compare_spec x y) as [->|H|H]; [rewrite IH|..]; split; try congruence; try (intro E; injection E; lia).
Qed.
Lemma str_cmp_refl a : str_cmp a a = Eq.
Proof. now apply str_cmp_eq. Qed.
Lemma str_cmp_antisym a : forall b, str_cmp b a = CompOpp (str_cmp a b).
Proof.
  induction a as [|x a IH]; intros [|y b]; cbn [str_cmp]; try easy.
  rewrite (N.compare_antisym x y). destruct (x ?= y)%N; cbn [CompOpp]; easy.
Qed.
Lemma str_cmp_lt a : forall b, str_cmp a b = Lt <-> str_lt a b.
Proof.
  induction a as [|x a IH]; intros [|y b]; cbn [str_cmp].
  - split; [discriminate|]. intros [(x & r & E)|(p & x & y & r & s & E & _)]; [discriminate|]. now destruct p.
  - split; [|easy]. intros _. left. now exists y, b.
  - split; [discriminate|]. intros [(z & r & E)|(p & z & y & r & s & _ & E & _)]; [discriminate|]. now destruct p.
  - destruct (N.compare_spec x y) as [->|H|H].
    + rewrite IH. split.
      * intros [(z & r & ->)|(p & z & w & r & s & -> & -> & Hz)].
        -- left. now exists z, r.
        -- right. now exists (y :: p), z, w, r, s.
      * intros [(z & r & E)|(p & z & w & r & s & E1 & E2 & Hz)].
        -- left. injection E as ->. now exists z, r.
        -- destruct p as [|q p].
           ++ injection E1 as -> ->. injection E2 as -> ->. lia.
           ++ injection E1 as <- ->. injection E2 as ->. right. now exists p, z, w, r, s.
    + split; [|easy]. intros _. right. now exists [], x, y, a, b.
    + split; [discriminate|]. intros [(z & r & E)|(p & z & w & r & s & E1 & E2 & Hz)].
      * injection E as -> _. lia.
      * destruct p as [|q p].
        -- injection E1 as -> ->. injection E2 as -> ->. lia.
        -- injection E1 as <- ->. injection E2 as -> _. lia.
Qed.
Lemma str_lt_trans a b c : str_lt a b -> str_lt b c -> str_lt a c.
Proof.
  rewrite <- !str_cmp_lt. revert b c. induction a as [|x a IH]; intros [|y b] [|z c]; cbn [str_cmp]; try easy.
  destruct (N.compare_spec x y), (N.compare_spec y z); subst; try easy.
  - rewrite N.compare_refl. apply IH.
  - intros _ _. apply N.compare_lt_iff in H0. now rewrite H0.
  - intros _ _. apply N.compare_lt_iff in H. now rewrite H.
  - intros _ _. assert (x < z)%N as H1 by lia. apply N.compare_lt_iff in H1. now rewrite H1.
Qed.
Lemma str_lt_irrefl a : ~ str_lt a a.
Proof. rewrite <- str_cmp_lt, str_cmp_refl. discriminate. Qed.
Lemma str_lt_total a b : str_lt a b \/ a = b \/ str_lt b a.
Proof.
  rewrite <- !str_cmp_lt. destruct (str_cmp a b) eqn:E.
  - right. left. now apply str_cmp_eq.
  - now left.
  - right. right. now rewrite str_cmp_antisym, E.
Qed.

Lemma sXmlns_spec k : starts_with sXmlns k = true <-> xmlns_name k.
Proof. apply starts_with_spec. Qed.
Lemma sXmlns_spec_false k : starts_with sXmlns k = false <-> ~ xmlns_name k.
Proof. rewrite <- sXmlns_spec. destruct (starts_with sXmlns k); split; congruence. Qed.
Lemma attribute_order_lt x y : fst x <> fst y -> (attribute_order x y = Lt <-> attr_before x y).
Proof.
  intro Hn. unfold attribute_order, attr_before. apply str_eqb_neq in Hn. rewrite Hn.
  rewrite <- str_cmp_lt. rewrite <- !sXmlns_spec.
  destruct (starts_with sXmlns (fst x)), (starts_with sXmlns (fst y)); cbn [negb andb]; split; intuition congruence.
Qed.
Lemma attribute_order_eq x y : attribute_order x y = Eq <-> x = y.
Proof.
  unfold attribute_order. destruct x as [k v], y as [k' v']. cbn [fst snd].
  destruct (str_eqb k k') eqn:E.
  - apply str_eqb_eq in E. subst. rewrite str_cmp_eq. split; congruence.
  - apply str_eqb_neq in E. destruct (starts_with sXmlns k), (starts_with sXmlns k'); cbn [negb andb];
      rewrite ?str_cmp_eq; split; congruence.
Qed.
Lemma attribute_order_antisym x y : attribute_order y x = CompOpp (attribute_order x y).
Proof.
  unfold attribute_order. rewrite (str_eqb_sym (fst y) (fst x)).
  destruct (str_eqb (fst x) (fst y)); [apply str_cmp_antisym|].
  destruct (starts_with sXmlns (fst x)), (starts_with sXmlns (fst y)); cbn [negb andb CompOpp]; easy || apply str_cmp_antisym.
Qed.
Lemma attribute_order_lt_iff x y : attribute_order x y = Lt <->
  (fst x = fst y /\ str_lt (snd x) (snd y)) \/ (fst x <> fst y /\ attr_before x y).
Proof.
  destruct (str_eq_dec (fst x) (fst y)) as [E|E].
  - unfold attribute_order. rewrite E, str_eqb_refl, str_cmp_lt. intuition.
  - rewrite attribute_order_lt by easy. intuition.
Qed.
Lemma attr_before_trans x y z : attr_before x y -> attr_before y z -> attr_before x z.
Proof.
  unfold attr_before. intros [H1|[H1 L1]] [H2|[H2 L2]]; try tauto.
  right. split; [tauto|]. eapply str_lt_trans; eauto.
Qed.
Lemma attr_before_irrefl x : ~ attr_before x x.
Proof. intros [H|[_ H]]; [tauto|]. now apply str_lt_irrefl in H. Qed.
Lemma attr_before_key x y z : fst y = fst z -> attr_before x y -> attr_before x z.
Proof. unfold attr_before. now intros ->. Qed.
Lemma attr_before_key_l x y z : fst x = fst y -> attr_before x z -> attr_before y z.
Proof. unfold attr_before. now intros ->. Qed.
Lemma attribute_order_trans x y z : attribute_order x y = Lt -> attribute_order y z = Lt -> attribute_order x z = Lt.
Proof.
  rewrite !attribute_order_lt_iff. intros [[E1 L1]|[E1 B1]] [[E2 L2]|[E2 B2]].
  - left. split; [congruence|]. eapply str_lt_trans; eauto.
  - right. split; [congruence|]. eapply attr_before_key_l; [symmetry; eassumption|easy].
  - right. split; [congruence|]. eapply attr_before_key; eassumption.
  - assert (attr_before x z) as B by (eapply attr_before_trans; eauto). right. split; [|easy].
    intro E. eapply attr_before_irrefl. eapply attr_before_key; [symmetry; exact E|exact B].
Qed.

(** * Sorting *)

Lemma insert_by_perm {A} cmp (x : A) l : Permutation (insert_by cmp x l) (x :: l).
Proof.
  induction l as [|y l IH]; [easy|]. cbn [insert_by]. destruct (cmp x y); try easy.
  eapply Permutation_trans; [apply perm_skip, IH|]. apply perm_swap.
Qed.
Lemma sort_by_perm {A} cmp (l : list A) : Permutation (sort_by cmp l) l.
Proof.
  induction l as [|x l IH]; [easy|]. cbn [sort_by].
  eapply Permutation_trans; [apply insert_by_perm|]. now apply perm_skip.
Qed.
Inductive sorted_le : list (str * str) -> Prop :=
| sl_nil : sorted_le []
| sl_cons x l : (forall y, In y l -> attribute_order x y <> Gt) -> sorted_le l -> sorted_le (x :: l).
Lemma attribute_order_le_trans x y z :
  attribute_order x y <> Gt -> attribute_order y z <> Gt -> attribute_order x z <> Gt.
Proof.
  intros H1 H2 H3. destruct (attribute_order x y) eqn:E1; [|destruct (attribute_order y z) eqn:E2|easy].
  - apply attribute_order_eq in E1. subst. easy.
  - apply attribute_order_eq in E2. subst. congruence.
  - rewrite (attribute_order_trans x y z) in H3 by easy. discriminate.
  - easy.
Qed.
Lemma insert_by_sorted x l : sorted_le l -> sorted_le (insert_by attribute_order x l).
Proof.
  induction 1 as [|y l Hy Hs IH]; cbn [insert_by]; [repeat constructor; easy|].
  assert (attribute_order x y <> Gt -> sorted_le (x :: y :: l)) as Hle.
  { intro H. constructor; [|now constructor]. intros z [<-|Hz]; [easy|].
    eapply attribute_order_le_trans; [exact H|auto]. }
  destruct (attribute_order x y) eqn:E; try (apply Hle; congruence). constructor; [|easy].
  intros z Hz. eapply Permutation_in in Hz; [|apply insert_by_perm]. destruct Hz as [<-|Hz]; [|auto].
  rewrite attribute_order_antisym, E. discriminate.
Qed.
Lemma sort_by_sorted l : sorted_le (sort_by attribute_order l).
Proof. induction l as [|x l IH]; cbn [sort_by]; [constructor|]. now apply insert_by_sorted. Qed.
Lemma sorted_le_unique l1 : sorted_le l1 -> forall l2, sorted_le l2 -> Permutation l1 l2 -> l1 = l2.
Proof.
  induction 1 as [|x l1 Hx Hs IH]; intros l2 H2 P.
  - apply Permutation_nil in P. now subst.
  - destruct H2 as [|y l2 Hy H2]; [now apply Permutation_sym, Permutation_nil in P|].
    assert (x = y) as <-.
    { assert (In x (y :: l2)) as Hi1 by (eapply Permutation_in; [exact P|now left]).
      assert (In y (x :: l1)) as Hi2 by (eapply Permutation_in; [apply Permutation_sym, P|now left]).
      destruct Hi1 as [<-|Hi1]; [easy|]. destruct Hi2 as [<-|Hi2]; [easy|].
      apply Hy in Hi1. apply Hx in Hi2. rewrite attribute_order_antisym in Hi1.
      apply attribute_order_eq. destruct (attribute_order x y); [easy|now destruct Hi1|now destruct Hi2]. }
    f_equal. apply IH; [easy|]. eapply Permutation_cons_inv; eauto.
Qed.
Lemma sort_by_same l1 l2 : Permutation l1 l2 -> sort_by attribute_order l1 = sort_by attribute_order l2.
Proof.
  intro P. apply sorted_le_unique; try apply sort_by_sorted.
  eapply Permutation_trans; [apply sort_by_perm|]. eapply Permutation_trans; [exact P|]. apply Permutation_sym, sort_by_perm.
Qed.
Lemma sorted_le_in_order l : map_ok l -> sorted_le l -> in_order l.
Proof.
  unfold map_ok. induction 2 as [|x l Hx Hs IH]; [constructor|]. cbn [map] in H. apply NoDup_cons_iff in H as [Hn H].
  constructor; [|auto]. intros y Hy. assert (fst x <> fst y) as Hk.
  { intro E. apply Hn. rewrite E. now apply in_map. }
  apply attribute_order_lt; [easy|]. specialize (Hx y Hy). destruct (attribute_order x y) eqn:E; [|easy|easy].
  apply attribute_order_eq in E. now subst.
Qed.
Lemma sort_in_order m : map_ok m -> attrs_in_order m (sort_by attribute_order m).
Proof.
  intro H. split; [apply Permutation_sym, sort_by_perm|]. apply sorted_le_in_order; [|apply sort_by_sorted].
  unfold map_ok. eapply Permutation_NoDup; [|exact H]. apply Permutation_map, Permutation_sym, sort_by_perm.
Qed.
Lemma in_order_sorted l : in_order l -> sorted_le l.
Proof.
  induction 1 as [|x l Hx Hs IH]; constructor; [|easy]. intros y Hy. apply Hx in Hy.
  assert (fst x <> fst y) as Hk. { intro E. eapply attr_before_irrefl. eapply attr_before_key; [symmetry; exact E|exact Hy]. }
  apply attribute_order_lt in Hy; [|easy]. congruence.
Qed.
Lemma attrs_in_order_unique m l : attrs_in_order m l -> l = sort_by attribute_order m.
Proof.
  intros [P H]. apply sorted_le_unique; [now apply in_order_sorted|apply sort_by_sorted|].
  eapply Permutation_trans; [apply Permutation_sym, P|apply Permutation_sym, sort_by_perm].
Qed.

(** * Serialization *)

Lemma attr_to_string_eq kv : attr_to_string kv = attr_text kv.
Proof. unfold attr_to_string, attr_text, attribute_escape. now rewrite escape_char_map. Qed.
Lemma attrs_to_string_eq a : attrs_to_string a = flat_map attr_text (sort_by attribute_order a).
Proof. unfold attrs_to_string. apply flat_map_ext. apply attr_to_string_eq. Qed.
Lemma tag_name_qualified e : tag_name_of (e_prefix e) (e_name e) = qualified e.
Proof. reflexivity. Qed.

(** The children of an element, in the form of the loop of the source. *)
Section SerNodes.
Context (next ind : str) (inline : bool).
Fixpoint ser_nodes (l : list node) : str :=
  match l with
  | [] => []
  | c :: l' =>
      (match c with
       | NText t => text_escape t
       | NElem e' => elem_to_string next ind inline e'
       | NComment _ | NCData _ => (if inline then [] else next) ++ leaf_to_string c
       end) ++ (if inline then [] else [cNL]) ++ ser_nodes l'
  end.
End SerNodes.
Definition block_inline (inline : bool) (ch : list node) : bool := inline || existsb is_text ch.
Lemma elem_to_string_eq pre ind inline e :
  elem_to_string pre ind inline e =
  (if inline then [] else pre) ++ lit "<" ++ qualified e ++ attrs_to_string (e_attributes e) ++
  match e_children e with
  | [] => lit "/>"
  | [c0] => if is_element c0
            then lit ">" ++ (if inline then [] else [cNL]) ++ ser_nodes (pre ++ ind) ind inline [c0] ++
                 (if inline then [] else pre) ++ closing e
            else lit ">" ++ leaf_to_string c0 ++ closing e
  | ch => let b := block_inline inline ch in
          lit ">" ++ (if b then [] else [cNL]) ++ ser_nodes (pre ++ ind) ind b ch ++
          (if b then [] else pre) ++ closing e
  end.
Proof.
  destruct e as [nm ch at_ ns px cx]. cbn [e_children e_attributes].
  change (qualified (mkElem nm ch at_ ns px cx)) with (tag_name_of px nm).
  change (closing (mkElem nm ch at_ ns px cx)) with (lit "</" ++ tag_name_of px nm ++ lit ">").
  destruct ch as [|c0 [|c1 rest]].
  - cbn [elem_to_string]. now rewrite <- !app_assoc.
  - cbn [elem_to_string]. destruct c0 as [c|s|s|s]; cbn [is_element negb andb existsb is_text ser_nodes];
      rewrite ?orb_false_r, <- !app_assoc; try reflexivity.
  - cbn [elem_to_string andb ser_nodes]. unfold block_inline. cbv zeta. rewrite <- !app_assoc. reflexivity.
Qed.

Lemma leaf_to_string_text n : is_element n = false -> leaf_text n (leaf_to_string n).
Proof. destruct n; cbn; try easy. intros _. apply text_escape_char_map. Qed.

Scheme inline_elem_mut := Minimality for inline_elem Sort Prop
  with inline_nodes_mut := Minimality for inline_nodes Sort Prop.
Scheme layout_mut := Minimality for layout Sort Prop
  with layout_lines_mut := Minimality for layout_lines Sort Prop.

Lemma inline_serialization : forall e, elem_ok e -> exists s, inline_elem e s /\ forall pre ind, elem_to_string pre ind true e = s.
Proof.
  induction e as [e IH] using elem_ind'. intro H. apply elem_ok_inv in H as (Ha & _ & Hc).
  assert (exists s, inline_nodes (e_children e) s /\ forall pre ind, ser_nodes pre ind true (e_children e) = s) as (s & Hs & E).
  { revert IH Hc. generalize (e_children e). induction l as [|n l IHl]; intros IH Hc.
    - exists []. split; [constructor|easy].
    - destruct IHl as (r & Hr & Er); [intros c Hi; apply IH; now right|intros c Hi; apply Hc; now right|].
      destruct n as [c|t|t|t].
      + destruct (IH c) as (s & Hs & Es); [now left|apply Hc; now left|]. exists (s ++ r). split; [now apply in_elem|].
        intros pre ind. cbn [ser_nodes app]. now rewrite Es, Er.
      + eexists. split; [apply in_leaf with (s := text_escape t); [apply text_escape_char_map|exact Hr]|].
        intros pre ind. cbn [ser_nodes app]. now rewrite Er.
      + eexists. split; [apply in_leaf; [reflexivity|exact Hr]|].
        intros pre ind. cbn [ser_nodes app]. now rewrite Er.
      + eexists. split; [apply in_leaf; [reflexivity|exact Hr]|].
        intros pre ind. cbn [ser_nodes app]. now rewrite Er. }
  pose proof (sort_in_order _ Ha) as Ho.
  destruct (e_children e) as [|c0 rest] eqn:Ec.
  - eexists. split; [now apply ie_empty with (l := sort_by attribute_order (e_attributes e))|]. intros. rewrite elem_to_string_eq, Ec, attrs_to_string_eq. reflexivity.
  - eexists. split; [apply ie_full with (s := s); [exact Ho|now rewrite Ec|now rewrite Ec]|].
    intros pre ind. rewrite elem_to_string_eq, Ec, attrs_to_string_eq. unfold opening.
    rewrite <- !app_assoc. cbn [app]. do 3 f_equal. rewrite <- (E (pre ++ ind) ind).
    destruct rest as [|c1 rest]; [|reflexivity]. destruct c0 as [c|t|t|t]; cbn [is_element ser_nodes app]; rewrite ?app_nil_r; reflexivity.
Qed.
Lemma existsb_text l : existsb is_text l = true <-> exists t, In (NText t) l.
Proof.
  rewrite existsb_exists. split.
  - intros (n & Hn & Ht). destruct n; try discriminate. eauto.
  - intros (t & Ht). now exists (NText t).
Qed.
Lemma written_inline_serialization e pre ind : written_inline e ->
  elem_to_string pre ind false e = pre ++ elem_to_string pre ind true e.
Proof.
  intro H. rewrite !elem_to_string_eq. cbn [app]. do 4 f_equal.
  destruct H as [->|[Ht|(n & -> & Hn)]]; [reflexivity| |].
  - destruct (e_children e) as [|c0 [|c1 rest]]; [reflexivity| |].
    + destruct Ht as (t & [->|[]]). reflexivity.
    + apply existsb_text in Ht. unfold block_inline. rewrite Ht. cbn [orb]. reflexivity.
  - destruct n as [c|s|s|s]; [now destruct (Hn c)|reflexivity..].
Qed.
Lemma block_serialization e pre ind : ~ written_inline e ->
  elem_to_string pre ind false e =
  pre ++ lit "<" ++ qualified e ++ attrs_to_string (e_attributes e) ++ lit ">" ++ [cNL] ++
  ser_nodes (pre ++ ind) ind false (e_children e) ++ pre ++ closing e.
Proof.
  intro H. rewrite elem_to_string_eq. do 4 f_equal.
  destruct (e_children e) as [|c0 [|c1 rest]] eqn:E.
  - destruct H. now left.
  - destruct c0 as [c|s|s|s]; [reflexivity|..]; destruct H; right; right; eexists; split; try exact E; discriminate.
  - assert (existsb is_text (c0 :: c1 :: rest) = false) as Hb.
    { destruct (existsb is_text (c0 :: c1 :: rest)) eqn:Et; [|easy]. apply existsb_text in Et. destruct H. right. left. now rewrite E. }
    unfold block_inline. cbn [orb]. rewrite Hb. reflexivity.
Qed.
Lemma written_inline_dec e : written_inline e \/ ~ written_inline e.
Proof.
  unfold written_inline. destruct (existsb is_text (e_children e)) eqn:Et.
  - apply existsb_text in Et. tauto.
  - assert (~ exists t, In (NText t) (e_children e)) as Hn by (rewrite <- existsb_text; congruence).
    destruct (e_children e) as [|c0 [|c1 rest]].
    + tauto.
    + destruct c0 as [c|s|s|s]; [|left; right; right; eexists; split; [reflexivity|discriminate]..].
      right. intros [F|[F|(n & F & G)]]; [discriminate|tauto|]. injection F as <-. now apply (G c).
    + right. intros [F|[F|(n & F & G)]]; [discriminate|tauto|discriminate].
Qed.
Lemma layout_serialization ind : forall e, elem_ok e -> forall pre, layout ind pre e (elem_to_string pre ind false e).
Proof.
  induction e as [e IH] using elem_ind'. intros H pre. destruct (written_inline_dec e) as [W|W].
  - rewrite written_inline_serialization by easy. apply la_inline; [easy|].
    destruct (inline_serialization e H) as (s & Hs & ->). exact Hs.
  - rewrite block_serialization by easy. apply elem_ok_inv in H as (Ha & _ & Hc).
    replace (pre ++ lit "<" ++ _) with
      (pre ++ opening e (sort_by attribute_order (e_attributes e)) (lit ">") ++ [10%N] ++
       ser_nodes (pre ++ ind) ind false (e_children e) ++ pre ++ closing e).
    2: { unfold opening. rewrite attrs_to_string_eq, <- !app_assoc. reflexivity. }
    apply la_block; [easy|now apply sort_in_order|].
    assert (forall t, ~ In (NText t) (e_children e)) as Ht.
    { intros t F. apply W. right. left. eauto. }
    revert IH Hc Ht. generalize (e_children e), (pre ++ ind). clear. intros l pre. induction l as [|n l IHl]; intros IH Hc Ht.
    + constructor.
    + specialize (IHl ltac:(intros c Hi; apply IH; now right) ltac:(intros c Hi; apply Hc; now right)
                      ltac:(intros t Hi; apply (Ht t); now right)).
      destruct n as [c|t|t|t]; cbn [ser_nodes].
      * apply (ll_elem ind); [|exact IHl]. apply IH; [now left|]. apply Hc. now left.
      * destruct (Ht t). now left.
      * rewrite <- app_assoc. apply (ll_leaf ind); [reflexivity|exact IHl].
      * rewrite <- app_assoc. apply (ll_leaf ind); [reflexivity|exact IHl].
Qed.

(** Both relations are functional. *)
Lemma leaf_text_fun n s1 s2 : leaf_text n s1 -> leaf_text n s2 -> s1 = s2.
Proof. destruct n; cbn [leaf_text]; [easy|congruence..]. Qed.
Lemma inline_elem_fun : forall e s1, inline_elem e s1 -> forall s2, inline_elem e s2 -> s1 = s2.
Proof.
  apply (inline_elem_mut (fun e s1 => forall s2, inline_elem e s2 -> s1 = s2)
                         (fun l s1 => forall s2, inline_nodes l s2 -> s1 = s2)).
  - intros e l Hl Hc s2 H. inversion H as [e' l' Hl' Hc' E1 E2|e' l' s Hl' Hc' Hs E1 E2]; subst; [|easy].
    apply attrs_in_order_unique in Hl, Hl'. now subst.
  - intros e l s Hl Hc _ IH s2 H. inversion H as [e' l' Hl' Hc' E1 E2|e' l' s' Hl' Hc' Hs E1 E2]; subst; [easy|].
    apply attrs_in_order_unique in Hl, Hl'. subst. now rewrite (IH s').
  - intros s2 H. now inversion H.
  - intros n s l r Hn _ IH s2 H. inversion H as [|n' s' l' r' Hn' Hr' E1 E2|e s' l' r' He Hr' E1 E2]; subst; [|easy].
    rewrite (IH r') by easy. f_equal. eapply leaf_text_fun; eauto.
  - intros e s l r _ IHe _ IH s2 H. inversion H as [|n' s' l' r' Hn' Hr' E1 E2|e' s' l' r' He Hr' E1 E2]; subst; [easy|].
    now rewrite (IH r'), (IHe s').
Qed.

Lemma layout_fun ind : forall pre e s1, layout ind pre e s1 -> forall s2, layout ind pre e s2 -> s1 = s2.
Proof.
  apply (layout_mut ind (fun pre e s1 => forall s2, layout ind pre e s2 -> s1 = s2)
                        (fun pre l s1 => forall s2, layout_lines ind pre l s2 -> s1 = s2)).
  - intros pre e s W Hs s2 H. inversion H as [pre' e' s' W' Hs' E1 E2 E3|pre' e' l' s' W' Hl' Hs' E1 E2 E3]; subst; [|easy].
    f_equal. eapply inline_elem_fun; eauto.
  - intros pre e l s W Hl _ IH s2 H. inversion H as [pre' e' s' W' Hs' E1 E2 E3|pre' e' l' s' W' Hl' Hs' E1 E2 E3]; subst; [easy|].
    apply attrs_in_order_unique in Hl, Hl'. subst. now rewrite (IH s').
  - intros pre s2 H. now inversion H.
  - intros pre n s l r Hn _ IH s2 H. inversion H as [|pre' n' s' l' r' Hn' Hr' E1 E2|pre' e s' l' r' He Hr' E1 E2]; subst; [|easy].
    rewrite (IH r') by easy. do 2 f_equal. eapply leaf_text_fun; eauto.
  - intros pre e s l r _ IHe _ IH s2 H. inversion H as [|pre' n' s' l' r' Hn' Hr' E1 E2|pre' e' s' l' r' He Hr' E1 E2]; subst; [easy|].
    now rewrite (IH r'), (IHe s').
Qed.

(** Equal elements serialize to equal strings. *)
Lemma same_serialization : forall e1 e2, elem_same e1 e2 -> forall pre ind inline,
  elem_to_string pre ind inline e1 = elem_to_string pre ind inline e2.
Proof.
  apply (elem_same_mut
    (fun e1 e2 => forall pre ind inline, elem_to_string pre ind inline e1 = elem_to_string pre ind inline e2)
    (fun l1 l2 => (forall pre ind inline, ser_nodes pre ind inline l1 = ser_nodes pre ind inline l2) /\
       map is_text l1 = map is_text l2 /\ map is_element l1 = map is_element l2 /\
       (forall n, l1 = [n] -> is_element n = false -> l2 = [n]))).
  - intros e1 e2 En Ex Ep Pa _ (IHs & IHt & IHe & IHl) pre ind inline. rewrite !elem_to_string_eq.
    unfold closing, qualified. rewrite En, Ep, !attrs_to_string_eq, (sort_by_same _ _ Pa). do 4 f_equal.
    assert (existsb is_text (e_children e1) = existsb is_text (e_children e2)) as Et.
    { revert IHt. generalize (e_children e1) (e_children e2). clear.
      induction l as [|a l IH]; intros [|b l2] H; try discriminate; [easy|]. injection H as E1 E2. cbn [existsb].
      now rewrite E1, (IH l2). }
    destruct (e_children e1) as [|a1 [|b1 r1]], (e_children e2) as [|a2 [|b2 r2]]; try discriminate.
    + reflexivity.
    + injection IHe as Ee. rewrite Ee. destruct (is_element a2) eqn:E2.
      * now rewrite IHs.
      * specialize (IHl a1 eq_refl). rewrite Ee in IHl. specialize (IHl eq_refl). injection IHl as ->. reflexivity.
    + cbn zeta. unfold block_inline. now rewrite Et, IHs.
  - repeat split; easy.
  - intros n l1 l2 Hn _ (IHs & IHt & IHe & IHl). split; [|split; [|split]].
    + intros. cbn [ser_nodes]. now rewrite IHs.
    + cbn [map]. now rewrite IHt.
    + cbn [map]. now rewrite IHe.
    + intros m E Hm. injection E as -> ->. destruct l2; [easy|discriminate].
  - intros e1 e2 l1 l2 _ IH1 _ (IHs & IHt & IHe & IHl). split; [|split; [|split]].
    + intros. cbn [ser_nodes]. now rewrite IHs, IH1.
    + cbn [map is_text]. now rewrite IHt.
    + cbn [map is_element]. now rewrite IHe.
    + intros m E Hm. injection E as <- ->. discriminate.
Qed.
Lemma same_serialization_with_indent e1 e2 ind : elem_same e1 e2 ->
  elem_to_string_with_indent e1 ind = elem_to_string_with_indent e2 ind.
Proof. intro H. unfold elem_to_string_with_indent. now rewrite !(same_serialization _ _ H). Qed.
Lemma doc_same_serialization a b ind : doc_same a b -> doc_to_string_with_indent a ind = doc_to_string_with_indent b ind.
Proof.
  intros (E1 & E2 & H). unfold doc_to_string_with_indent. rewrite E1, E2. do 3 f_equal. now apply same_serialization_with_indent.
Qed.

(** * Indentation *)

Lemma validate_indent_spec i : validate_indent i = true <-> good_indent i.
Proof.
  unfold validate_indent, good_indent. rewrite orb_true_iff, str_eqb_eq, forallb_forall, Forall_forall.
  enough ((forall x, In x i -> (x =? 32)%N = true) <-> (forall x, In x i -> x = 32%N)) by tauto.
  split; intros H x Hx; now apply N.eqb_eq, H.
Qed.
Lemma validate_indent_false i : validate_indent i = false <-> ~ good_indent i.
Proof. rewrite <- validate_indent_spec. destruct (validate_indent i); split; congruence. Qed.
Lemma doc_good_indent d i : good_indent i ->
  doc_to_string_with_indent d i =
  (match d_declaration d with None => [] | Some decl => lit "<?" ++ decl ++ lit "?>" ++ [10%N] end) ++
  flat_map (fun dtd => dtd ++ [10%N]) (d_dtds d) ++ elem_to_string [] i false (d_root d) ++ [10%N].
Proof.
  intro H. apply validate_indent_spec in H. unfold doc_to_string_with_indent, elem_to_string_with_indent.
  rewrite H, H. destruct (d_declaration d); [|reflexivity].
  unfold declaration_to_string. rewrite <- !app_assoc. reflexivity.
Qed.
Lemma doc_bad_indent d i : ~ good_indent i -> doc_to_string_with_indent d i = doc_to_string_with_indent d (lit "  ").
Proof. intro H. apply validate_indent_false in H. unfold doc_to_string_with_indent. rewrite H. reflexivity. Qed.
Lemma elem_good_indent e i : good_indent i -> elem_to_string_with_indent e i = elem_to_string [] i false e.
Proof. intro H. apply validate_indent_spec in H. unfold elem_to_string_with_indent. now rewrite H. Qed.
Lemma elem_bad_indent e i : ~ good_indent i -> elem_to_string_with_indent e i = elem_to_string_with_indent e (lit "  ").
Proof. intro H. apply validate_indent_false in H. unfold elem_to_string_with_indent. rewrite H. reflexivity. Qed.
Lemma doc_ends_newline d i : exists s, doc_to_string_with_indent d i = s ++ [10%N].
Proof. unfold doc_to_string_with_indent. rewrite !app_assoc. now eexists. Qed.

Lemma mixed_content e t : elem_ok e -> In (NText t) (children e) -> exists s, inline_elem e s /\
  forall pre ind, elem_to_string pre ind false e = pre ++ s /\ elem_to_string pre ind true e = s.
Proof.
  intros H Ht. destruct (inline_serialization e H) as (s & Hs & E). exists s. split; [easy|].
  intros pre ind. rewrite written_inline_serialization by (right; left; eauto). now rewrite E.
Qed.
Lemma mixed_content_with_indent e t : elem_ok e -> In (NText t) (children e) -> exists s, inline_elem e s /\
  forall ind, elem_to_string_with_indent e ind = s.
Proof.
  intros H Ht. destruct (mixed_content e t H Ht) as (s & Hs & E). exists s. split; [easy|].
  intro ind. unfold elem_to_string_with_indent. destruct (validate_indent ind); now rewrite (proj1 (E _ _)).
Qed.
Lemma layout_with_indent e ind : elem_ok e -> good_indent ind -> layout ind [] e (elem_to_string_with_indent e ind).
Proof. intros H Hi. rewrite elem_good_indent by easy. now apply layout_serialization. Qed.
Lemma doc_layout d ind : elem_ok (root_element d) -> good_indent ind -> exists s,
  layout ind [] (root_element d) s /\
  doc_to_string_with_indent d ind =
  (match declaration d with None => [] | Some decl => lit "<?" ++ decl ++ lit "?>" ++ [10%N] end) ++
  flat_map (fun dtd => dtd ++ [10%N]) (doctype_defs d) ++ s ++ [10%N].
Proof.
  intros H Hi. exists (elem_to_string [] ind false (root_element d)). split; [now apply layout_serialization|].
  now apply doc_good_indent.
Qed.
Lemma eqb_serialization a b ind : elem_ok (root_element a) -> elem_ok (root_element b) ->
  doc_eqb a b = true -> doc_to_string_with_indent a ind = doc_to_string_with_indent b ind.
Proof. intros H1 H2 E. apply doc_same_serialization. now apply doc_eqb_same. Qed.
Lemma elem_eqb_serialization a b ind : elem_ok a -> elem_ok b -> elem_eqb a b = true ->
  elem_to_string_with_indent a ind = elem_to_string_with_indent b ind.
Proof. intros H1 H2 E. apply same_serialization_with_indent. now apply elem_eqb_same. Qed.
Lemma sort_spec m : map_ok m -> exists l, attrs_in_order m l /\ attrs_to_string m = flat_map attr_text l.
Proof. intro H. eexists. split; [apply (sort_in_order m H)|]. apply attrs_to_string_eq. Qed.
Lemma attrs_in_order_fun m l1 l2 : attrs_in_order m l1 -> attrs_in_order m l2 -> l1 = l2.
Proof. intros H1 H2. apply attrs_in_order_unique in H1, H2. congruence. Qed.
Lemma clone_spec e : elem_ok e ->
  elem_eqb (clone_elem e) e = true /\ elem_text (clone_elem e) = elem_text e /\
  (forall k, get_attr (clone_elem e) k = get_attr e k) /\
  namespace (clone_elem e) = namespace e /\ namespace_prefix (clone_elem e) = namespace_prefix e /\
  get_namespace_context (clone_elem e) = get_namespace_context e /\
  (forall ind, elem_to_string_with_indent (clone_elem e) ind = elem_to_string_with_indent e ind).
Proof. intro H. rewrite clone_id. split; [now apply elem_eqb_refl|]. repeat split. Qed.
Lemma clone_node_spec n : node_ok n -> node_eqb (clone_node n) n = true /\ clone_node n = n.
Proof. intro H. rewrite clone_node_id. split; [now apply node_eqb_refl|easy]. Qed.

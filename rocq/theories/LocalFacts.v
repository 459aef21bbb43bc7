(** Facts about changing one place of a tree. *)
From Coq Require Import List NArith Arith Bool Lia Ascii String.
From Verif Require Import Base Escape Dom Spec SpecDom BaseFacts EscapeFacts DomFacts SerFacts SpecLocal.
Import ListNotations.

Lemma ser_nodes_app next ind b l1 l2 : ser_nodes next ind b (l1 ++ l2) = ser_nodes next ind b l1 ++ ser_nodes next ind b l2.
Proof. induction l1 as [|n l1 IH]; [easy|]. cbn [app ser_nodes]. now rewrite IH, <- !app_assoc. Qed.
Lemma existsb_same a n n' b : is_text n = is_text n' -> existsb is_text (a ++ n :: b) = existsb is_text (a ++ n' :: b).
Proof. intro H. rewrite !existsb_app. cbn [existsb]. now rewrite H. Qed.

Lemma firstn_exact {A} (a b : list A) : firstn (List.length a) (a ++ b) = a.
Proof. rewrite firstn_app, firstn_all, Nat.sub_diag. cbn. apply app_nil_r. Qed.
Lemma skipn_exact {A} (a b : list A) : skipn (List.length a) (a ++ b) = b.
Proof. rewrite skipn_app, skipn_all, Nat.sub_diag. easy. Qed.

(** The children part of an element with any children. *)
Definition body (pre ind : str) (inline : bool) (ch : list node) : str :=
  match ch with
  | [] => []
  | [c0] => if is_element c0
            then (if inline then [] else [cNL]) ++ ser_nodes (pre ++ ind) ind inline [c0] ++ (if inline then [] else pre)
            else leaf_to_string c0
  | ch => let b := block_inline inline ch in
          (if b then [] else [cNL]) ++ ser_nodes (pre ++ ind) ind b ch ++ (if b then [] else pre)
  end.
Definition head (pre : str) (inline : bool) (e : elem) : str :=
  (if inline then [] else pre) ++ lit "<" ++ qualified e ++ attrs_to_string (e_attributes e).
Lemma to_string_body pre ind inline e : elem_to_string pre ind inline e =
  head pre inline e ++ match e_children e with [] => lit "/>" | ch => lit ">" ++ body pre ind inline ch ++ closing e end.
Proof.
  rewrite elem_to_string_eq. unfold head. rewrite <- !app_assoc. do 4 f_equal.
  destruct (e_children e) as [|c0 [|c1 r]]; [easy| |]; cbn [body].
  - destruct (is_element c0); rewrite <- ?app_assoc; easy.
  - cbv zeta. now rewrite <- !app_assoc.
Qed.
(** One child among others: what surrounds it does not depend on it. *)
Definition inner (pre ind : str) (inline : bool) (n : node) : str :=
  match n with NElem c => elem_to_string pre ind inline c | _ => leaf_to_string n end.
Lemma body_place pre ind inline a n b : exists x y, forall n', same_sort n n' ->
  body pre ind inline (a ++ n' :: b) = x ++ inner (pre ++ ind) ind (block_inline inline (a ++ n :: b)) n' ++ y.
Proof.
  set (u := if block_inline inline (a ++ n :: b) then [] else [cNL]).
  set (v := if block_inline inline (a ++ n :: b) then [] else pre).
  set (w := ser_nodes (pre ++ ind) ind (block_inline inline (a ++ n :: b))).
  set (g := match n with NElem _ | NText _ => [] | _ => if block_inline inline (a ++ n :: b) then [] else pre ++ ind end).
  assert (forall n', same_sort n n' -> block_inline inline (a ++ n' :: b) = block_inline inline (a ++ n :: b)) as B.
  { intros n' S. unfold block_inline. f_equal. apply existsb_same. now destruct n, n'. }
  assert (forall n', same_sort n n' -> w (n' :: b) = g ++ inner (pre ++ ind) ind (block_inline inline (a ++ n :: b)) n' ++ u ++ w b) as W.
  { intros n' S. unfold w, g. destruct n, n'; try easy; cbn [ser_nodes inner leaf_to_string]; rewrite <- ?app_assoc; reflexivity. }
  destruct a as [|a0 a].
  - destruct b as [|b0 b].
    + destruct (is_element n) eqn:En.
      * exists u, (u ++ v). intros n' S. cbn [app body]. assert (is_element n' = true) as -> by now destruct n, n'.
        assert (block_inline inline ([] ++ [n]) = inline) as Bi. { unfold block_inline. destruct n; try easy. cbn. now rewrite orb_false_r. }
        subst u v w g. rewrite Bi in *. rewrite W by easy. destruct n; try easy. cbn [app ser_nodes] in *. rewrite <- !app_assoc.
        now rewrite Bi.
      * exists [], []. intros n' S. cbn [app body]. assert (is_element n' = false) as -> by now destruct n, n'.
        rewrite app_nil_r. now destruct n, n'.
    + exists (u ++ g), (u ++ w (b0 :: b) ++ v). intros n' S. cbn [app body]. cbv zeta.
      specialize (B n' S). cbn [app] in B. rewrite B. fold u v w. cbn [app] in u, v, w. fold u v w. rewrite W by easy. now rewrite <- !app_assoc.
  - exists (u ++ w (a0 :: a) ++ g), (u ++ w b ++ v). intros n' S.
    assert (body pre ind inline ((a0 :: a) ++ n' :: b) = u ++ w ((a0 :: a) ++ n' :: b) ++ v) as ->.
    { unfold u, v, w. rewrite <- (B n' S). destruct a; reflexivity. }
    unfold w at 1. rewrite ser_nodes_app. fold w. rewrite W by easy. now rewrite <- !app_assoc.
Qed.

(** Whether the children of the element at the end of the path are written inline. *)
Fixpoint inl (inline : bool) (e : elem) (p : list nat) : bool :=
  match p with
  | [] => inline
  | i :: p' => match nth_error (children e) i with Some (NElem c) => inl (block_inline inline (children e)) c p' | _ => inline end
  end.
Lemma indentation_cons ind p : indentation ind p = List.concat (repeat ind (List.length p)) ++ ind.
Proof.
  unfold indentation. replace (S (List.length p)) with (List.length p + 1) by lia.
  rewrite repeat_app, concat_app. cbn. now rewrite app_nil_r.
Qed.
Lemma path_place ind : forall p e c inline pre, element_at e p = Some c -> exists x y, forall c',
  elem_to_string pre ind inline (put_element p c' e) =
  x ++ elem_to_string (pre ++ List.concat (repeat ind (List.length p))) ind (inl inline e p) c' ++ y.
Proof.
  induction p as [|i p IH]; intros e c inline pre H.
  - injection H as <-. exists [], []. intro c'. cbn [List.length repeat List.concat app inl]. now rewrite !app_nil_r.
  - cbn [element_at] in H. destruct (nth_error (children e) i) as [[d|t|t|t]|] eqn:E; try discriminate.
    pose proof (nth_error_split _ _ E) as (a & b & Ec & Hi). unfold children in Ec.
    destruct (body_place pre ind inline a (NElem d) b) as (x1 & y1 & H1).
    destruct (IH d c (block_inline inline (children e)) (pre ++ ind) H) as (x2 & y2 & H2).
    exists (head pre inline e ++ lit ">" ++ x1 ++ x2), (y2 ++ y1 ++ closing e). intro c'. cbn [put_element inl]. rewrite E.
    rewrite to_string_body. cbn [e_children].
    assert (firstn i (children e) = a) as -> by (unfold children; rewrite Ec, <- Hi; apply firstn_exact).
    assert (skipn (S i) (children e) = b) as ->.
    { unfold children. rewrite Ec, <- Hi. replace (a ++ NElem d :: b) with ((a ++ [NElem d]) ++ b) by now rewrite <- app_assoc.
      replace (S (List.length a)) with (List.length (a ++ [NElem d])) by (rewrite app_length; cbn; lia). apply skipn_exact. }
    specialize (H1 (NElem (put_element p c' d)) I). cbn [inner] in H1. rewrite <- Ec in H1. fold (children e) in H1. rewrite H2 in H1.
    change (head pre inline (mkElem _ _ _ _ _ _)) with (head pre inline e).
    change (closing (mkElem _ _ _ _ _ _)) with (closing e).
    match goal with |- head _ _ _ ++ match ?l with [] => _ | _ :: _ => _ end = _ => destruct l as [|z zs] eqn:Ez end.
    + now destruct a.
    + rewrite H1. cbn [List.length repeat List.concat]. rewrite <- !app_assoc. reflexivity.
Qed.

Lemma mixed_nil e : mixed e [] <-> exists t, In (NText t) (children e).
Proof.
  split.
  - intros (up & down & d & t & E & H & Ht). symmetry in E. apply app_eq_nil in E as [-> ->]. injection H as <-. now exists t.
  - intros (t & Ht). now exists [], [], e, t.
Qed.
Lemma mixed_cons e i d p : nth_error (children e) i = Some (NElem d) ->
  (mixed e (i :: p) <-> (exists t, In (NText t) (children e)) \/ mixed d p).
Proof.
  intro E. split.
  - intros (up & down & x & t & Ep & H & Ht). destruct up as [|j up].
    + left. injection H as <-. now exists t.
    + right. cbn [app] in Ep. injection Ep as <- ->. cbn [element_at] in H. rewrite E in H. now exists up, down, x, t.
  - intros [(t & Ht)|(up & down & x & t & -> & H & Ht)].
    + now exists [], (i :: p), e, t.
    + exists (i :: up), down, x, t. split; [easy|]. split; [|easy]. cbn [element_at]. now rewrite E.
Qed.
Lemma inl_mixed : forall p e c inline, element_at e p = Some c ->
  (block_inline (inl inline e p) (children c) = true <-> inline = true \/ mixed e p).
Proof.
  induction p as [|i p IH]; intros e c inline H.
  - injection H as <-. cbn [inl]. unfold block_inline. rewrite orb_true_iff, existsb_text, mixed_nil. easy.
  - cbn [element_at] in H. cbn [inl]. destruct (nth_error (children e) i) as [[d|t|t|t]|] eqn:E; try discriminate.
    rewrite (IH _ _ _ H), (mixed_cons _ _ _ _ E). unfold block_inline. rewrite orb_true_iff, existsb_text. tauto.
Qed.
Lemma put_element_same p e c : element_at e p = Some c -> put_element p c e = e.
Proof.
  revert e c. induction p as [|i p IH]; intros e c H.
  - now injection H as <-.
  - cbn [element_at] in H. cbn [put_element]. destruct (nth_error (children e) i) as [[d|t|t|t]|] eqn:E; try discriminate.
    rewrite (IH _ _ H). apply nth_error_split in E as (a & b & Ec & Hi). rewrite Ec, <- Hi, firstn_exact.
    replace (a ++ NElem d :: b) with ((a ++ [NElem d]) ++ b) by now rewrite <- app_assoc.
    replace (S (List.length a)) with (List.length (a ++ [NElem d])) by (rewrite app_length; cbn; lia). rewrite skipn_exact.
    rewrite <- Ec. now destruct e.
Qed.
Lemma inner_part ind e p c n : element_at e p = Some c -> node_ok n ->
  part ind e p n (inner (indentation ind p) ind (block_inline (inl false e p) (children c)) n).
Proof.
  intros H Hn. destruct n as [d|t|t|t]; try (apply part_leaf, leaf_to_string_text; reflexivity). cbn [inner].
  destruct (block_inline _ _) eqn:B.
  - apply part_inline; [apply (inl_mixed _ _ _ _ H) in B as [B|B]; easy|].
    destruct (inline_serialization d Hn) as (s & Hs & ->). exact Hs.
  - apply part_lines.
    + intro M. assert (block_inline (inl false e p) (children c) = true) by (apply (inl_mixed _ _ _ _ H); now right). congruence.
    + now apply layout_serialization.
Qed.
Lemma replace_place e p c a n b ind : good_indent ind -> element_at e p = Some c -> children c = a ++ n :: b ->
  exists before after, forall n', same_sort n n' -> node_ok n' ->
    exists s, part ind e p n' s /\ elem_to_string_with_indent (put_element p (other_children c (a ++ n' :: b)) e) ind = before ++ s ++ after.
Proof.
  intros G H Ec. destruct (path_place ind p e c false [] H) as (x & y & Hp). cbn [app] in Hp.
  destruct (body_place (List.concat (repeat ind (List.length p))) ind (inl false e p) a n b) as (x1 & y1 & H1).
  exists (x ++ head (List.concat (repeat ind (List.length p))) (inl false e p) c ++ lit ">" ++ x1), (y1 ++ closing c ++ y).
  intros n' S Hn. eexists. split; [apply inner_part; eassumption|].
  rewrite elem_good_indent by easy. rewrite Hp, to_string_body. cbn [other_children e_children].
  change (head _ _ (mkElem _ _ _ _ _ _)) with (head (List.concat (repeat ind (List.length p))) (inl false e p) c).
  change (closing (mkElem _ _ _ _ _ _)) with (closing c).
  match goal with |- x ++ (_ ++ match ?l with [] => _ | _ :: _ => _ end) ++ y = _ => destruct l as [|z zs] eqn:Ez end.
  - now destruct a.
  - rewrite <- Ez, H1 by easy. rewrite <- indentation_cons, Ec, <- !app_assoc. reflexivity.
Qed.

Lemma body_block pre ind ch : existsb is_text ch = false -> (2 <= List.length ch \/ exists c, In (NElem c) ch) ->
  body pre ind false ch = [cNL] ++ ser_nodes (pre ++ ind) ind false ch ++ pre.
Proof.
  intros T H. destruct ch as [|c0 [|c1 r]].
  - cbn in H. destruct H as [H|[c []]]. lia.
  - cbn in H. destruct H as [H|[c [->|[]]]]; [lia|]. reflexivity.
  - cbn [body]. cbv zeta. unfold block_inline. rewrite T. reflexivity.
Qed.
Lemma body_inline pre ind inline ch : block_inline inline ch = true -> ch <> [] ->
  body pre ind inline ch = ser_nodes (pre ++ ind) ind true ch.
Proof.
  intros B N. destruct ch as [|c0 [|c1 r]]; [easy| |].
  - cbn [body]. destruct c0; cbn [is_element].
    + unfold block_inline in B. cbn in B. rewrite orb_false_r in B. rewrite B. cbn [app]. now rewrite app_nil_r.
    + cbn. now rewrite !app_nil_r.
    + cbn. now rewrite !app_nil_r.
    + cbn. now rewrite !app_nil_r.
  - cbn [body]. rewrite B. cbv zeta. cbn [app]. now rewrite app_nil_r.
Qed.
Lemma nonempty_to_string pre ind inline c l : l <> [] -> elem_to_string pre ind inline (other_children c l) =
  head pre inline c ++ lit ">" ++ body pre ind inline l ++ closing c.
Proof. intro N. rewrite to_string_body. cbn [other_children e_children]. now destruct l. Qed.
Lemma add_line e p c a b ind : good_indent ind -> element_at e p = Some c -> children c = a ++ b -> ~ mixed e p ->
  (2 <= List.length (a ++ b) \/ exists d, In (NElem d) (a ++ b)) ->
  exists before after, elem_to_string_with_indent e ind = before ++ after /\
    forall n, (forall t, n <> NText t) -> node_ok n ->
      exists s, line ind e p n s /\ elem_to_string_with_indent (put_element p (other_children c (a ++ n :: b)) e) ind = before ++ s ++ after.
Proof.
  intros G H Ec M L. destruct (path_place ind p e c false [] H) as (x & y & Hp). cbn [app] in Hp.
  set (pre := List.concat (repeat ind (List.length p))) in *.
  assert (block_inline (inl false e p) (a ++ b) = false) as B.
  { rewrite <- Ec. destruct (block_inline _ _) eqn:B; [|easy]. apply (inl_mixed _ _ _ _ H) in B as [B|B]; easy. }
  pose proof B as B'. unfold block_inline in B'. apply orb_false_iff in B' as [Bi Bt]. rewrite Bi in Hp.
  exists (x ++ head pre false c ++ lit ">" ++ [cNL] ++ ser_nodes (pre ++ ind) ind false a),
         (ser_nodes (pre ++ ind) ind false b ++ pre ++ closing c ++ y).
  split.
  - rewrite elem_good_indent by easy. rewrite <- (put_element_same p e c H) at 1. rewrite Hp. replace c with (other_children c (a ++ b)) at 1 by (rewrite <- Ec; now destruct c). rewrite nonempty_to_string.
    + rewrite body_block by easy. rewrite ser_nodes_app, <- !app_assoc. reflexivity.
    + destruct (a ++ b); [|easy]. cbn in L. destruct L as [L|[d []]]. lia.
  - intros n Hn Ho. assert (is_text n = false) as Tn by (destruct n as [d|t|t|t]; try easy; now destruct (Hn t)).
    exists ((match n with NElem _ => [] | _ => indentation ind p end) ++ inner (indentation ind p) ind false n ++ [10%N]). split.
    + pose proof (inner_part ind e p c n H Ho) as P. rewrite Ec, B in P.
      destruct n as [d|t|t|t]; [apply line_elem; exact P|easy|..]; apply line_leaf; now apply leaf_to_string_text.
    + rewrite elem_good_indent by easy. rewrite Hp, nonempty_to_string by now destruct a.
      rewrite body_block.
      * rewrite ser_nodes_app, <- !app_assoc. cbn [ser_nodes]. unfold pre. rewrite <- indentation_cons.
        destruct n; try easy; cbn [inner app]; rewrite <- ?app_assoc; reflexivity.
      * rewrite existsb_app in *. cbn [existsb]. rewrite Tn. exact Bt.
      * destruct L as [L|(d & L)].
        -- left. rewrite app_length in *. cbn [List.length]. lia.
        -- right. exists d. apply in_app_or in L. apply in_or_app. cbn [In]. tauto.
Qed.
Lemma add_inline e p c a b ind : good_indent ind -> element_at e p = Some c -> children c = a ++ b -> mixed e p -> a ++ b <> [] ->
  exists before after, elem_to_string_with_indent e ind = before ++ after /\
    forall n, node_ok n ->
      exists s, part ind e p n s /\ elem_to_string_with_indent (put_element p (other_children c (a ++ n :: b)) e) ind = before ++ s ++ after.
Proof.
  intros G H Ec M N. destruct (path_place ind p e c false [] H) as (x & y & Hp). cbn [app] in Hp.
  set (pre := List.concat (repeat ind (List.length p))) in *.
  assert (block_inline (inl false e p) (a ++ b) = true) as B by (rewrite <- Ec; apply (inl_mixed _ _ _ _ H); now right).
  exists (x ++ head pre (inl false e p) c ++ lit ">" ++ ser_nodes (pre ++ ind) ind true a),
         (ser_nodes (pre ++ ind) ind true b ++ closing c ++ y).
  split.
  - rewrite elem_good_indent by easy. rewrite <- (put_element_same p e c H) at 1. rewrite Hp. replace c with (other_children c (a ++ b)) at 1 by (rewrite <- Ec; now destruct c). rewrite nonempty_to_string by easy.
    rewrite body_inline by easy. rewrite ser_nodes_app, <- !app_assoc. reflexivity.
  - intros n Ho. eexists. split; [eapply inner_part; eassumption|].
    rewrite elem_good_indent by easy. rewrite Hp, nonempty_to_string by now destruct a.
    rewrite body_inline; [|unfold block_inline in *; rewrite existsb_app in *; cbn [existsb]; destruct (inl false e p), (existsb is_text a), (is_text n); easy|now destruct a].
    rewrite Ec, B, ser_nodes_app, <- !app_assoc. cbn [ser_nodes]. unfold pre. rewrite <- indentation_cons.
    destruct n; cbn [inner leaf_to_string app]; rewrite <- ?app_assoc; reflexivity.
Qed.

Lemma attributes_place e p c ind : good_indent ind -> element_at e p = Some c -> exists before after, forall m, map_ok m ->
  exists l, attrs_in_order m l /\
    elem_to_string_with_indent (put_element p (other_attributes c m) e) ind =
    before ++ lit "<" ++ qualified c ++ flat_map attr_text l ++ after.
Proof.
  intros G H. destruct (path_place ind p e c false [] H) as (x & y & Hp). cbn [app] in Hp.
  set (pre := List.concat (repeat ind (List.length p))) in *.
  exists (x ++ (if inl false e p then [] else pre)),
    (match e_children c with [] => lit "/>" | ch => lit ">" ++ body pre ind (inl false e p) ch ++ closing c end ++ y).
  intros m Hm. exists (sort_by attribute_order m). split; [now apply sort_in_order|].
  rewrite elem_good_indent by easy. rewrite Hp, to_string_body. unfold head. cbn [other_attributes e_children e_attributes].
  rewrite attrs_to_string_eq, <- !app_assoc. reflexivity.
Qed.
Lemma root_place decl dtds ind : exists before after, forall e,
  doc_to_string_with_indent (mkDoc decl dtds e) ind = before ++ elem_to_string_with_indent e ind ++ after.
Proof.
  eexists (match decl with None => [] | Some d => declaration_to_string d ++ [cNL] end ++ flat_map (fun d => dtd_to_string d ++ [cNL]) dtds), _.
  intro e. unfold doc_to_string_with_indent. cbn [d_declaration d_dtds d_root].
  replace (elem_to_string_with_indent e (if validate_indent ind then ind else default_indent)) with (elem_to_string_with_indent e ind).
  - rewrite <- !app_assoc. reflexivity.
  - unfold elem_to_string_with_indent. destruct (validate_indent ind) eqn:E; now rewrite ?E.
Qed.
Lemma put_same path e c : element_at e path = Some c ->
  put_element path c e = e /\ other_children c (children c) = c /\ other_attributes c (attributes c) = c.
Proof. intro H. split; [now apply put_element_same|]. now destruct c. Qed.
Lemma part_fun ind e path n s t : part ind e path n s -> part ind e path n t -> s = t.
Proof.
  intros H K. destruct H as [n s H|c s M H|c s M H]; inversion K as [n' s' H'|c' s' M' H'|c' s' M' H']; subst; try easy.
  - eapply leaf_text_fun; eassumption.
  - eapply inline_elem_fun; eassumption.
  - eapply layout_fun; eassumption.
Qed.

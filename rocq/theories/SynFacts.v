(** Sources that say the same are read as equal documents, and only those. *)
From Coq Require Import List NArith Arith Bool Ascii String Lia Permutation.
From Verif Require Import Base BaseFacts Escape Dom Spec EscapeFacts SpecDom DomFacts SpecApi ApiFacts SerFacts
  ParseTree SpecTree ParseTreeFacts Parse SpecLex SpecParse LexFacts ParseFacts DocFacts TagFacts AcceptFacts ParsedFacts
  SpecDoc PrintFacts PrintDoc FormFacts RoundFacts SpecMore.
Import ListNotations.

Lemma perm_of_get m m' : map_ok m -> map_ok m' -> (forall k, aget k m = aget k m') -> Permutation m m'.
Proof.
  intros H H' E. apply NoDup_Permutation; [now eapply NoDup_map_inv, H|now eapply NoDup_map_inv, H'|].
  intros [k v]. split; intro Hi; apply in_aget in Hi; try easy; apply aget_in; congruence.
Qed.

(** * Heads *)

Record like (e e' : elem) : Prop := Like {
  lk_name : e_name e = e_name e';
  lk_prefix : e_prefix e = e_prefix e';
  lk_xmlns : e_xmlns e = e_xmlns e';
  lk_attrs : Permutation (e_attributes e) (e_attributes e');
  lk_ctx : forall k, aget k (e_context e) = aget k (e_context e')
}.
Definition like_opt (t t' : option elem) : Prop :=
  match t, t' with None, None => True | Some e, Some e' => like e e' | _, _ => False end.

Lemma set_all_get_value k l : aget k (set_all (bindings l) []) = option_map value (last_value k l).
Proof. rewrite set_all_get, last_bound_value. now destruct (last_value k l). Qed.
Lemma same_attrs_get l l' : same_attrs l l' -> forall k, aget k (set_all (bindings l) []) = aget k (set_all (bindings l') []).
Proof.
  intros H k. rewrite !set_all_get_value. specialize (H k). unfold value.
  destruct (last_value k l), (last_value k l'); cbn in *; try easy. injection H as H. now rewrite H.
Qed.
Lemma get_same_attrs l l' : Forall attr_wf l -> Forall attr_wf l' ->
  (forall k, aget k (set_all (bindings l) []) = aget k (set_all (bindings l') [])) -> same_attrs l l'.
Proof.
  intros W W' H k. specialize (H k). rewrite !set_all_get_value in H.
  assert (R : forall l r, Forall attr_wf l -> last_value k l = Some r -> unescape r = Ok (value r)).
  { intros m r Wm E. destruct (last_value_in _ _ _ E) as (a & Ha & _ & <-). rewrite Forall_forall in Wm. apply Wm in Ha.
    destruct Ha as (_ & _ & _ & _ & _ & _ & _ & [v Hv]). unfold value. now rewrite Hv. }
  destruct (last_value k l) eqn:E, (last_value k l') eqn:E'; cbn in *; try easy. injection H as H.
  now rewrite (R l), (R l'), H.
Qed.
Lemma adopt_like top top' e e' : like_opt top top' -> like e e' -> like (adopt_opt top e) (adopt_opt top' e').
Proof.
  destruct top as [t|], top' as [t'|]; try easy. intros [T1 T2 T3 T4 T5] [E1 E2 E3 E4 E5].
  destruct t as [tn tc ta tx tp tctx], t' as [tn' tc' ta' tx' tp' tctx'].
  destruct e as [en ec ea ex ep ectx], e' as [en' ec' ea' ex' ep' ectx']. cbn in *. subst.
  assert (C : forall k, aget k (inherit_context ectx tctx) = aget k (inherit_context ectx' tctx')).
  { intro k. rewrite !aget_inherit_context, E5, T5. reflexivity. }
  unfold set_namespace_context, default_namespace. cbn.
  destruct ep' as [p|], ex' as [x|]; cbn; try (constructor; cbn; try apply C; easy).
  destruct tp' as [q|]; cbn; [constructor; cbn; easy|]. destruct tx' as [y|]; constructor; cbn; easy.
Qed.
Lemma head_like_syn top top' nm l l' : like_opt top top' -> same_attrs l l' ->
  like (head_elem top nm l) (head_elem top' nm l').
Proof.
  intros T A. unfold head_elem. destruct (split_name nm) as [p n]. apply adopt_like; [easy|].
  pose proof (same_attrs_get _ _ A) as G.
  assert (O : map_ok (set_all (bindings l) [])) by (apply set_all_ok; constructor).
  assert (O' : map_ok (set_all (bindings l') [])) by (apply set_all_ok; constructor).
  assert (X : explicit_ns top (set_all (bindings l) []) p = explicit_ns top' (set_all (bindings l') []) p).
  { unfold explicit_ns. destruct p as [p|]; [|easy]. rewrite G. destruct (aget _ _); [easy|].
    destruct top as [t|], top' as [t'|]; try easy. apply T. }
  constructor; cbn; try easy.
  - rewrite X. unfold new_xmlns. destruct (explicit_ns top' (set_all (bindings l') []) p) as [x|]; [reflexivity|]. destruct p; apply G.
  - now apply perm_of_get.
  - intro k. rewrite !context_get by easy. apply G.
Qed.

(** * Trees *)

Notation made top i := (assemble (rt_item top i)).
Definition content (q : elem) (b : cbody) : list node := filter keep_node (map assemble (rt_body (Some q) b)).
Definition words_of (t : str) : list node := filter keep_node (map assemble (rt_text t)).
Lemma content_item q t i b : content q (BItem t i b) = words_of t ++ made (Some q) i :: content q b.
Proof.
  unfold content. cbn [rt_body]. rewrite !map_app, !filter_app. cbn [map filter].
  assert (keep_node (made (Some q) i) = true) as -> by now destruct i. reflexivity.
Qed.
Lemma made_empty top nm p n l w : named nm p n -> made top (CEmpty nm l w) = NElem (set_children (head_elem top nm l) []).
Proof.
  intro Hn. destruct (head_attrs top nm p n l Hn) as (_ & _ & _ & Ec). cbn [rt_item assemble map].
  rewrite build_sep; [easy|easy|]. intros a s t b E. destruct a; discriminate.
Qed.
Lemma made_elem top nm p n l w b w' : named nm p n -> body_wf b ->
  made top (CElem nm l w b w') = NElem (set_children (head_elem top nm l) (content (head_elem top nm l) b)).
Proof.
  intros Hn Hb. destruct (head_attrs top nm p n l Hn) as (_ & _ & _ & Ec). cbn [rt_item assemble].
  rewrite build_sep; [|easy|apply spaced_no_adjacent, body_spaced].
  destruct (proj2 items_meant _ Hb (head_elem top nm l)) as [_ I]. now rewrite filter_fixed.
Qed.
Lemma words_meant t : text_wf t -> text_means t (words_of t).
Proof. apply text_meant. Qed.
Lemma text_means_fun t l l' : text_means t l -> text_means t l' -> l = l'.
Proof.
  intros H H'. destruct H as [t H|t v H1 H2 H3|t v H1 H2 H3]; inversion H' as [? K|? v' K1 K2 K3|? v' K1 K2 K3]; subst; try easy; try congruence.
Qed.
Lemma same_words t t' : text_wf t -> text_wf t' -> (same_text t t' <-> words_of t = words_of t').
Proof.
  intros W W'. apply words_meant in W, W'. split.
  - intros (l & H & H'). now rewrite (text_means_fun _ _ _ W H), (text_means_fun _ _ _ W' H').
  - intro E. exists (words_of t). split; [easy|]. now rewrite E.
Qed.
Lemma words_shape t : words_of t = [] \/ exists v, words_of t = [NText v].
Proof.
  unfold words_of, rt_text. destruct (is_blank t); [now left|]. cbn. destruct (text_is_whitespace (value t)); cbn; [now left|].
  right. now eexists.
Qed.
Definition node_same (a b : node) : Prop := nodes_same [a] [b].
Lemma nodes_same_cons a b l l' : nodes_same (a :: l) (b :: l') <-> node_same a b /\ nodes_same l l'.
Proof.
  split.
  - intro H. inversion H as [|n l1 l2 Hn Hl|e1 e2 l1 l2 He Hl]; subst; (split; [|easy]); unfold node_same;
      [apply ns_leaf|apply ns_elem]; try easy; constructor.
  - intros [H Hl]. inversion H as [|n l1 l2 Hn _|e1 e2 l1 l2 He _]; subst; now constructor.
Qed.
Lemma made_no_text top i v : made top i <> NText v.
Proof. now destruct i. Qed.
Lemma node_same_text a v : node_same (NText v) a <-> a = NText v.
Proof.
  split.
  - intro H. inversion H; subst; easy.
  - intros ->. apply ns_leaf; [easy|constructor].
Qed.
Lemma split_words t t' a a' (l l' : list node) : (forall v, a <> NText v) -> (forall v, a' <> NText v) ->
  (nodes_same (words_of t ++ a :: l) (words_of t' ++ a' :: l') <->
   words_of t = words_of t' /\ node_same a a' /\ nodes_same l l').
Proof.
  intros Na Na'. destruct (words_shape t) as [->|[v ->]], (words_shape t') as [->|[v' ->]]; cbn [app]; rewrite ?nodes_same_cons, ?node_same_text.
  - tauto.
  - split; [|easy]. intros [H _]. exfalso. inversion H; subst; [|discriminate..]. now apply (Na v').
  - split; [|easy]. intros [H _]. now apply Na' in H.
  - split; [intros (E & H); now rewrite E|intros (E & H); now injection E as ->].
Qed.
Lemma same_leaves (l l' : list node) : (forall e, ~ In (NElem e) l) -> (nodes_same l l' <-> l = l').
Proof.
  revert l'. induction l as [|n l IH]; intros l' H.
  - split; [intro K; now inversion K|intros <-; constructor].
  - split.
    + intro K. inversion K as [|m l1 l2 Hn Hl|e1 e2 l1 l2 He Hl]; subst.
      * f_equal. apply IH; [|easy]. intros e Hi. apply (H e). now right.
      * exfalso. apply (H e1). now left.
    + intros <-. constructor; [|apply IH; [intros e Hi; apply (H e); now right|easy]]. intros e ->. apply (H e). now left.
Qed.
Lemma words_leaves t e : ~ In (NElem e) (words_of t).
Proof. destruct (words_shape t) as [->|[v ->]]; [easy|]. now intros [H|[]]. Qed.
Lemma elem_node_same a b : node_same (NElem a) (NElem b) <-> elem_same a b.
Proof.
  split; [intro H; inversion H as [|n l1 l2 Hn _|e1 e2 l1 l2 He _]; subst; [now destruct (Hn b)|easy]|].
  intro H. apply ns_elem; [easy|constructor].
Qed.
Lemma content_end q t : content q (BEnd t) = words_of t.
Proof. reflexivity. Qed.
Lemma content_cons q t i b : content q (BItem t i b) <> [].
Proof. rewrite content_item. now destruct (words_of t). Qed.
Lemma text_not_item q t t' i b : ~ nodes_same (words_of t) (content q (BItem t' i b)) /\ ~ nodes_same (content q (BItem t' i b)) (words_of t).
Proof.
  rewrite content_item. pose proof (made_no_text (Some q) i) as N.
  assert (L : forall l l', nodes_same l l' -> List.length l = List.length l').
  { induction l as [|x l IH]; intros l' H; inversion H; subst; cbn; [easy|f_equal; now apply IH..]. }
  split; intro H; pose proof (L _ _ H) as E; destruct (words_shape t) as [Ew|[v Ew]], (words_shape t') as [Ew'|[v' Ew']];
    rewrite Ew, Ew' in H, E; cbn in H, E; try discriminate.
  - inversion H as [|m l1 l2 Hn Hl|e1 e2 l1 l2 He Hl]; subst. now apply (N v).
  - inversion H as [|m l1 l2 Hn Hl E1 E2|e1 e2 l1 l2 He Hl]; subst. now apply (N v).
Qed.

Lemma set_same e e' l l' : elem_same (set_children e l) (set_children e' l') <->
  (e_name e = e_name e' /\ e_xmlns e = e_xmlns e' /\ e_prefix e = e_prefix e' /\ Permutation (e_attributes e) (e_attributes e')) /\
  nodes_same l l'.
Proof.
  split.
  - intro H. inversion H as [a b H1 H2 H3 H4 H5]; subst. cbn in *. easy.
  - intros ((H1 & H2 & H3 & H4) & H5). now constructor.
Qed.
Lemma named_back nm nm' p p' n n' : named nm p n -> named nm' p' n' -> p = p' -> n = n' -> nm = nm'.
Proof. intros [m H Hc|q m H Hc Hm] [m' H' Hc'|q' m' H' Hc' Hm'] E1 E2; try discriminate; congruence. Qed.
Lemma heads_same top top' nm nm' p p' n n' l l' : like_opt top top' -> named nm p n -> named nm' p' n' ->
  Forall attr_wf l -> Forall attr_wf l' ->
  let h := head_elem top nm l in let h' := head_elem top' nm' l' in
  (e_name h = e_name h' /\ e_xmlns h = e_xmlns h' /\ e_prefix h = e_prefix h' /\ Permutation (e_attributes h) (e_attributes h')) <->
  nm = nm' /\ same_attrs l l'.
Proof.
  intros T Hn Hn' Hl Hl'. cbn. destruct (head_attrs top nm p n l Hn) as (E1 & E2 & E3 & _), (head_attrs top' nm' p' n' l' Hn') as (F1 & F2 & F3 & _).
  split.
  - rewrite E1, E2, E3, F1, F2, F3. intros (H1 & _ & H3 & H4). split; [now apply (named_back nm nm' p p' n n')|].
    apply get_same_attrs; [easy..|]. intro k. apply aget_same; [apply set_all_ok; constructor|easy].
  - intros [<- A]. destruct (head_like_syn top top' nm l l' T A). easy.
Qed.

Theorem syn_same :
  (forall i, item_wf i -> forall i', item_wf i' -> forall top top', like_opt top top' ->
     (node_same (made top i) (made top' i') <-> item_syn i i')) /\
  (forall b, body_wf b -> forall b', body_wf b' -> forall q q', like q q' ->
     (nodes_same (content q b) (content q' b') <-> body_syn b b')).
Proof.
  apply citem_ind2.
  - intros nm l w ((p & n & Hn) & [Hl Hg] & Hw) i' Wi' top top' T. rewrite (made_empty top nm p n) by easy.
    destruct i' as [nm' l' w'|nm' l' w' b' v'|c'|c'].
    + destruct Wi' as ((p' & n' & Hn') & [Hl' Hg'] & Hw'). rewrite (made_empty top' nm' p' n') by easy.
      rewrite elem_node_same, set_same, (heads_same top top' nm nm' p p' n n' l l') by easy. split.
      * intros ([<- A] & _). now constructor.
      * intro S. inversion S; subst. split; [easy|constructor].
    + destruct Wi' as ((p' & n' & Hn') & [Hl' Hg'] & Hw' & Hb' & Hv'). rewrite (made_elem top' nm' p' n') by easy.
      rewrite elem_node_same, set_same, (heads_same top top' nm nm' p p' n n' l l') by easy. split.
      * intros ([<- A] & N). inversion N as [E0 E| |]. destruct b' as [t|t i b']; [|now destruct (content_cons (head_elem top' nm l') t i b')].
        apply sy_close; [easy|]. rewrite content_end in E. cbn in Hb'. apply words_meant in Hb'. now rewrite <- E in Hb'.
      * intro S. inversion S; subst. split; [easy|]. rewrite content_end. cbn in Hb'. apply words_meant in Hb'.
        match goal with H : text_means t [] |- _ => rewrite (text_means_fun _ _ _ Hb' H) end. constructor.
    + split; [intro H; inversion H; subst; easy|intro S; inversion S].
    + split; [intro H; inversion H; subst; easy|intro S; inversion S].
  - intros nm l w b IH v ((p & n & Hn) & [Hl Hg] & Hw & Hb & Hv) i' Wi' top top' T. rewrite (made_elem top nm p n) by easy.
    destruct i' as [nm' l' w'|nm' l' w' b' v'|c'|c'].
    + destruct Wi' as ((p' & n' & Hn') & [Hl' Hg'] & Hw'). rewrite (made_empty top' nm' p' n') by easy.
      rewrite elem_node_same, set_same, (heads_same top top' nm nm' p p' n n' l l') by easy. split.
      * intros ([<- A] & N). inversion N as [E| |]. destruct b as [t|t i b]; [|now destruct (content_cons (head_elem top nm l) t i b)].
        apply sy_unclose; [easy|]. rewrite content_end in E. cbn in Hb. apply words_meant in Hb. now rewrite <- E in Hb.
      * intro S. inversion S; subst. split; [easy|]. rewrite content_end. cbn in Hb. apply words_meant in Hb.
        match goal with H : text_means t [] |- _ => rewrite (text_means_fun _ _ _ Hb H) end. constructor.
    + destruct Wi' as ((p' & n' & Hn') & [Hl' Hg'] & Hw' & Hb' & Hv'). rewrite (made_elem top' nm' p' n') by easy.
      rewrite elem_node_same, set_same, (heads_same top top' nm nm' p p' n n' l l') by easy. split.
      * intros ([<- A] & N). apply sy_elem; [easy|]. apply (IH Hb b' Hb' (head_elem top nm l) (head_elem top' nm l')); [|easy].
        now apply head_like_syn.
      * intro S. inversion S; subst. split; [easy|]. apply IH; [easy|easy|now apply head_like_syn|easy].
    + split; [intro H; inversion H; subst; easy|intro S; inversion S].
    + split; [intro H; inversion H; subst; easy|intro S; inversion S].
  - intros c Hc i' Wi' top top' T. cbn [rt_item assemble]. split.
    + intro H. inversion H as [|m l1 l2 Hn Hl|e1 e2 l1 l2 He Hl]; subst. destruct i' as [| |c'|c']; try discriminate; cbn in *; try congruence.
      match goal with E : NComment _ = NComment _ |- _ => injection E as -> end. constructor.
    + intro S. inversion S; subst. apply ns_leaf; [easy|constructor].
  - intros c Hc i' Wi' top top' T. cbn [rt_item assemble]. split.
    + intro H. inversion H as [|m l1 l2 Hn Hl|e1 e2 l1 l2 He Hl]; subst. destruct i' as [| |c'|c']; try discriminate; cbn in *; try congruence.
      match goal with E : NCData _ = NCData _ |- _ => injection E as -> end. constructor.
    + intro S. inversion S; subst. apply ns_leaf; [easy|constructor].
  - intros t Ht b' Hb' q q' L. rewrite content_end. destruct b' as [t'|t' i' b'].
    + rewrite content_end, same_leaves by apply words_leaves. rewrite <- same_words by easy. split; [now constructor|].
      intro S. now inversion S.
    + split; [intro H; now apply (proj1 (text_not_item q' t t' i' b')) in H|intro S; inversion S].
  - intros t i IHi b IHb (Ht & Hi & Hb) b' Hb' q q' L. destruct b' as [t'|t' i' b'].
    + split; [intro H; rewrite content_end in H; now apply (proj2 (text_not_item q t' t i b)) in H|intro S; inversion S].
    + destruct Hb' as (Ht' & Hi' & Hb'). rewrite !content_item, split_words by apply made_no_text.
      rewrite <- same_words by easy. rewrite (IHi Hi i' Hi' (Some q) (Some q')) by easy. rewrite (IHb Hb b' Hb' q q') by easy.
      split; [intros (H1 & H2 & H3); now constructor|]. intro S. now inversion S.
Qed.

Lemma made_root i : item_wf i -> root_wf i -> made None i = NElem (root_of i).
Proof.
  intros W (nm & l & [[w ->]|(w & b & v & ->)] & _); unfold root_of; cbn [item_wf] in W.
  - destruct W as ((p & n & Hn) & _). now rewrite (made_empty None nm p n).
  - destruct W as ((p & n & Hn) & _ & _ & Hb & _). now rewrite (made_elem None nm p n).
Qed.
Theorem syn_doc x y : source_wf x -> source_wf y -> (doc_same (document_of x) (document_of y) <-> source_syn x y).
Proof.
  intros Wx Wy. destruct Wx as (_ & _ & _ & _ & Hi & Hr & _), Wy as (_ & _ & _ & _ & Hi' & Hr' & _).
  unfold doc_same, source_syn, document_of. cbn [d_declaration d_dtds d_root].
  rewrite <- (proj1 syn_same (x_root x) Hi (x_root y) Hi' None None) by easy.
  rewrite !made_root, elem_node_same by easy. reflexivity.
Qed.

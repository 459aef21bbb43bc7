(** The document of an accepted input. *)
From Coq Require Import List NArith Arith Bool Ascii String Lia.
From Verif Require Import Base BaseFacts Escape Dom Spec EscapeFacts SpecDom DomFacts SpecApi ApiFacts
  ParseTree SpecTree ParseTreeFacts Parse SpecLex SpecParse LexFacts ParseFacts DocFacts TagFacts AcceptFacts.
Import ListNotations.

(** * Building an element from its children *)

Lemma filter_rev {A} (p : A -> bool) l : filter p (rev l) = rev (filter p l).
Proof.
  induction l as [|x l IH]; [easy|]. cbn [rev]. rewrite filter_app, IH. cbn [filter]. destruct (p x); [easy|].
  now rewrite app_nil_r.
Qed.
Lemma non_text_inherited e n : non_text (inherited e n) = non_text n.
Proof. now destruct n. Qed.
Lemma filter_inherited (p : node -> bool) e l : (forall n, p (inherited e n) = p n) ->
  filter p (map (inherited e) l) = map (inherited e) (filter p l).
Proof.
  intro H. induction l as [|n l IH]; [easy|]. cbn [map filter]. rewrite H, IH. now destruct (p n).
Qed.
Lemma no_adjacent_rev l : no_adjacent_text l -> no_adjacent_text (rev l).
Proof.
  intros H a s t b E. apply (H (rev b) t s (rev a)). apply (f_equal (@rev _)) in E. rewrite rev_involutive in E.
  rewrite E, !rev_app_distr. cbn. now rewrite <- app_assoc.
Qed.
Lemma text_normal_rev' l : text_normal l -> text_normal (rev l).
Proof.
  intros [H1 H2]. split; [now apply no_adjacent_rev|]. intros s Hs. apply H2. now apply in_rev.
Qed.

Lemma gather_fold : forall ms e, text_normal (e_children e) -> exists l, fold_left adopt1 ms e = set_children e l /\
  text_normal l /\ filter non_text l = filter non_text (e_children e) ++ map (inherited e) (filter non_text ms).
Proof.
  induction ms as [|m ms IH]; intros e H.
  - exists (e_children e). cbn. rewrite app_nil_r. split; [symmetry; apply set_children_id|easy].
  - cbn [fold_left]. destruct (IH (adopt1 e m)) as (l & E & Hn & Hf).
    { unfold adopt1. apply clean_normal. }
    exists l. split; [rewrite E; reflexivity|]. split; [easy|]. rewrite Hf. unfold adopt1 at 1. cbn [e_children set_children].
    rewrite clean_non_text, filter_app, <- app_assoc. f_equal.
    cbn [filter]. rewrite non_text_inherited. destruct (non_text m); reflexivity.
Qed.
Lemma build_shape e ns : e_children e = [] -> exists l, build e ns = set_children e l /\ text_normal l /\
  filter non_text l = map (inherited e) (filter non_text ns).
Proof.
  intro H. unfold build, gather. destruct (gather_fold (rev ns) e) as (l & E & Hn & Hf).
  { rewrite H. split; [|easy]. intros a s t b Ea. destruct a; discriminate. }
  rewrite E. unfold reverse_children. cbn [e_children set_children]. exists (rev l).
  split; [reflexivity|]. split; [now apply text_normal_rev'|].
  rewrite filter_rev, Hf, H. cbn [filter app]. rewrite filter_rev, map_rev, rev_involutive. reflexivity.
Qed.
Lemma build_children e ns n : e_children e = [] -> In n (e_children (build e ns)) ->
  (exists s, n = NText s) \/ exists n0, In n0 ns /\ (forall s, n0 <> NText s) /\ n = inherited e n0.
Proof.
  intros H Hi. destruct (build_shape e ns H) as (l & E & _ & Hf). rewrite E in Hi. cbn in Hi.
  destruct (non_text n) eqn:En.
  - right. assert (Hn : In n (filter non_text l)) by (apply filter_In; now split).
    rewrite Hf in Hn. apply in_map_iff in Hn. destruct Hn as (n0 & <- & Hn). apply filter_In in Hn. destruct Hn as [Hn Ht].
    exists n0. split; [easy|]. split; [|easy]. intros s ->. discriminate.
  - left. destruct n; try discriminate. now eexists.
Qed.

(** Without adjacent texts. *)
Lemma merge_id l : no_adjacent_text l -> merge_text l = l.
Proof.
  induction l as [|n l IH]; intro H; [easy|]. unfold merge_text. cbn [fold_right]. fold (merge_text l).
  rewrite IH; [|intros a s t b ->; now apply (H (n :: a) s t b)].
  destruct n as [c|s|s|s]; try reflexivity. destruct l as [|[c|s'|s'|s'] l]; try reflexivity.
  now destruct (H [] s s' l).
Qed.
Lemma clean_sep l : no_adjacent_text l -> clean l = filter keep_node l.
Proof. intro H. unfold clean. now rewrite merge_id. Qed.
Lemma no_adjacent_bool (l : list node) : no_adjacent_text l <-> forall a b, map is_text l <> a ++ [true; true] ++ b.
Proof.
  split.
  - intros H a b E. apply map_eq_app in E. destruct E as (x & y & -> & _ & E).
    destruct y as [|n1 [|n2 y]]; try discriminate. cbn in E. injection E as E1 E2 _.
    destruct n1 as [|s1| |]; try discriminate. destruct n2 as [|s2| |]; try discriminate. now apply (H x s1 s2 y).
  - intros H a s t b ->. apply (H (map is_text a) (map is_text b)). rewrite !map_app. reflexivity.
Qed.
Lemma no_adjacent_same l l' : map is_text l = map is_text l' -> no_adjacent_text l -> no_adjacent_text l'.
Proof. intros E. rewrite !no_adjacent_bool. now rewrite E. Qed.
Lemma no_adjacent_drop a s b : no_adjacent_text (a ++ NText s :: b) -> no_adjacent_text (a ++ b).
Proof.
  intros H x t1 t2 y E. apply app_eq_app in E. destruct E as [z [[-> E]|[-> E]]].
  - destruct z as [|z0 z].
    + cbn in E. subst b. apply (H x s t1 (NText t2 :: y)). now rewrite app_nil_r.
    + cbn in E. injection E as <- E. destruct z as [|z1 z].
      * cbn in E. subst b. apply (H x t1 s (NText t2 :: y)). now rewrite <- app_assoc.
      * cbn in E. injection E as <- ->. apply (H x t1 t2 (z ++ NText s :: b)). now rewrite <- app_assoc.
  - subst b. apply (H (a ++ NText s :: z) t1 t2 y). now rewrite <- app_assoc.
Qed.
Lemma is_text_inherited e n : is_text (inherited e n) = is_text n.
Proof. now destruct n. Qed.

Lemma fold_adopt1_sep e : forall ms l0, text_normal l0 -> no_adjacent_text (l0 ++ ms) ->
  fold_left adopt1 ms (set_children e l0) = set_children e (l0 ++ map (inherited e) (filter keep_node ms)).
Proof.
  induction ms as [|m ms IH]; intros l0 H0 Ha; cbn [fold_left filter map].
  - now rewrite app_nil_r.
  - unfold adopt1 at 2. cbn [e_children set_children]. rewrite inherited_set_children, set_children_twice.
    assert (no_adjacent_text (l0 ++ [inherited e m])) as Ha1.
    { apply (no_adjacent_same (l0 ++ [m])); [rewrite !map_app; cbn; now rewrite is_text_inherited|].
      intros a s t b E. apply (Ha a s t (b ++ ms)). replace (l0 ++ m :: ms) with ((l0 ++ [m]) ++ ms) by now rewrite <- app_assoc.
      rewrite E, <- !app_assoc. reflexivity. }
    rewrite clean_sep by easy. rewrite filter_app. cbn [filter]. rewrite keep_inherited.
    assert (filter keep_node l0 = l0) as Ef.
    { rewrite <- (clean_fixed l0 H0) at 2. symmetry. apply clean_sep, H0. }
    rewrite Ef. destruct (keep_node m) eqn:Ek.
    + rewrite IH; [now rewrite <- app_assoc| |].
      * split; [easy|]. intros s Hs. apply in_app_or in Hs. destruct Hs as [Hs|[Hs|[]]]; [now apply H0|].
        apply inherited_text in Hs. subst m. cbn in Ek. apply not_blank. now apply negb_true_iff.
      * apply (no_adjacent_same (l0 ++ m :: ms)); [|easy]. rewrite <- app_assoc, !map_app. cbn. now rewrite is_text_inherited.
    + rewrite app_nil_r. apply IH; [easy|]. destruct m as [c|s|s|s]; try discriminate. now apply no_adjacent_drop with s.
Qed.
Lemma build_sep e ns : e_children e = [] -> no_adjacent_text ns ->
  build e ns = set_children e (map (inherited e) (filter keep_node ns)).
Proof.
  intros E H. unfold build, gather.
  replace e with (set_children e []) at 1 by (rewrite <- E; apply set_children_id).
  rewrite fold_adopt1_sep; [|split; [|easy]; intros a s t b Ea; destruct a; discriminate|now apply no_adjacent_rev].
  unfold reverse_children. cbn [e_children set_children app]. rewrite set_children_twice.
  now rewrite filter_rev, map_rev, rev_involutive.
Qed.

(** * Every parsed document is well-formed *)

Definition head_ok (e : elem) : Prop := elem_valid e /\ e_children e = [].
Inductive rt_valid : rtree -> Prop :=
| rv_elem e ks : head_ok e -> (forall k, In k ks -> rt_valid k) -> rt_valid (RT (NElem e) ks)
| rv_leaf n : (forall e, n <> NElem e) -> node_valid n -> rt_valid (RT n []).
Definition frame_valid (x : elem * list rtree) : Prop := head_ok (fst x) /\ forall k, In k (snd x) -> rt_valid k.
Definition m_valid (m : machine) : Prop :=
  match m with
  | MNew => True
  | MOpen e ks outer => frame_valid (e, ks) /\ Forall frame_valid outer
  | MDone e ks => frame_valid (e, ks)
  end.

Lemma adopt_opt_inherited t e : NElem (adopt_opt (Some t) e) = inherited t (NElem e).
Proof. reflexivity. Qed.
Lemma adopt_opt_children top e : e_children (adopt_opt top e) = e_children e.
Proof.
  destruct top as [t|]; [|reflexivity]. cbn.
  unfold set_namespace_context, default_namespace.
  destruct e as [nm ch at_ [x|] [p|] ctx]; cbn; try reflexivity.
  destruct (e_prefix t); [reflexivity|]. now destruct (e_xmlns t).
Qed.
Lemma element_of_valid top b e : element_of top b = Ok e -> head_ok e.
Proof.
  intro H. apply element_of_spec in H. destruct H as (nm & comps & l & prefix & local & W & Rl & Q & V1 & V2 & _ & ->).
  split; [|now rewrite adopt_opt_children].
  assert (elem_valid (bare local prefix (set_all l []) (explicit_ns top (set_all l []) prefix))) as V.
  { apply elem_valid_intro; cbn; try easy; [apply set_all_ok; constructor|apply context_ok]. }
  destruct top as [t|]; [|exact V].
  change (node_valid (NElem (adopt_opt (Some t) (bare local prefix (set_all l []) (explicit_ns (Some t) (set_all l []) prefix))))).
  rewrite adopt_opt_inherited. now apply inherited_valid.
Qed.

Lemma text_step_valid m txt m' : m_valid m -> text_step m txt m' -> m_valid m'.
Proof.
  intros V [H|op m1 H D]; [easy|]. inversion H as [|t v B U]; subst.
  destruct m as [|e ks outer|]; try discriminate. cbn in D. injection D as <-.
  destruct V as [[V1 V2] V3]. split; [|easy]. split; [easy|]. cbn. intros k Hk. apply in_app_or in Hk.
  destruct Hk as [Hk|[<-|[]]]; [now apply V2|]. now apply rv_leaf.
Qed.
Lemma tag_step_valid m t m' : delimited t -> m_valid m -> tag_step m t m' -> m_valid m'.
Proof.
  intros Dt V [op m1 H D]. apply tag_op_effect in H; [|easy].
  assert (App : forall e ks outer k, m_valid (MOpen e ks outer) -> rt_valid k -> m_valid (MOpen e (ks ++ [k]) outer)).
  { intros e ks outer k [[V1 V2] V3] Hk. split; [|easy]. split; [easy|]. cbn. intros k' Hk'. apply in_app_or in Hk'.
    destruct Hk' as [Hk'|[<-|[]]]; [now apply V2|easy]. }
  destruct H as [n B N1 N2 _ Vn|b e O Z E|b e O Z E|a C Ht].
  - destruct m as [|a ks outer|a ks]; try discriminate. cbn in D. injection D as <-. apply App; [easy|]. now apply rv_leaf.
  - destruct m as [|a ks outer|a ks]; try discriminate. cbn in D. injection D as <-. apply App; [easy|].
    apply rv_elem; [now apply element_of_valid in E|easy].
  - apply element_of_valid in E. destruct m as [|a ks outer|a ks]; cbn in D; injection D as <-.
    + split; [split; [exact E|easy]|constructor].
    + destruct V as [V1 V2]. split; [split; [easy|easy]|now constructor].
    + split; [|constructor]. split; [easy|apply V].
  - destruct m as [|a' ks [|[a1 ks1] outer]|a' ks]; try discriminate; cbn in D; injection D as <-.
    + apply V.
    + destruct V as [V1 V2]. apply Forall_cons_iff in V2. destruct V2 as [V2 V3].
      apply App; [split; [exact V2|exact V3]|]. now apply rv_elem; apply V1.
Qed.
Lemma feeds_valid m toks m' : feeds m toks m' -> Forall (fun x => delimited (snd x)) toks -> m_valid m -> m_valid m'.
Proof.
  induction 1 as [m|m txt t toks m1 m2 m' X G F IH]; intros D V; [easy|].
  apply Forall_cons_iff in D. destruct D as [D1 D2]. apply IH; [easy|]. apply (tag_step_valid m1 t); [easy| |easy].
  now apply text_step_valid with m txt.
Qed.

Definition node_normal (n : node) : Prop := match n with NElem e => tree_normal e | _ => True end.
Lemma tree_normal_head e : forall e', e_children e = e_children e' -> tree_normal e -> tree_normal e'.
Proof. intros e' E H. inversion H as [? H1 H2]; subst. constructor; rewrite <- E; easy. Qed.
Lemma inherited_normal e n : node_normal n -> node_normal (inherited e n).
Proof.
  destruct n as [c|s|s|s]; try easy. cbn [node_normal]. intro H.
  change (inherited e (NElem c)) with (NElem (adopt_opt (Some e) c)). cbn [node_normal].
  apply (tree_normal_head c); [|easy]. now rewrite adopt_opt_children.
Qed.
Lemma build_valid e ns : head_ok e -> (forall n, In n ns -> node_valid n /\ node_normal n) ->
  elem_valid (build e ns) /\ tree_normal (build e ns).
Proof.
  intros [V Hc] H. destruct (build_shape e ns Hc) as (l & E & Hn & Hf).
  assert (K : forall n, In n l -> node_valid n /\ node_normal n).
  { intros n Hi. assert (Hi' : In n (e_children (build e ns))) by now rewrite E.
    destruct (build_children e ns n Hc Hi') as [[s ->]|(n0 & H0 & _ & ->)]; [easy|].
    destruct (H n0 H0). split; [now apply inherited_valid|now apply inherited_normal]. }
  rewrite E. split.
  - apply valid_set_children; [easy|]. intros n Hi. now apply K.
  - constructor; [exact Hn|]. cbn. intros c Hi. now apply (K (NElem c)).
Qed.
Lemma assemble_valid : forall k, rt_valid k -> node_valid (assemble k) /\ node_normal (assemble k).
Proof.
  induction k as [v ks IH] using rtree_ind'. intro H. inversion H as [e ks' He Hk|n Hn Hv]; subst.
  - cbn [assemble node_valid node_normal]. apply build_valid; [easy|]. intros n Hi. apply in_map_iff in Hi.
    destruct Hi as (k & <- & Hi). apply IH; [easy|now apply Hk].
  - destruct v as [c|s|s|s]; try (now split). now destruct (Hn c).
Qed.

Theorem accepts_valid s d : accepts s d -> elem_valid (d_root d) /\ tree_normal (d_root d).
Proof.
  intros [toks txt root rest decl dtds b e body tail m r ks L P B R S E Sp H1 H2 Hm]. cbn [d_root].
  apply element_of_valid in E.
  assert (V : m_valid (MDone r ks)).
  { destruct (ends_with (lit "/>") root) eqn:Ez.
    - apply ends_spec in Ez. destruct (H1 Ez) as [_ Em]. rewrite Hm in Em. injection Em as -> ->. now split.
    - assert (Z : ~ ends (lit "/>") root).
      { intros [y Hy]. now apply (proj1 (ends_with_false _ _) Ez y). }
      specialize (H2 Z). subst m. destruct Sp as [Lb _]. apply (feeds_valid _ _ _ H2).
      + now apply lexed_delimited in Lb.
      + split; [now split|constructor]. }
  destruct V as [V1 V2]. apply build_valid; [easy|]. intros n Hi. apply in_map_iff in Hi.
  destruct Hi as (k & <- & Hi). apply assemble_valid. now apply V2.
Qed.

(** * Document order *)

Fixpoint rt_events (k : rtree) : list event :=
  match k with
  | RT (NElem e) ks => EOpen (tag_name e) :: flat_map rt_events ks ++ [EClose]
  | RT (NText s) _ => if text_is_whitespace s then [] else [EText s]
  | RT (NComment s) _ => [EComment s]
  | RT (NCData s) _ => [ECData s]
  end.
Definition frames_events (l : list (elem * list rtree)) : list event :=
  flat_map (fun x => EOpen (tag_name (fst x)) :: flat_map rt_events (snd x)) (rev l).
Definition m_events (m : machine) : list event :=
  match m with
  | MNew => []
  | MOpen e ks outer => frames_events ((e, ks) :: outer)
  | MDone e ks => frames_events [(e, ks)] ++ [EClose]
  end.
Lemma frames_events_cons x l : frames_events (x :: l) =
  frames_events l ++ EOpen (tag_name (fst x)) :: flat_map rt_events (snd x).
Proof. unfold frames_events. cbn [rev]. rewrite flat_map_app. cbn [flat_map]. now rewrite app_nil_r. Qed.

Lemma text_step_events m txt m' : text_step m txt m' ->
  exists a, text_says txt a /\ m_events m' = m_events m ++ a.
Proof.
  intros [H|op m1 H D].
  - exists []. rewrite app_nil_r. split; [|easy]. inversion H. now apply xs_blank.
  - inversion H as [|t v B U]; subst. destruct m as [|e ks outer|]; try discriminate. cbn in D. injection D as <-.
    exists (if text_is_whitespace v then [] else [EText v]). split.
    + destruct (text_is_whitespace v) eqn:Ev.
      * apply is_whitespace_blank in Ev. now apply xs_decoded_blank with v.
      * apply not_blank in Ev. now apply xs_text.
    + cbn [m_events]. rewrite !frames_events_cons. cbn [fst snd]. rewrite flat_map_app. cbn [flat_map rt_events].
      rewrite app_nil_r, <- app_assoc. reflexivity.
Qed.
Lemma tag_step_events m t m' : delimited t -> (exists e ks outer, m = MOpen e ks outer) -> tag_step m t m' ->
  exists a, tag_says t a /\ m_events m' = m_events m ++ a.
Proof.
  intros Dt (a & ks & outer & ->) [op m1 H D]. apply tag_op_effect in H; [|easy].
  destruct H as [n B N1 N2 Sy _|b e O Z E|b e O Z E|a' C Ht].
  - cbn in D. injection D as <-. eexists. split; [exact Sy|].
    cbn [m_events]. rewrite !frames_events_cons. cbn [fst snd]. rewrite flat_map_app, <- app_assoc. cbn [flat_map app].
    rewrite app_nil_r. do 2 f_equal. destruct n as [c|s|s|s]; try reflexivity; [now destruct (N1 c)|now destruct (N2 s)].
  - cbn in D. injection D as <-. exists [EOpen (tag_name e); EClose]. split; [now apply gs_single|].
    cbn [m_events]. rewrite !frames_events_cons. cbn [fst snd]. rewrite flat_map_app, <- app_assoc. reflexivity.
  - cbn in D. injection D as <-. exists [EOpen (tag_name e)]. split; [now apply gs_open|].
    cbn [m_events]. rewrite (frames_events_cons (e, [])). reflexivity.
  - exists [EClose]. split; [now apply gs_close with (tag_name a')|].
    destruct outer as [|[a1 ks1] outer]; cbn in D; injection D as <-; [reflexivity|].
    cbn [m_events]. rewrite !frames_events_cons. cbn [fst snd]. rewrite flat_map_app. cbn [flat_map rt_events].
    rewrite app_nil_r, <- !app_assoc. reflexivity.
Qed.
Lemma inside_events m toks m' : inside m toks m' -> Forall (fun x => delimited (snd x)) toks ->
  exists l, says toks l /\ m_events m' = m_events m ++ l.
Proof.
  induction 1 as [m|e ks outer txt t toks m1 m2 m' X G F IH]; intro D.
  - exists []. rewrite app_nil_r. split; [constructor|easy].
  - apply Forall_cons_iff in D. destruct D as [D1 D2].
    destruct (text_step_events _ _ _ X) as (a & Sa & Ea). destruct (text_step_open _ _ _ _ _ X) as [ks1 ->].
    destruct (tag_step_events _ _ _ D1 ltac:(now exists e, ks1, outer) G) as (b & Sb & Eb).
    destruct (IH D2) as (l & Sl & El). exists (a ++ b ++ l). split; [now constructor|].
    rewrite El, Eb, Ea, <- !app_assoc. reflexivity.
Qed.

(** Texts are separated by tags. *)
Definition rt_is_text (k : rtree) : bool := match k with RT (NText _) _ => true | _ => false end.
Definition spaced (ks : list rtree) : Prop := forall a b, map rt_is_text ks <> a ++ [true; true] ++ b.
Inductive rt_spaced : rtree -> Prop :=
| rsp v ks : spaced ks -> (forall k, In k ks -> rt_spaced k) -> rt_spaced (RT v ks).
Definition frame_spaced (x : elem * list rtree) : Prop := spaced (snd x) /\ forall k, In k (snd x) -> rt_spaced k.
Definition ends_tag (ks : list rtree) : Prop := forall a k, ks = a ++ [k] -> rt_is_text k = false.
Definition m_spaced (m : machine) : Prop :=
  match m with
  | MNew => True
  | MOpen e ks outer => frame_spaced (e, ks) /\ Forall frame_spaced outer
  | MDone e ks => frame_spaced (e, ks)
  end.
Definition m_ends_tag (m : machine) : Prop := match m with MOpen e ks outer => ends_tag ks | _ => True end.
Lemma spaced_nil : spaced [].
Proof. intros a b E. destruct a; discriminate. Qed.
Lemma spaced_snoc ks k : spaced ks -> (rt_is_text k = true -> ends_tag ks) -> spaced (ks ++ [k]).
Proof.
  intros H Hk a b E. rewrite map_app in E. cbn [map] in E.
  destruct (exists_last_or b) as [->|(b' & x & ->)].
  - cbn [app] in E. change [true; true] with ([true] ++ [true]) in E. rewrite app_assoc in E.
    apply app_inj_tail in E. destruct E as [E Et]. specialize (Hk Et).
    apply map_eq_app in E. destruct E as (l1 & l2 & -> & _ & E2).
    destruct l2 as [|k2 [|]]; try discriminate. injection E2 as E2.
    specialize (Hk l1 k2 eq_refl). congruence.
  - rewrite !app_assoc in E. apply app_inj_tail in E. destruct E as [E _]. apply (H a b'). now rewrite E, <- app_assoc.
Qed.
Lemma ends_tag_snoc ks k : rt_is_text k = false -> ends_tag (ks ++ [k]).
Proof. intros H a k' E. apply app_inj_tail in E. now destruct E as [_ <-]. Qed.
Lemma frame_snoc e ks k : frame_spaced (e, ks) -> (rt_is_text k = true -> ends_tag ks) -> rt_spaced k ->
  frame_spaced (e, ks ++ [k]).
Proof.
  intros [H1 H2] H3 H4. split; cbn in *; [now apply spaced_snoc|]. intros k' Hk. apply in_app_or in Hk.
  destruct Hk as [Hk|[<-|[]]]; [now apply H2|easy].
Qed.
Lemma rt_spaced_leaf n : rt_spaced (RT n []).
Proof. constructor; [apply spaced_nil|easy]. Qed.

Lemma text_step_spaced m txt m' : text_step m txt m' -> m_spaced m -> m_ends_tag m -> m_spaced m'.
Proof.
  intros [X|op m1 X E] Sp En; [easy|]. inversion X; subst.
  destruct m as [|e ks outer|]; try discriminate. cbn in E. injection E as <-. destruct Sp as [Sp1 Sp2].
  split; [|easy]. apply frame_snoc; [easy|easy|apply rt_spaced_leaf].
Qed.
Lemma tag_step_spaced e ks outer t m' : delimited t -> tag_step (MOpen e ks outer) t m' -> m_spaced (MOpen e ks outer) ->
  m_spaced m' /\ m_ends_tag m'.
Proof.
  intros D1 [op m2 H D] [Sp1 Sp2]. apply tag_op_effect in H; [|easy].
  destruct H as [n B N1 N2 _ _|b e' O Z E|b e' O Z E|a C Ht].
  - cbn in D. injection D as <-. assert (rt_is_text (RT n []) = false) as Et.
    { destruct n as [|s| |]; try reflexivity. now destruct (N2 s). }
    split; [|now apply ends_tag_snoc]. split; [|easy]. apply frame_snoc; [easy|congruence|apply rt_spaced_leaf].
  - cbn in D. injection D as <-. split; [|now apply ends_tag_snoc]. split; [|easy].
    apply frame_snoc; [easy|easy|apply rt_spaced_leaf].
  - cbn in D. injection D as <-. split; [split; [split; [apply spaced_nil|easy]|now constructor]|].
    intros a k E'. destruct a; discriminate.
  - destruct outer as [|[a1 k1] outer]; cbn in D; injection D as <-; [now split|].
    apply Forall_cons_iff in Sp2. destruct Sp2 as [Sp2 Sp3]. split; [|now apply ends_tag_snoc].
    split; [|easy]. apply frame_snoc; [easy|easy|]. destruct Sp1. now constructor.
Qed.
Lemma inside_spaced m toks m' : inside m toks m' -> Forall (fun x => delimited (snd x)) toks ->
  m_spaced m -> m_ends_tag m -> m_spaced m'.
Proof.
  induction 1 as [m|e ks outer txt t toks m1 m2 m' X G F IH]; intros D Sp En; [easy|].
  apply Forall_cons_iff in D. destruct D as [D1 D2]. cbn in D1.
  pose proof (text_step_spaced _ _ _ X Sp En) as Sp1. destruct (text_step_open _ _ _ _ _ X) as [ks1 ->].
  destruct (tag_step_spaced _ _ _ _ _ D1 G Sp1) as [Sp2 En2]. now apply IH.
Qed.
Lemma inside_valid m toks m' : inside m toks m' -> Forall (fun x => delimited (snd x)) toks -> m_valid m -> m_valid m'.
Proof.
  induction 1 as [m|e ks outer txt t toks m1 m2 m' X G F IH]; intros D V; [easy|].
  apply Forall_cons_iff in D. destruct D as [D1 D2]. apply IH; [easy|]. apply (tag_step_valid m1 t); [easy| |easy].
  now apply text_step_valid with (MOpen e ks outer) txt.
Qed.

Definition node_events (n : node) : list event :=
  match n with
  | NElem c => elem_events c
  | NText s => [EText s]
  | NComment s => [EComment s]
  | NCData s => [ECData s]
  end.
Lemma elem_events_eq e : elem_events e = EOpen (tag_name e) :: flat_map node_events (e_children e) ++ [EClose].
Proof. destruct e as [nm ch at_ ns [p|] ctx]; reflexivity. Qed.
Lemma is_text_assemble k : is_text (assemble k) = rt_is_text k.
Proof. destruct k as [[c|s|s|s] ks]; reflexivity. Qed.
Lemma spaced_no_adjacent ks : spaced ks -> no_adjacent_text (map assemble ks).
Proof.
  intros H. apply no_adjacent_bool. rewrite map_map. intros a b E. apply (H a b). rewrite <- E.
  apply map_ext. intro k. now rewrite is_text_assemble.
Qed.
Lemma inherited_events e n : node_events (inherited e n) = node_events n.
Proof.
  destruct n as [c|s|s|s]; try reflexivity.
  change (inherited e (NElem c)) with (NElem (adopt_opt (Some e) c)). cbn [node_events].
  rewrite !elem_events_eq, adopt_opt_children, adopt_opt_tag_name. reflexivity.
Qed.
Lemma build_events e ks : e_children e = [] -> spaced ks ->
  (forall k, In k ks -> keep_node (assemble k) = true -> node_events (assemble k) = rt_events k) ->
  elem_events (build e (map assemble ks)) = EOpen (tag_name e) :: flat_map rt_events ks ++ [EClose].
Proof.
  intros Hc Hs H. rewrite build_sep by (try easy; now apply spaced_no_adjacent).
  rewrite elem_events_eq. cbn [e_children set_children]. f_equal. f_equal.
  clear Hs. induction ks as [|k ks IH]; [easy|]. cbn [map filter flat_map].
  rewrite <- IH by (intros k' Hk'; apply H; now right).
  destruct (keep_node (assemble k)) eqn:Ek.
  - cbn [map flat_map]. rewrite inherited_events, H by (try easy; now left). reflexivity.
  - destruct k as [[c|s|s|s] ks']; try discriminate. cbn in *. apply negb_false_iff in Ek. now rewrite Ek.
Qed.
Lemma assemble_events : forall k, rt_valid k -> rt_spaced k -> keep_node (assemble k) = true ->
  node_events (assemble k) = rt_events k.
Proof.
  induction k as [v ks IH] using rtree_ind'. intros V S K. inversion S as [? ? S1 S2]; subst.
  inversion V as [e ks' He Hk|n Hn Hv]; subst.
  - cbn [assemble node_events rt_events]. apply build_events; [apply He|easy|].
    intros k Hi. apply IH; [easy|now apply Hk|now apply S2].
  - destruct v as [c|s|s|s]; try reflexivity; [now destruct (Hn c)|].
    cbn in *. apply negb_true_iff in K. now rewrite K.
Qed.

Theorem accepts_events s d pr el : accepts s d -> one_root s pr el ->
  exists l, says el l /\ elem_events (d_root d) = l.
Proof.
  intros A O. destruct (accepts_one_root _ _ _ _ A O) as (decl & dtds & txt & root & body & b & e & ks & -> & _ & W & Op & St & E & -> & H & D).
  cbn [d_root]. apply element_of_valid in E. destruct H as [(Z & -> & ->)|(Z & I)].
  - exists ([] ++ [EOpen (tag_name e); EClose] ++ []). split.
    + constructor; [now apply xs_blank|now apply gs_single|constructor].
    + rewrite build_events; [easy|apply E|apply spaced_nil|easy].
  - destruct (inside_events _ _ _ I D) as (l & Sl & El).
    assert (Sp : m_spaced (MDone e ks)).
    { apply (inside_spaced _ _ _ I D); [|intros a k Ek; destruct a; discriminate].
      split; [split; [apply spaced_nil|easy]|constructor]. }
    assert (V : m_valid (MDone e ks)).
    { apply (inside_valid _ _ _ I D). split; [now split|constructor]. }
    exists ([] ++ [EOpen (tag_name e)] ++ l). split.
    + constructor; [now apply xs_blank|now apply gs_open|easy].
    + rewrite build_events; [|apply E|apply Sp|].
      * cbn in El. rewrite app_nil_r in El. cbn. exact El.
      * intros k Hk. apply assemble_events; [now apply V|now apply Sp].
Qed.

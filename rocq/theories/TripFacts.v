(** Only writable documents survive being written and read back. *)
From Coq Require Import List NArith Arith Bool Ascii String Lia Permutation.
From Verif Require Import Base BaseFacts Escape Dom Spec EscapeFacts SpecDom DomFacts SpecApi ApiFacts Regex RegexFacts
  ParseTree SpecTree ParseTreeFacts Parse SpecLex SpecParse SpecEsc LexFacts ParseFacts DocFacts TagFacts AcceptFacts PosFacts
  DocProps SpecDoc UnescFacts PrintFacts PrintDoc PrologFacts ParsedFacts NsFacts FormFacts SerFacts RoundFacts SpecMore ReFacts
  SpecErr ReadFacts ErrFacts SpecMean MeanFacts P_Parse.
Import ListNotations.

(** * Leaves of parsed trees *)

(** Texts are not empty, comments start neither with ">" nor with "->". *)
Definition leaf_ok (n : node) : Prop :=
  match n with NElem _ => True | NText t => t <> [] | NComment c => comment_wf c | NCData _ => True end.
Inductive leaves_ok : elem -> Prop :=
| lo e : (forall n, In n (e_children e) -> leaf_ok n) -> (forall c, In (NElem c) (e_children e) -> leaves_ok c) -> leaves_ok e.
Definition node_leaves (n : node) : Prop := leaf_ok n /\ forall c, n = NElem c -> leaves_ok c.
Lemma leaves_children e : leaves_ok e <-> forall n, In n (e_children e) -> node_leaves n.
Proof.
  split.
  - intros [e' H1 H2] n Hn. split; [now apply H1|]. intros c ->. now apply H2.
  - intro H. constructor; [intros n Hn; now apply H|]. intros c Hc. now apply (H (NElem c) Hc).
Qed.
Lemma merge_leaves l : (forall n, In n l -> node_leaves n) -> forall n, In n (merge_text l) -> node_leaves n.
Proof.
  induction l as [|m l IH]; intros H n Hi; [easy|].
  assert (H1 : node_leaves m) by (apply H; now left).
  assert (H2 : forall x, In x (merge_text l) -> node_leaves x) by (apply IH; intros x Hx; apply H; now right).
  clear IH H. cbn in Hi. fold (merge_text l) in Hi. unfold merge1 in Hi.
  destruct m as [c|s|s|s]; try (destruct Hi as [<-|Hi]; [easy|now apply H2]).
  destruct (merge_text l) as [|[c|s'|s'|s'] r]; try (destruct Hi as [<-|Hi]; [easy|now apply H2]).
  destruct Hi as [<-|Hi]; [|apply H2; now right]. split; [|easy]. cbn. destruct H1 as [H1 _]. cbn in H1. now destruct s.
Qed.
Lemma clean_leaves l : (forall n, In n l -> node_leaves n) -> forall n, In n (clean l) -> node_leaves n.
Proof. intros H n Hi. apply filter_In in Hi. now apply (merge_leaves l). Qed.
Lemma inherited_leaves e n : node_leaves n -> node_leaves (inherited e n).
Proof.
  destruct n as [c|s|s|s]; try easy. intros [_ H]. split; [exact I|]. intros c' E.
  change (inherited e (NElem c)) with (NElem (adopt_opt (Some e) c)) in E. injection E as <-.
  apply leaves_children. change (match e_prefix e with None => _ | Some _ => _ end) with (default_namespace e).
  intros n Hn. apply (proj1 (leaves_children c)); [now apply H|]. now rewrite <- (adopt_opt_children (Some e) c).
Qed.
Lemma build_leaves e ns : e_children e = [] -> (forall n, In n ns -> node_leaves n) -> leaves_ok (build e ns).
Proof.
  intros He Hn. unfold build, gather.
  assert (G : forall ms e, leaves_ok e -> (forall n, In n ms -> node_leaves n) -> leaves_ok (fold_left adopt1 ms e)).
  { induction ms as [|m ms IH]; intros a Ha Hm; [easy|]. cbn [fold_left]. apply IH; [|intros x Hx; apply Hm; now right].
    unfold adopt1. apply leaves_children. cbn [set_children e_children]. apply clean_leaves. intros n Hi. apply in_app_or in Hi.
    destruct Hi as [Hi|[<-|[]]]; [now apply (proj1 (leaves_children a))|]. apply inherited_leaves. apply Hm. now left. }
  assert (H : leaves_ok (fold_left adopt1 (rev ns) e)).
  { apply G; [apply leaves_children; rewrite He; easy|intros n Hi; apply Hn; now apply in_rev]. }
  unfold reverse_children. apply leaves_children. cbn [set_children e_children]. intros n Hi. apply in_rev in Hi.
  now apply (proj1 (leaves_children _) H).
Qed.
Inductive rt_leaves : rtree -> Prop :=
| rtl v ks : leaf_ok v -> (forall e, v = NElem e -> e_children e = []) -> (forall k, In k ks -> rt_leaves k) -> rt_leaves (RT v ks).
Lemma assemble_leaves : forall k, rt_leaves k -> node_leaves (assemble k).
Proof.
  induction k as [v ks IH] using rtree_ind'. intro H. inversion H as [v' ks' Hv He Hk]; subst.
  destruct v as [e|s|s|s]; try (split; [exact Hv|easy]). cbn [assemble]. split; [exact I|]. intros c E. injection E as <-.
  apply build_leaves; [now apply He|]. intros n Hi. apply in_map_iff in Hi.
  destruct Hi as (k & <- & Hi). apply IH; [easy|now apply Hk].
Qed.
Definition frame_leaves (x : elem * list rtree) : Prop := e_children (fst x) = [] /\ forall k, In k (snd x) -> rt_leaves k.
Definition m_leaves (m : machine) : Prop :=
  match m with
  | MNew => True
  | MOpen e ks outer => frame_leaves (e, ks) /\ Forall frame_leaves outer
  | MDone e ks => frame_leaves (e, ks)
  end.
Definition op_leaves (op : pt_op) : Prop :=
  match op with OpAppend n => leaf_ok n /\ (forall e, n = NElem e -> e_children e = []) | OpPush e => e_children e = [] | OpPop => True end.
Lemma do_leaves m op m' : m_leaves m -> op_leaves op -> m_do m op = Some m' -> m_leaves m'.
Proof.
  intros V O D.
  assert (App : forall e ks outer k, m_leaves (MOpen e ks outer) -> rt_leaves k -> m_leaves (MOpen e (ks ++ [k]) outer)).
  { intros e ks outer k [[V1 V2] V3] Hk. split; [|easy]. split; [easy|]. cbn. intros k' Hk'. apply in_app_or in Hk'.
    destruct Hk' as [Hk'|[<-|[]]]; [now apply V2|easy]. }
  destruct op as [e|n|]; cbn in O.
  - destruct m as [|a ks outer|a ks]; cbn in D; injection D as <-.
    + split; [split; [easy|easy]|constructor].
    + destruct V as [V1 V2]. split; [split; [easy|easy]|now constructor].
    + split; [|constructor]. split; [easy|apply V].
  - destruct m as [|a ks outer|a ks]; try discriminate. cbn in D. injection D as <-. apply App; [easy|]. now constructor.
  - destruct m as [|a' ks [|[a1 ks1] outer]|a' ks]; try discriminate; cbn in D; injection D as <-.
    + apply V.
    + destruct V as [V1 V2]. apply Forall_cons_iff in V2. destruct V2 as [V2 V3].
      apply App; [split; [exact V2|exact V3]|]. destruct V1 as [V0 V1]. constructor; [exact I| |exact V1]. intros e E. now injection E as <-.
Qed.
Definition tag_in_text (t : str) : Prop := exists s rest, tag_at s t rest.
Lemma feeds_leaves m toks m' : feeds m toks m' -> Forall (fun x => tag_in_text (snd x)) toks -> m_leaves m -> m_leaves m'.
Proof.
  induction 1 as [m|m txt t toks m1 m2 m' X G F IH]; intros H V; [easy|].
  apply Forall_cons_iff in H. destruct H as [(s0 & rest & Ta) H]. cbn in Ta. apply IH; [easy|].
  assert (V1 : m_leaves m1).
  { destruct X as [T|op m0 T D]; [easy|]. apply (do_leaves m op); [easy| |easy]. inversion T as [|x v B U]; subst. split; [|easy]. cbn.
    apply unescape_replaced in U. apply (refs_replaced_nonempty txt); [easy|]. intros ->. apply B. constructor. }
  destruct G as [op m0 T D]. apply (do_leaves m1 op); [easy| |easy].
  destruct T as [c Hc|c Hc|t b a N1 N2 S K Ht Hb|t b e N1 N2 S K E Z|t b e N1 N2 S K E Z]; cbn.
  - split; [now apply comment_tag with s0 rest|easy].
  - easy.
  - easy.
  - split; [easy|]. intros e' Ee. injection Ee as <-. apply element_of_valid in E; apply E.
  - apply element_of_valid in E; apply E.
Qed.
Lemma lexed_tags_in s toks tail : lexed s toks tail -> Forall (fun x => tag_in_text (snd x)) toks.
Proof.
  intro L. apply Forall_forall. intros [txt t] Hi. exact (lexed_tag _ _ _ L txt t Hi).
Qed.
Theorem accepts_leaves s d : accepts s d -> leaves_ok (d_root d).
Proof.
  intros [toks txt root rest decl dtds b e body tail m r ks L P B R S E Sp H1 H2 Hm]. cbn [d_root].
  apply element_of_valid in E.
  assert (V : m_leaves (MDone r ks)).
  { destruct (ends_with (lit "/>") root) eqn:Ez.
    - apply ends_spec in Ez. destruct (H1 Ez) as [_ Em]. rewrite Hm in Em. injection Em as -> ->. split; [apply E|easy].
    - assert (Z : ~ ends (lit "/>") root).
      { intros [y Hy]. now apply (proj1 (ends_with_false _ _) Ez y). }
      specialize (H2 Z). subst m. destruct Sp as [Lb _].
      apply (feeds_leaves _ _ _ H2); [now apply lexed_tags_in in Lb|]. split; [split; [apply E|easy]|constructor]. }
  destruct V as [V1 V2]. apply build_leaves; [exact V1|]. intros n Hi. apply in_map_iff in Hi. destruct Hi as (k & <- & Hi).
  apply assemble_leaves. now apply V2.
Qed.

(** * Counting '<' *)

Definition lts (s : str) : nat := List.length (filter (N.eqb 60) s).
Lemma lts_app a b : lts (a ++ b) = lts a + lts b.
Proof. unfold lts. rewrite filter_app. apply app_length. Qed.
Lemma lts_none s : ~ In 60%N s -> lts s = 0.
Proof.
  unfold lts. induction s as [|c s IH]; intro H; [easy|]. cbn [filter]. destruct (N.eqb_spec 60 c) as [E|_].
  - exfalso. apply H. left. now symmetry.
  - apply IH. intro Hi. apply H. now right.
Qed.
Definition sum (l : list nat) : nat := fold_right Nat.add 0 l.
Lemma sum_app a b : sum (a ++ b) = sum a + sum b.
Proof. unfold sum. induction a as [|x a IH]; [easy|]. cbn. rewrite IH. lia. Qed.
Definition some_if {A} (l : list A) : nat := match l with [] => 0 | _ => 1 end.
(** The number of '<' in an element as it is written. *)
Fixpoint weight (e : elem) : nat :=
  match e with
  | mkElem _ ch _ _ _ _ =>
      S (some_if ch + (fix go (l : list node) : nat :=
        match l with
        | [] => 0
        | n :: l' => (match n with NElem c => weight c | NText _ => 0 | NComment c => S (lts c) | NCData c => S (lts c) end) + go l'
        end) ch)
  end.
Definition node_weight (n : node) : nat :=
  match n with NElem c => weight c | NText _ => 0 | NComment c => S (lts c) | NCData c => S (lts c) end.
Lemma weight_eq e : weight e = S (some_if (e_children e) + sum (map node_weight (e_children e))).
Proof.
  destruct e as [nm ch at_ x p ctx]. cbn [weight e_children]. f_equal. f_equal.
  induction ch as [|n ch IH]; [easy|]. cbn [map sum fold_right]. rewrite IH. reflexivity.
Qed.
Lemma weight_children e e' : e_children e = e_children e' -> weight e = weight e'.
Proof. intro H. rewrite !weight_eq. now rewrite H. Qed.
Lemma weight_inherited q n : node_weight (inherited q n) = node_weight n.
Proof.
  destruct n as [c|s|s|s]; try easy. change (inherited q (NElem c)) with (NElem (adopt_opt (Some q) c)). cbn [node_weight].
  apply weight_children. now rewrite (adopt_opt_children (Some q) c).
Qed.
Lemma weight_same : forall e e', elem_same e e' -> weight e = weight e'.
Proof.
  apply (elem_same_mut (fun e e' => weight e = weight e')
    (fun l l' => some_if l = some_if l' /\ sum (map node_weight l) = sum (map node_weight l'))).
  - intros e1 e2 _ _ _ _ _ [H1 H2]. rewrite !weight_eq. now rewrite H1, H2.
  - easy.
  - intros n l1 l2 _ _ [_ H]. cbn [map sum fold_right some_if]. split; [easy|]. unfold sum in H. now rewrite H.
  - intros e1 e2 l1 l2 _ H _ [_ H2]. cbn [map sum fold_right some_if]. split; [easy|]. unfold sum in H2. cbn [node_weight]. now rewrite H, H2.
Qed.
Lemma weight_non_text l : sum (map node_weight l) = sum (map node_weight (filter non_text l)).
Proof.
  induction l as [|n l IH]; [easy|]. cbn [map sum fold_right filter]. unfold sum in IH. rewrite IH. now destruct n.
Qed.
Fixpoint rweight (k : rtree) : nat :=
  match k with
  | RT v ks => match v with NElem _ => S (some_if ks + sum (map rweight ks)) | NText _ => 0 | NComment c => S (lts c) | NCData c => S (lts c) end
  end.
Lemma sum_le {A} (f g : A -> nat) l : (forall x, In x l -> f x <= g x) -> sum (map f l) <= sum (map g l).
Proof.
  induction l as [|x l IH]; intro H; [easy|]. cbn. specialize (H x (or_introl eq_refl)) as Hx.
  assert (sum (map f l) <= sum (map g l)) by (apply IH; intros y Hy; apply H; now right). unfold sum in *. lia.
Qed.
Lemma build_weight e ns : e_children e = [] -> weight (build e ns) <= S (some_if ns + sum (map node_weight ns)).
Proof.
  intro H. destruct (build_shape e ns H) as (l & E & _ & Hf). rewrite E, weight_eq. cbn [set_children e_children].
  rewrite (weight_non_text l), Hf, (weight_non_text ns), map_map.
  rewrite (map_ext _ _ (weight_inherited e)). enough (some_if l <= some_if ns) by lia.
  destruct ns as [|n ns]; [|destruct l; cbn; lia]. unfold build in E. cbn in E. unfold reverse_children in E. rewrite H in E. cbn in E.
  assert (l = []) as ->; [|easy]. apply (f_equal e_children) in E. cbn in E. now symmetry.
Qed.
Lemma assemble_weight : forall k, rt_leaves k -> node_weight (assemble k) <= rweight k.
Proof.
  induction k as [v ks IH] using rtree_ind'. intro H. inversion H as [v' ks' Hv He Hk]; subst.
  destruct v as [e|s|s|s]; try easy. cbn [assemble node_weight rweight].
  etransitivity; [apply build_weight; now apply He|]. rewrite map_map.
  assert (sum (map (fun x => node_weight (assemble x)) ks) <= sum (map rweight ks)) by (apply sum_le; intros k Hi; apply IH; [easy|now apply Hk]).
  assert (some_if (map assemble ks) = some_if ks) by now destruct ks. lia.
Qed.
Definition frame_weight (x : elem * list rtree) : nat := S (sum (map rweight (snd x))).
Definition m_weight (m : machine) : nat :=
  match m with
  | MNew => 0
  | MOpen e ks outer => frame_weight (e, ks) + sum (map frame_weight outer)
  | MDone e ks => rweight (RT (NElem e) ks)
  end.
Lemma frame_snoc e ks k : frame_weight (e, ks ++ [k]) = frame_weight (e, ks) + rweight k.
Proof. unfold frame_weight. cbn [snd]. rewrite map_app, sum_app. cbn. lia. Qed.
Lemma lt_first t : delimited t -> 1 <= lts t.
Proof. intros (b & ->). unfold lts. cbn. lia. Qed.
Lemma tag_weight m t m' : delimited t -> tag_step m t m' -> m_weight m' <= m_weight m + lts t.
Proof.
  intros Dt [op m1 H D]. pose proof (lt_first t Dt) as L.
  assert (P : op = OpPop -> m_weight m1 <= m_weight m + 1).
  { intros ->. destruct m as [|a ks [|[a1 ks1] outer]|a ks]; try discriminate; cbn in D; injection D as <-.
    - cbn [m_weight rweight map sum fold_right]. unfold frame_weight. cbn [snd]. destruct ks; cbn [some_if]; unfold sum; lia.
    - cbn [m_weight map]. rewrite frame_snoc. cbn [rweight].
      assert (frame_weight (a, ks) = S (sum (map rweight ks))) as -> by reflexivity.
      change (sum (frame_weight (a1, ks1) :: map frame_weight outer)) with (frame_weight (a1, ks1) + sum (map frame_weight outer)).
      destruct ks; cbn [some_if]; lia. }
  assert (Q : forall e, op = OpPush e -> m_weight m1 <= m_weight m + 1).
  { intros e ->. destruct m as [|a ks outer|a ks]; cbn in D; injection D as <-.
    - cbn. lia.
    - cbn [m_weight map]. unfold frame_weight at 1. cbn [snd map sum fold_right]. unfold sum. lia.
    - cbn [m_weight map rweight sum fold_right]. unfold frame_weight. cbn [snd]. unfold sum. lia. }
  assert (A : forall n w, op = OpAppend n -> rweight (RT n []) <= w -> m_weight m1 <= m_weight m + w).
  { intros n w -> Hw. destruct m as [|a ks outer|a ks]; try discriminate. cbn in D. injection D as <-. cbn [m_weight]. rewrite frame_snoc. lia. }
  destruct H as [c Hc|c Hc|t b a N1 N2 S K Ht Hb|t b e N1 N2 S K E Z|t b e N1 N2 S K E Z].
  - apply (A _ _ eq_refl). cbn [rweight]. rewrite !lts_app. cbn. lia.
  - apply (A _ _ eq_refl). cbn [rweight]. rewrite !lts_app. cbn. lia.
  - specialize (P eq_refl). lia.
  - apply (A _ _ eq_refl). cbn. lia.
  - specialize (Q _ eq_refl). lia.
Qed.
Definition tags_lts (toks : list (str * str)) : nat := sum (map (fun x => lts (snd x)) toks).
Lemma feeds_weight m toks m' : feeds m toks m' -> Forall (fun x => delimited (snd x)) toks -> m_weight m' <= m_weight m + tags_lts toks.
Proof.
  induction 1 as [m|m txt t toks m1 m2 m' X G F IH]; intro H; [unfold tags_lts; cbn; lia|].
  apply Forall_cons_iff in H. destruct H as [D H]. cbn in D. specialize (IH H).
  assert (V1 : m_weight m1 <= m_weight m).
  { destruct X as [T|op m0 T Do]; [easy|]. inversion T as [|x v B U]; subst.
    destruct m as [|a ks outer|a ks]; try discriminate. cbn in Do. injection Do as <-. cbn [m_weight]. rewrite frame_snoc. cbn. lia. }
  pose proof (tag_weight _ _ _ D G). unfold tags_lts in *. cbn [map sum fold_right snd] in *. unfold sum in *. lia.
Qed.
Definition decl_lts (o : option str) : nat := match o with None => 0 | Some d => S (lts d) end.
Definition dtds_lts (l : list str) : nat := sum (map (fun d => S (lts d)) l).
Lemma prolog_weight st p n decl dtds toks decl' dtds' : prolog st p n decl dtds toks decl' dtds' ->
  Forall (fun x => tag_in_text (snd x)) toks ->
  decl_lts decl' + dtds_lts dtds' <= decl_lts decl + dtds_lts dtds + tags_lts toks.
Proof.
  intro H. induction H as [| ? ? ? ? ? t ? d ? ? B1 B2 B3 Q IH | ? ? ? ? ? ? ? ? ? ? B1 B2 B3 Q IH | ? ? ? ? ? ? t ? d ? ? B1 B2 B3 Q IH | ? ? ? ? ? ? ? ? ? ? B1 B2 B3 B4 Q IH];
    intro F; [lia|..]; apply Forall_cons_iff in F; destruct F as [(s0 & rest & Ta) F]; cbn [snd] in Ta; specialize (IH F);
    unfold tags_lts in *; cbn [map sum fold_right snd]; unfold sum in *.
  - destruct (decl_ok _ _ _ Ta B2) as (d' & -> & _ & E). rewrite E in B3. injection B3 as ->. rewrite !lts_app.
    change (lts (lit "<?")) with 1. cbn [decl_lts] in IH. lia.
  - lia.
  - destruct (dtd_ok _ _ _ Ta B2) as (d' & -> & E). rewrite E in B3. injection B3 as ->. rewrite !lts_app.
    change (lts (lit "<!DOCTYPE")) with 1. unfold dtds_lts in IH at 2. rewrite map_app in IH. cbn [map] in IH.
    rewrite sum_app in IH. fold (dtds_lts dtds) in IH. cbn [sum fold_right] in IH. lia.
  - lia.
Qed.
Lemma lts_flatten toks : tags_lts toks <= lts (flatten toks).
Proof.
  induction toks as [|[txt t] toks IH]; [easy|]. unfold tags_lts in *. cbn [map sum fold_right snd]. unfold flatten in *. cbn [flat_map].
  rewrite !lts_app. cbn [fst snd]. unfold sum in *. lia.
Qed.
Lemma tags_lts_app a b : tags_lts (a ++ b) = tags_lts a + tags_lts b.
Proof. unfold tags_lts. now rewrite map_app, sum_app. Qed.
Theorem accepts_weight s d : accepts s d -> decl_lts (d_declaration d) + dtds_lts (d_dtds d) + weight (d_root d) <= lts s.
Proof.
  intros [toks txt root rest decl dtds b e body tail m r ks L P B R S E Sp H1 H2 Hm]. cbn [d_root d_declaration d_dtds].
  apply element_of_valid in E. destruct Sp as [Lb _].
  pose proof (lexed_tags_in _ _ _ L) as T. apply Forall_app in T. destruct T as [T _].
  pose proof (prolog_weight _ _ _ _ _ _ _ _ P T) as W. cbn [decl_lts] in W. change (dtds_lts []) with 0 in W.
  pose proof (lexed_delimited _ _ _ L) as Dl. apply Forall_app in Dl. destruct Dl as [_ Dr]. apply Forall_cons_iff in Dr. destruct Dr as [Dr _].
  pose proof (lt_first root Dr) as Lr.
  pose proof (lexed_tags_in _ _ _ Lb) as Tb. pose proof (lexed_delimited _ _ _ Lb) as Db.
  assert (Es : tags_lts toks + lts root + tags_lts body <= lts s).
  { apply lexed_flatten in L, Lb. subst s rest. rewrite !lts_app. pose proof (lts_flatten (toks ++ [(txt, root)])) as F1.
    pose proof (lts_flatten body) as F2. rewrite tags_lts_app in F1. change (tags_lts [(txt, root)]) with (lts root + 0) in F1. lia. }
  assert (V : m_leaves (MDone r ks) /\ m_weight (MDone r ks) <= lts root + tags_lts body).
  { destruct (ends_with (lit "/>") root) eqn:Ez.
    - apply ends_spec in Ez. destruct (H1 Ez) as [_ Em]. rewrite Hm in Em. injection Em as -> ->. split; [split; [apply E|easy]|]. cbn. lia.
    - assert (Z : ~ ends (lit "/>") root).
      { intros [y Hy]. now apply (proj1 (ends_with_false _ _) Ez y). }
      specialize (H2 Z). subst m. split.
      + apply (feeds_leaves _ _ _ H2); [easy|]. split; [split; [apply E|easy]|constructor].
      + pose proof (feeds_weight _ _ _ H2 Db) as W2. change (m_weight (MOpen e [] [])) with 1 in W2. lia. }
  destruct V as [V1 V2].
  assert (rt_leaves (RT (NElem r) ks)) as Hk.
  { destruct V1 as [V0 V1]. constructor; [exact I| |exact V1]. intros x Ex. now injection Ex as <-. }
  apply assemble_weight in Hk. cbn [assemble node_weight m_weight] in Hk, V2. lia.
Qed.

(** * What is written *)

(** The same source with white space of the layout between the items. *)
Inductive indents : citem -> citem -> Prop :=
| in_empty nm l w : indents (CEmpty nm l w) (CEmpty nm l w)
| in_elem nm l w b b' w' : indents_body b b' -> indents (CElem nm l w b w') (CElem nm l w b' w')
| in_comment c : indents (CComment c) (CComment c)
| in_cdata c : indents (CCData c) (CCData c)
with indents_body : cbody -> cbody -> Prop :=
| in_end t t' : t = t' \/ ws t /\ ws t' -> indents_body (BEnd t) (BEnd t')
| in_item t t' i i' b b' : t = t' \/ ws t /\ ws t' -> indents i i' -> indents_body b b' -> indents_body (BItem t i b) (BItem t' i' b').
Scheme indents_mut := Minimality for indents Sort Prop with indents_body_mut := Minimality for indents_body Sort Prop.
Combined Scheme indents_ind2 from indents_mut, indents_body_mut.
Lemma indents_refl : (forall i, indents i i) /\ (forall b, indents_body b b).
Proof. apply citem_ind2; intros; constructor; auto. Qed.
Definition layed (e : elem) (pre s : str) : Prop := exists i, s = pre ++ item_print i /\ indents (item_src e) i.
Lemma layout_indents ind : ws ind -> forall pre e s, layout ind pre e s -> ws pre -> layed e pre s.
Proof.
  intro Hind.
  apply (layout_mut ind (fun pre e s => ws pre -> layed e pre s)
    (fun pre l s => ws pre -> no_text l ->
       forall g z, ws g -> ws z -> exists b, g ++ s ++ z = body_print b /\ indents_body (body_src [] l) b)).
  - intros pre e s _ Hi Hp. exists (item_src e). rewrite (proj1 inline_src _ _ Hi). split; [easy|apply indents_refl].
  - intros pre e l s Hi Hl _ IH Hp.
    assert (Np : no_text (e_children e)) by (intros t Hin; apply Hi; right; left; now exists t).
    assert (Nc : e_children e <> []) by (intro E; apply Hi; now left).
    destruct (IH (proj2 (Forall_app _ _ _) (conj Hp Hind)) Np [10%N] pre) as (b & Eb & Ab).
    + now repeat constructor.
    + easy.
    + exists (CElem (qualified e) (attrs_src (e_attributes e)) [] b []). split.
      * rewrite (open_src _ _ _ Hl). cbn [item_print]. rewrite <- Eb. unfold SpecDom.closing. rewrite <- !app_assoc. reflexivity.
      * rewrite item_src_eq. destruct (e_children e) as [|n ch]; [easy|]. now constructor.
  - intros pre Hp _ g z Hg Hz. exists (BEnd (g ++ z)). split; [easy|]. constructor. right. split; [apply ws_nil|now apply Forall_app].
  - intros pre n s l r Hn _ IH Hp Np g z Hg Hz.
    destruct (IH Hp (fun t Hin => Np t (or_intror Hin)) [10%N] z) as (b & Eb & Ab); [now repeat constructor|easy|].
    assert (ws (g ++ pre)) as Hw by now apply Forall_app.
    destruct n as [c|t|t|t]; cbn [leaf_text] in Hn; subst.
    + contradiction.
    + exfalso. apply (Np t). now left.
    + exists (BItem (g ++ pre) (CComment t) b). split.
      * cbn [body_print item_print]. rewrite <- Eb, <- !app_assoc. reflexivity.
      * cbn [body_src]. constructor; [right; split; [apply ws_nil|easy]|constructor|easy].
    + exists (BItem (g ++ pre) (CCData t) b). split.
      * cbn [body_print item_print]. rewrite <- Eb, <- !app_assoc. reflexivity.
      * cbn [body_src]. constructor; [right; split; [apply ws_nil|easy]|constructor|easy].
  - intros pre e s l r _ IHe _ IH Hp Np g z Hg Hz.
    destruct (IH Hp (fun t Hin => Np t (or_intror Hin)) [10%N] z) as (b & Eb & Ab); [now repeat constructor|easy|].
    destruct (IHe Hp) as (i & -> & Ai).
    exists (BItem (g ++ pre) i b). split.
    + cbn [body_print]. rewrite <- Eb, <- !app_assoc. reflexivity.
    + cbn [body_src]. constructor; [right; split; [apply ws_nil|now apply Forall_app]|easy|easy].
Qed.

(** Counting. *)
Lemma ws_lts t : ws t -> lts t = 0.
Proof. intro H. now apply lts_none, ws_no_tag. Qed.
Lemma indents_lts : (forall i i', indents i i' -> lts (item_print i') = lts (item_print i)) /\
  (forall b b', indents_body b b' -> lts (body_print b') = lts (body_print b)).
Proof.
  assert (T : forall t t', t = t' \/ ws t /\ ws t' -> lts t' = lts t).
  { intros t t' [->|[H1 H2]]; [easy|]. now rewrite !ws_lts. }
  apply indents_ind2; cbn [item_print body_print]; intros; rewrite ?lts_app; try reflexivity.
  - lia.
  - now apply T.
  - rewrite (T t t') by easy. lia.
Qed.
Lemma name_lts n : Forall name_char n -> lts n = 0.
Proof.
  intro H. apply lts_none. intro Hi. rewrite Forall_forall in H. apply H, name_char_odd in Hi. now destruct Hi as (_ & _ & Hi & _).
Qed.
Lemma esc_lts set t : good_set set -> In 60%N set -> lts (flat_map (escape_char set) t) = 0.
Proof. intros G H. apply lts_none. apply esc_no_markup; [easy|easy|discriminate]. Qed.
Lemma attrs_lts m : (forall k v, In (k, v) m -> plain_name k) -> lts (flat_map attr_print (attrs_src m)) = 0.
Proof.
  intro H. unfold attrs_src. assert (K : forall k v, In (k, v) (sorted_attrs m) -> plain_name k).
  { intros k v Hi. apply (proj1 (sorted_in _ _)) in Hi. now apply (H k v). }
  induction (sorted_attrs m) as [|[k v] l IH]; [easy|]. cbn [map flat_map]. rewrite lts_app, IH by (intros k' v' Hi; apply (K k' v'); now right).
  unfold attr_print, attr_src. cbn [a_space a_key a_eq1 a_eq2 a_quote a_raw fst snd]. rewrite !lts_app.
  rewrite (name_lts k) by (apply xml_name_chars, plain_xml, (K k v); now left). unfold esc_attr.
  rewrite esc_lts; [reflexivity|apply good_all|]. now right; left.
Qed.
Lemma item_src_lts : forall e, well_named e -> lts (item_print (item_src e)) = weight e.
Proof.
  induction e as [e IH] using elem_ind'. intro W. inversion W as [? Hn Ha Hk]; subst.
  destruct (named_xml _ _ _ Hn) as [Hx _]. apply xml_name_chars, name_lts in Hx.
  rewrite item_src_eq, weight_eq. destruct (e_children e) as [|n ch] eqn:E.
  - cbn [item_print]. unfold head_print. rewrite !lts_app, Hx, attrs_lts by easy. reflexivity.
  - cbn [item_print]. unfold head_print. rewrite !lts_app, Hx, attrs_lts by easy. rewrite <- E in *.
    assert (B : forall l t, (forall c, In (NElem c) l -> lts (item_print (item_src c)) = weight c) ->
      lts (body_print (body_src t l)) = lts t + sum (map node_weight l)).
    { induction l as [|m l IHl]; intros t Hl; [cbn [body_src body_print map]; change (sum []) with 0; lia|].
      assert (Hl' : forall c, In (NElem c) l -> lts (item_print (item_src c)) = weight c) by (intros c Hc; apply Hl; now right).
      change (sum (map node_weight (m :: l))) with (node_weight m + sum (map node_weight l)).
      change (lts []) with 0 in *.
      destruct m as [c|s|s|s]; cbn [body_src body_print item_print node_weight]; rewrite ?lts_app, IHl by easy.
      - rewrite (Hl c (or_introl eq_refl)). change (lts []) with 0. lia.
      - rewrite lts_app. unfold esc_text. rewrite esc_lts; [lia|apply good_text|now right; left].
      - change (lts (lit "<!--")) with 1. change (lts (lit "-->")) with 0. change (lts []) with 0. lia.
      - change (lts (lit "<![CDATA[")) with 1. change (lts (lit "]]>")) with 0. change (lts []) with 0. lia. }
    rewrite B by (intros c Hc; apply IH; [easy|now apply Hk]). change (lts []) with 0. change (lts (lit "<")) with 1. change (lts (lit ">")) with 0. change (lts (lit "</")) with 1.
    rewrite E at 2. cbn [some_if]. lia.
Qed.

(** * The prolog of a document that comes back *)

Lemma decl_token s t rest x : tag_at s t rest -> t = lit "<?" ++ x ++ lit "?>" -> begins (lit "xml") x -> decl_wf x.
Proof.
  intros T Et Hx. split; [easy|]. destruct (tag_at_nonempty _ _ _ T) as [Es _].
  assert (P : shortest pi_like s t rest).
  { rewrite Es, Et in T. destruct T as [[r E] _|_ T|[r E] _|[r E] _ _ _|_ H _ _]; try (now rewrite <- !app_assoc in E; discriminate E).
    - now rewrite Es, Et.
    - exfalso. apply H. exists (x ++ lit "?>" ++ rest). now rewrite <- !app_assoc. }
  destruct P as (_ & (b & Eb & Q) & M). rewrite Et in Eb. apply app_inv_head, app_inv_tail in Eb. subst b. split; [easy|].
  intros a b Ex Qa. assert (B : begins t (lit "<?" ++ a ++ lit "?>")).
  { apply (M _ (b ++ lit "?>" ++ rest)); [|now exists a]. rewrite Es, Et, Ex, <- !app_assoc. reflexivity. }
  destruct B as [z B]. apply (f_equal (@List.length N)) in B. rewrite Et, Ex in B. rewrite !app_length in B. cbn in B. lia.
Qed.
Lemma accepted_decl s d x : accepts s d -> d_declaration d = Some x -> decl_wf x.
Proof.
  intros A E. destruct (accepts_balanced _ _ A) as (pr & el & tail & Sp & P & _ & SE).
  apply (accepts_declaration _ _ _ _ _ A Sp P SE) in E. destruct E as (a & txt & b & -> & Hx & _).
  destruct Sp as [L _]. destruct (lexed_tag _ _ _ L txt (lit "<?" ++ x ++ lit "?>")) as (s' & rest & T).
  { rewrite <- app_assoc. apply in_or_app. right. now left. }
  exact (decl_token s' _ rest x T eq_refl Hx).
Qed.
Lemma dtds_text_lts l : lts (flat_map (fun dtd : str => dtd ++ [10%N]) l) + List.length l = dtds_lts l.
Proof.
  unfold dtds_lts. induction l as [|x l IH]; [easy|]. cbn [flat_map List.length map]. rewrite !lts_app.
  change (sum (S (lts x) :: map (fun d => S (lts d)) l)) with (S (lts x) + sum (map (fun d => S (lts d)) l)).
  change (lts [10%N]) with 0. lia.
Qed.
Definition decl_text (o : option str) : str := match o with None => [] | Some decl => lit "<?" ++ decl ++ lit "?>" ++ [10%N] end.
Lemma doc_written d ind : elem_ok (root_element d) -> exists i, indents (item_src (root_element d)) i /\
  doc_to_string_with_indent d ind =
  decl_text (declaration d) ++ flat_map (fun dtd => dtd ++ [10%N]) (doctype_defs d) ++ item_print i ++ [10%N].
Proof.
  intro H. assert (G : forall ind, good_indent ind -> exists i, indents (item_src (root_element d)) i /\
    doc_to_string_with_indent d ind =
    decl_text (declaration d) ++ flat_map (fun dtd => dtd ++ [10%N]) (doctype_defs d) ++ item_print i ++ [10%N]).
  { intros j Hj. destruct (doc_layout d j H Hj) as (s & Ls & E).
    destruct (layout_indents j (good_indent_ws _ Hj) _ _ _ Ls ws_nil) as (i & -> & A). now exists i. }
  destruct (validate_indent ind) eqn:V; [apply G; now apply validate_indent_spec|].
  apply validate_indent_false in V. rewrite doc_bad_indent by easy. apply G. right. now repeat constructor.
Qed.
Lemma no_dtds d d' ind : elem_ok (root_element d) -> well_named (root_element d) ->
  accepts (doc_to_string_with_indent d ind) d' -> doc_same d' d -> doctype_defs d = [].
Proof.
  intros Ho W A (E1 & E2 & E3). destruct (doc_written d ind Ho) as (i & I & Es). apply accepts_weight in A.
  rewrite E1, E2, (weight_same _ _ E3), Es, !lts_app, (proj1 indents_lts _ _ I), (item_src_lts _ W) in A.
  pose proof (dtds_text_lts (doctype_defs d)) as D. change (lts [10%N]) with 0 in A.
  change (root_element d) with (d_root d) in A. change (doctype_defs d) with (d_dtds d) in *.
  assert (Ed : lts (decl_text (declaration d)) = decl_lts (d_declaration d)).
  { unfold declaration. destruct (d_declaration d) as [x|]; [|easy]. cbn [decl_text decl_lts]. rewrite !lts_app.
    change (lts (lit "<?")) with 1. change (lts (lit "?>")) with 0. change (lts [10%N]) with 0. lia. }
  rewrite Ed in A. change (fun dtd : list N => dtd ++ [10%N]) with (fun dtd : str => dtd ++ [10%N]) in A.
  assert (L : List.length (d_dtds d) = 0).
  { match type of D with ?x + ?y = ?z => set (u := x) in *; set (v := z) in * end. unfold str, char in *. lia. }
  now destruct (d_dtds d).
Qed.

(** * The tags of what is written *)

(** What parsed trees have in common, whatever their texts and values. *)
Inductive tidy : elem -> Prop :=
| ty e : text_normal (e_children e) -> (forall n, In n (e_children e) -> leaf_ok n) ->
    (forall c, In (NCData c) (e_children e) -> cdata_wf c) ->
    (forall c, In (NElem c) (e_children e) -> tidy c) -> tidy e.
Lemma tidy_intro : forall e, elem_valid e -> tree_normal e -> leaves_ok e -> tidy e.
Proof.
  induction e as [e IH] using elem_ind'. intros V T L. inversion V as [? _ _ _ _ V1 _ V2]; inversion T as [? T1 T2]; inversion L as [? L1 L2]; subst.
  constructor; auto.
Qed.
Definition shadow (n : node) : node := match n with NElem _ => NElem no_elem | _ => n end.
Lemma same_shadows : forall l l', nodes_same l l' -> map shadow l = map shadow l'.
Proof.
  apply (nodes_same_mut (fun _ _ => True) (fun l l' => map shadow l = map shadow l')); try easy.
  - intros n l1 l2 _ _ H. cbn [map]. now rewrite H.
  - intros e1 e2 l1 l2 _ _ _ H. cbn [map]. now rewrite H.
Qed.
Lemma shadow_in l n : (forall e, n <> NElem e) -> In n (map shadow l) <-> In n l.
Proof.
  intro N. split; intro H.
  - apply in_map_iff in H. destruct H as (m & E & H). destruct m as [c|s|s|s]; cbn in E; subst; try easy. now destruct (N no_elem).
  - apply in_map_iff. exists n. split; [|easy]. destruct n as [c|s|s|s]; try easy. now destruct (N c).
Qed.
Lemma shadow_normal l l' : map shadow l = map shadow l' -> text_normal l -> text_normal l'.
Proof.
  intros E [A B]. split.
  - intros a s t b H. subst l'. rewrite map_app in E. cbn [map app shadow] in E.
    apply map_eq_app in E. destruct E as (a' & r & -> & _ & E). destruct r as [|n1 [|n2 r]]; [discriminate|discriminate|].
    injection E as E1 E2 _. destruct n1; try discriminate. destruct n2; try discriminate.
    injection E1 as ->. injection E2 as ->. now apply (A a' s t r).
  - intros s H. apply B. apply shadow_in; [easy|]. rewrite E. now apply shadow_in.
Qed.
Lemma tidy_same : forall e e', elem_same e e' -> tidy e -> tidy e'.
Proof.
  apply (elem_same_mut (fun e e' => tidy e -> tidy e')
    (fun l l' => map shadow l = map shadow l' /\ ((forall c, In (NElem c) l -> tidy c) -> forall c, In (NElem c) l' -> tidy c))).
  - intros e1 e2 _ _ _ _ _ [H1 H2] T. inversion T as [? T1 T2 T3 T4]; subst. constructor.
    + now apply (shadow_normal (e_children e1)).
    + intros n Hn. destruct n as [c|s|s|s]; try exact I; apply T2; apply shadow_in; try easy; rewrite H1; now apply shadow_in.
    + intros c Hc. apply T3. apply shadow_in; [easy|]. rewrite H1. now apply shadow_in.
    + now apply H2.
  - easy.
  - intros n l1 l2 N _ [H1 H2]. split; [cbn [map]; now rewrite H1|]. intros H c [->|Hc]; [now destruct (N c)|].
    apply H2; [|easy]. intros x Hx. apply H. now right.
  - intros e1 e2 l1 l2 _ He _ [H1 H2]. split; [cbn [map]; now rewrite H1|]. intros H c [Ec|Hc].
    + injection Ec as <-. apply He, H. now left.
    + apply H2; [|easy]. intros x Hx. apply H. now right.
Qed.

Lemma attrs_src_shape m : (forall k v, In (k, v) m -> plain_name k) -> Forall (attr_shape any_str) (attrs_src m).
Proof.
  intro H. apply Forall_forall. intros a Ha. unfold attrs_src in Ha. apply in_map_iff in Ha. destruct Ha as ([k v] & <- & Hi).
  apply (proj1 (sorted_in _ _)) in Hi. apply H in Hi. unfold attr_shape, attr_src. cbn [a_space a_key a_eq1 a_eq2 a_quote a_raw fst snd].
  split; [easy|]. split; [now repeat constructor|]. split; [easy|]. split; [apply ws_nil|]. split; [apply ws_nil|]. split; [now left|].
  split; [|easy]. unfold esc_attr. apply esc_no_markup; [apply good_all|now do 4 right; left|discriminate].
Qed.
Lemma esc_text_no_tag t : no_tag (esc_text t).
Proof. unfold no_tag, esc_text. apply esc_no_markup; [apply good_text|now right; left|discriminate]. Qed.
Lemma item_src_shape : forall e, well_named e -> tidy e -> item_shape (item_src e).
Proof.
  induction e as [e IH] using elem_ind'. intros W T. inversion W as [? Hn Ha Hk]; inversion T as [? _ T2 T3 T4]; subst.
  apply attrs_src_shape in Ha. rewrite item_src_eq. destruct (e_children e) as [|n ch] eqn:E.
  - cbn [item_shape]. split; [eauto|]. split; [easy|apply ws_nil].
  - cbn [item_shape]. rewrite <- E in *. split; [eauto|]. split; [easy|]. split; [apply ws_nil|]. split; [|apply ws_nil].
    assert (B : forall l t, no_tag t -> (forall c, In (NElem c) l -> item_shape (item_src c)) ->
      (forall n, In n l -> leaf_ok n) -> (forall c, In (NCData c) l -> cdata_wf c) -> body_shape (body_src t l)).
    { induction l as [|m l IHl]; intros t Ht H1 H2 H3; [easy|].
      assert (H1' : forall c, In (NElem c) l -> item_shape (item_src c)) by (intros c Hc; apply H1; now right).
      assert (H2' : forall n, In n l -> leaf_ok n) by (intros x Hx; apply H2; now right).
      assert (H3' : forall c, In (NCData c) l -> cdata_wf c) by (intros c Hc; apply H3; now right).
      assert (N0 : no_tag []) by easy.
      destruct m as [c|s|s|s]; cbn [body_src body_shape item_shape].
      - split; [easy|]. split; [apply H1; now left|now apply IHl].
      - apply IHl; try easy. intro Hi. apply in_app_or in Hi. destruct Hi as [Hi|Hi]; [easy|now apply esc_text_no_tag in Hi].
      - split; [easy|]. split; [exact (H2 (NComment s) (or_introl eq_refl))|now apply IHl].
      - split; [easy|]. split; [apply H3; now left|now apply IHl]. }
    apply B; [easy| |easy|easy]. intros c Hc. apply IH; [easy|now apply Hk|now apply T4].
Qed.
Lemma indents_shape : (forall i i', indents i i' -> item_shape i -> item_shape i') /\
  (forall b b', indents_body b b' -> body_shape b -> body_shape b').
Proof.
  assert (T : forall t t', t = t' \/ ws t /\ ws t' -> no_tag t -> no_tag t').
  { intros t t' [->|[_ H]] Hn; [easy|now apply ws_no_tag]. }
  apply indents_ind2; cbn [item_shape body_shape]; try easy.
  - intros nm l w b b' w' _ IH (H1 & H2 & H3 & H4 & H5). split; [easy|]. split; [easy|]. split; [easy|]. split; [now apply IH|easy].
  - intros t t' i i' b b' H _ IHi _ IHb (H1 & H2 & H3). split; [now apply (T t)|]. split; [now apply IHi|now apply IHb].
Qed.

Lemma head_opening nm l w o : xml_name nm -> Forall (attr_shape any_str) l -> ws w -> o = [] \/ o = lit "/" ->
  opening (lit "<" ++ head_print nm l ++ w ++ o ++ lit ">") nm.
Proof.
  intros Hx Hl Hw Ho. destruct (head_tag_first nm l (w ++ o ++ lit ">") Hx) as (F1 & F2 & _).
  split; [easy|]. split; [easy|]. split; [destruct Hx as (c & r & -> & _); discriminate|].
  split; [apply name_solid, xml_name_chars, Hx|]. exists [], (flat_map attr_print l ++ w ++ o).
  split; [unfold head_print; cbn [app]; now rewrite <- !app_assoc|]. split; [apply ws_nil|].
  destruct l as [|a l].
  - destruct w as [|c w].
    + destruct Ho as [->| ->]; [|now right; left]. left. split; [easy|]. now apply (open_not_empty (R := any_str) nm [] []).
    + right. right. exists c, (w ++ o). split; [easy|]. now inversion Hw.
  - right. right. inversion Hl as [|? ? (Hs1 & Hs2 & _) _]; subst. cbn [flat_map]. unfold attr_print.
    destruct (a_space a) as [|c sp]; [easy|]. exists c. eexists. split; [reflexivity|]. now inversion Hs2.
Qed.
Definition is_element (i : citem) : Prop := match i with CEmpty _ _ _ | CElem _ _ _ _ _ => True | _ => False end.
Lemma empty_opening nm l w : xml_name nm -> Forall (attr_shape any_str) l -> ws w ->
  opening (empty_tag nm l w) nm /\ self_closing (empty_tag nm l w).
Proof.
  intros H1 H2 H3. split.
  - exact (head_opening nm l w (lit "/") H1 H2 H3 (or_intror eq_refl)).
  - exists (lit "<" ++ head_print nm l ++ w). unfold empty_tag. now rewrite <- !app_assoc.
Qed.
Lemma shape_tags :
  (forall i, item_shape i -> forall t l, content_tags l -> content_tags (map snd (toks_item t i) ++ l)) /\
  (forall b, body_shape b -> forall c, exists l, map snd (toks_body b c) = l ++ [c] /\ content_tags l).
Proof.
  apply citem_ind2.
  - intros nm l w ((p & n & Hn) & Hl & Hw) t r Hr. cbn [toks_item map snd]. destruct (named_xml _ _ _ Hn) as [Hx _].
    apply (ct_elem [_]); [|easy]. destruct (empty_opening nm l w Hx Hl Hw) as [H1 H2]. now apply et_single with nm.
  - intros nm l w b IH w' ((p & n & Hn) & Hl & Hw & Hb & Hw') t r Hr. cbn [toks_item map snd]. destruct (named_xml _ _ _ Hn) as [Hx _].
    destruct (IH Hb (close_tag nm w')) as (bl & -> & Hbl). apply (ct_elem (_ :: bl ++ [_])); [|easy].
    apply et_pair with nm; [exact (head_opening nm l w [] Hx Hl Hw (or_introl eq_refl))|now apply (open_not_empty (R := any_str))|easy|].
    exists [], w', []. split; [reflexivity|]. split; [apply ws_nil|]. split; [easy|now left].
  - intros c _ t l Hl. cbn [toks_item map snd app]. apply ct_markup; [now exists (lit "--" ++ c ++ lit "-->")|easy].
  - intros c _ t l Hl. cbn [toks_item map snd app]. apply ct_markup; [now exists (lit "[CDATA[" ++ c ++ lit "]]>")|easy].
  - intros t _ c. exists []. split; [easy|constructor].
  - intros t i IHi b IHb (_ & Hi & Hb) c. destruct (IHb Hb c) as (l & El & Hl). exists (map snd (toks_item t i) ++ l).
    cbn [toks_body]. rewrite map_app, El, app_assoc. split; [easy|now apply IHi].
Qed.
Lemma shape_element i t : item_shape i -> is_element i -> element_tags (map snd (toks_item t i)) /\ starts_with_element (toks_item t i).
Proof.
  assert (P : forall nm l r, xml_name nm -> ~ prolog_like (lit "<" ++ head_print nm l ++ r)).
  { intros nm l r Hx [H|H]; now apply (head_tag_first nm l r Hx) in H. }
  destruct i as [nm l w|nm l w b w'|c|c]; try easy; intros H _.
  - destruct H as ((p & n & Hn) & Hl & Hw). destruct (named_xml _ _ _ Hn) as [Hx _]. split.
    + cbn [toks_item map snd]. destruct (empty_opening nm l w Hx Hl Hw) as [H1 H2]. now apply et_single with nm.
    + exists t, (empty_tag nm l w), []. split; [easy|now apply P].
  - destruct H as ((p & n & Hn) & Hl & Hw & Hb & Hw'). destruct (named_xml _ _ _ Hn) as [Hx _]. split.
    + cbn [toks_item map snd]. destruct (proj2 shape_tags b Hb (close_tag nm w')) as (bl & -> & Hbl).
      apply et_pair with nm; [exact (head_opening nm l w [] Hx Hl Hw (or_introl eq_refl))|now apply (open_not_empty (R := any_str))|easy|].
      exists [], w', []. split; [reflexivity|]. split; [apply ws_nil|]. split; [easy|now left].
    + exists t, (open_tag nm l w), (toks_body b (close_tag nm w')). split; [easy|now apply P].
Qed.
Definition decl_toks (o : option str) : list (str * str) := match o with None => [] | Some x => [([], lit "<?" ++ x ++ lit "?>")] end.
Definition gap_of (o : option str) : str := match o with None => [] | Some _ => [10%N] end.
Lemma written_one_root o i : (forall x, o = Some x -> decl_wf x) -> item_shape i -> is_element i ->
  one_root (decl_text o ++ item_print i ++ [10%N]) (decl_toks o) (toks_item (gap_of o) i).
Proof.
  intros Ho Hi Ei. assert (Hg : no_tag (gap_of o)) by (destruct o; [apply ws_no_tag; now repeat constructor|easy]).
  destruct (shape_element i (gap_of o) Hi Ei) as [H1 H2]. split; [|split; [|now split]].
  - exists [10%N]. split; [|apply ws_no_tag; now repeat constructor].
    pose proof (proj1 shapes_lexed i Hi (gap_of o) [10%N] Hg) as L. destruct o as [x|]; cbn [decl_text decl_toks gap_of app] in *; [|easy].
    apply (lx_tag [] (lit "<?" ++ x ++ lit "?>" ++ [10%N] ++ item_print i ++ [10%N]) (lit "<?" ++ x ++ lit "?>") ([10%N] ++ item_print i ++ [10%N])) in L; [|easy|apply decl_at, Ho, eq_refl].
    cbn [app] in L. rewrite <- !app_assoc. exact L.
  - destruct o as [x|]; [|constructor]. constructor; [|constructor]. right. destruct (Ho x eq_refl) as ([r ->] & _).
    cbn [snd]. exists (r ++ lit "?>"). reflexivity.
Qed.

(** * The items of what is written *)

Definition attr_item (a : cattr) (kv : str * str) : Prop := a_key a = fst kv /\ unescapes (a_raw a) (Some (snd kv)).
Inductive citems : citem -> list item -> Prop :=
| ci_empty nm l w kvs : Forall2 attr_item l kvs -> citems (CEmpty nm l w) [IOpen nm kvs; IClose]
| ci_elem nm l w b w' kvs is : Forall2 attr_item l kvs -> cbitems b is -> citems (CElem nm l w b w') (IOpen nm kvs :: is ++ [IClose])
| ci_comment c : citems (CComment c) [ILeaf (NComment c)]
| ci_cdata c : citems (CCData c) [ILeaf (NCData c)]
with cbitems : cbody -> list item -> Prop :=
| cb_end t a : text_item t a -> cbitems (BEnd t) a
| cb_item t i b a is is' : text_item t a -> citems i is -> cbitems b is' -> cbitems (BItem t i b) (a ++ is ++ is').

Lemma printed_reads a x : attr_shape any_str a -> attr_reads (PrintFacts.joined a) x -> attr_item a x.
Proof.
  intros (_ & _ & Hk & _ & _ & Hq & _) (v & u & E & Nk & Q & U). unfold PrintFacts.joined in E.
  assert (N : ~ In 61%N (a_key a)).
  { intro Hi. apply plain_xml, xml_name_chars in Hk. rewrite Forall_forall in Hk. apply Hk in Hi. apply name_char_odd in Hi. intuition congruence. }
  apply split_eq in E; [|easy|easy]. destruct E as [Ek Ev]. split; [easy|].
  rewrite (in_quotes_fun v (a_raw a) u); [easy| |easy]. exists (a_quote a). split; [now apply quote_cases|]. now rewrite <- Ev.
Qed.
Lemma reads_items l kvs : Forall (attr_shape any_str) l -> Forall2 attr_reads (map PrintFacts.joined l) kvs -> Forall2 attr_item l kvs.
Proof.
  intro H. revert kvs. induction H as [|a l Ha Hl IH]; intros kvs F; inversion F; subst; constructor; [now apply printed_reads|now apply IH].
Qed.
Lemma head_parts nm l w o : xml_name nm -> Forall (attr_shape any_str) l -> ws w -> o = [] \/ o = lit "/" ->
  tag_parts (lit "<" ++ head_print nm l ++ w ++ o ++ lit ">") nm (map PrintFacts.joined l).
Proof.
  intros Hx Hl Hw Ho. exists (flat_map pieces l). split.
  - exists (head_print nm l ++ w), o. split; [now rewrite <- !app_assoc|]. split.
    + apply (words_pad [] (head_print nm l) w); [apply ws_nil|easy| |now apply (head_words (R := any_str))].
      pose proof (head_quotes (R := any_str) nm l [] (xml_name_chars _ Hx) Hl (Forall_nil _)) as [Q _]. now rewrite app_nil_r in Q.
    + destruct Ho as [->| ->]; [right; split; [easy|]|now left]. now apply (open_not_empty (R := any_str)).
  - rewrite <- (join_attrs (R := any_str)) by easy. now apply join_loop_joined with (List.length (flat_map pieces l)).
Qed.

Lemma head_item nm l w o b : xml_name nm -> Forall (attr_shape any_str) l -> ws w -> o = [] \/ o = lit "/" ->
  tag_item (lit "<" ++ head_print nm l ++ w ++ o ++ lit ">") b -> exists kvs, Forall2 attr_item l kvs /\
  b = IOpen nm kvs :: match o with [] => [] | _ => [IClose] end.
Proof.
  intros Hx Hl Hw Ho T. destruct (head_tag_first nm l (w ++ o ++ lit ">") Hx) as (F1 & F2 & _).
  assert (P := head_parts nm l w o Hx Hl Hw Ho).
  assert (Z : self_closing (lit "<" ++ head_print nm l ++ w ++ o ++ lit ">") <-> o = lit "/").
  { split.
    - destruct Ho as [->| ->]; [|easy]. intro H. exfalso. now apply (open_not_empty (R := any_str) nm l w) in H.
    - intros ->. exists (lit "<" ++ head_print nm l ++ w). now rewrite <- !app_assoc. }
  remember (lit "<" ++ head_print nm l ++ w ++ o ++ lit ">") as t eqn:Et.
  destruct T as [c|c|t n k (_ & _ & kvs & Pk & R) S|t n k (_ & _ & kvs & Pk & R) S|t n (w1 & w2 & o' & -> & _)].
  - exfalso. apply F1. now exists (lit "--" ++ c ++ lit "-->").
  - exfalso. apply F1. now exists (lit "[CDATA[" ++ c ++ lit "]]>").
  - destruct (tag_parts_fun _ _ _ _ _ P Pk) as [<- <-]. exists k. split; [now apply reads_items|].
    destruct Ho as [->| ->]; [easy|]. exfalso. now apply S, Z.
  - destruct (tag_parts_fun _ _ _ _ _ P Pk) as [<- <-]. exists k. split; [now apply reads_items|].
    apply Z in S. now subst o.
  - exfalso. apply F2. now exists (w1 ++ n ++ w2 ++ o' ++ lit ">").
Qed.
Lemma close_item nm w b : tag_item (close_tag nm w) b -> b = [IClose].
Proof.
  intro T. remember (close_tag nm w) as t eqn:Et. unfold close_tag in Et.
  destruct T as [c|c|t n k (_ & N & _) S|t n k (_ & N & _) S|t n _]; try discriminate; try easy;
    exfalso; apply N; subst t; now exists (nm ++ w ++ lit ">").
Qed.
Lemma comment_item c b : tag_item (lit "<!--" ++ c ++ lit "-->") b -> b = [ILeaf (NComment c)].
Proof.
  intro T. remember (lit "<!--" ++ c ++ lit "-->") as t eqn:Et.
  destruct T as [d|d|t n k (N & _) S|t n k (N & _) S|t n (w1 & w2 & o' & -> & _)]; try discriminate;
    try (exfalso; apply N; subst t; now exists (lit "--" ++ c ++ lit "-->")).
  apply app_inv_head, app_inv_tail in Et. now subst.
Qed.
Lemma cdata_item c b : tag_item (lit "<![CDATA[" ++ c ++ lit "]]>") b -> b = [ILeaf (NCData c)].
Proof.
  intro T. remember (lit "<![CDATA[" ++ c ++ lit "]]>") as t eqn:Et.
  destruct T as [d|d|t n k (N & _) S|t n k (N & _) S|t n (w1 & w2 & o' & -> & _)]; try discriminate;
    try (exfalso; apply N; subst t; now exists (lit "[CDATA[" ++ c ++ lit "]]>")).
  apply app_inv_head, app_inv_tail in Et. now subst.
Qed.
Lemma items_cons txt t toks l : items ((txt, t) :: toks) l -> exists a b r, text_item txt a /\ tag_item t b /\ items toks r /\ l = a ++ b ++ r.
Proof. intro H. inversion H; subst. eauto 9. Qed.
Lemma written_items :
  (forall i, item_shape i -> forall t rest l, items (toks_item t i ++ rest) l ->
     exists a is r, text_item t a /\ citems i is /\ items rest r /\ l = a ++ is ++ r) /\
  (forall b, body_shape b -> forall nm w rest l, items (toks_body b (close_tag nm w) ++ rest) l ->
     exists is r, cbitems b is /\ items rest r /\ l = is ++ IClose :: r).
Proof.
  apply citem_ind2.
  - intros nm l w ((p & n & Hn) & Hl & Hw) t rest s H. cbn [toks_item app] in H. destruct (named_xml _ _ _ Hn) as [Hx _].
    apply items_cons in H. destruct H as (a & b & r & Ha & Hb & Hr & ->).
    apply (head_item nm l w (lit "/")) in Hb; [|easy|easy|easy|now right]. destruct Hb as (kvs & Hk & ->).
    exists a, [IOpen nm kvs; IClose], r. split; [easy|]. split; [now constructor|easy].
  - intros nm l w b IH w' ((p & n & Hn) & Hl & Hw & Hb & Hw') t rest s H. cbn [toks_item app] in H. destruct (named_xml _ _ _ Hn) as [Hx _].
    apply items_cons in H. destruct H as (a & o & r & Ha & Ho & Hr & ->).
    apply (head_item nm l w []) in Ho; [|easy|easy|easy|now left]. destruct Ho as (kvs & Hk & ->).
    apply (IH Hb) in Hr. destruct Hr as (is & r' & Hi & Hr & ->). exists a, (IOpen nm kvs :: is ++ [IClose]), r'.
    split; [easy|]. split; [now constructor|]. split; [easy|]. cbn [app]. now rewrite <- app_assoc.
  - intros c _ t rest s H. apply items_cons in H. destruct H as (a & b & r & Ha & Hb & Hr & ->). apply comment_item in Hb. subst b.
    exists a, [ILeaf (NComment c)], r. split; [easy|]. split; [constructor|easy].
  - intros c _ t rest s H. apply items_cons in H. destruct H as (a & b & r & Ha & Hb & Hr & ->). apply cdata_item in Hb. subst b.
    exists a, [ILeaf (NCData c)], r. split; [easy|]. split; [constructor|easy].
  - intros t _ nm w rest s H. apply items_cons in H. destruct H as (a & b & r & Ha & Hb & Hr & ->). apply close_item in Hb. subst b.
    exists a, r. split; [now constructor|easy].
  - intros t i IHi b IHb (_ & Hi & Hb) nm w rest s H. cbn [toks_body] in H. rewrite <- app_assoc in H. apply (IHi Hi) in H.
    destruct H as (a & is & r & Ha & His & Hr & ->). apply (IHb Hb) in Hr. destruct Hr as (is' & r' & His' & Hr & ->).
    exists (a ++ is ++ is'), r'. split; [now constructor|]. split; [easy|]. now rewrite <- !app_assoc.
Qed.

(** White space of the layout has no items. *)
Lemma ws_item t a : ws t -> text_item t a -> a = [].
Proof. intros H T. now destruct T. Qed.
Scheme citems_mut := Minimality for citems Sort Prop with cbitems_mut := Minimality for cbitems Sort Prop.
Lemma indents_items :
  (forall i i', indents i i' -> forall l, citems i' l -> citems i l) /\
  (forall b b', indents_body b b' -> forall l, cbitems b' l -> cbitems b l).
Proof.
  assert (T : forall t t' a, t = t' \/ ws t /\ ws t' -> text_item t' a -> text_item t a).
  { intros t t' a [->|[H1 H2]] H; [easy|]. apply ws_item in H; [|easy]. subst a. now constructor. }
  apply indents_ind2; try easy.
  - intros nm l w b b' w' _ IH s H. inversion H; subst. constructor; [easy|now apply IH].
  - intros t t' H s Hs. inversion Hs; subst. constructor. now apply (T t t').
  - intros t t' i i' b b' H _ IHi _ IHb s Hs. inversion Hs; subst. constructor; [now apply (T t t')|now apply IHi|now apply IHb].
Qed.

(** * What comes back was writable *)

Inductive bal : list item -> Prop :=
| bl_nil : bal []
| bl_leaf n l : bal l -> bal (ILeaf n :: l)
| bl_elem n k l l' : bal l -> bal l' -> bal (IOpen n k :: l ++ IClose :: l').
Lemma bal_app a b : bal a -> bal b -> bal (a ++ b).
Proof.
  intros H Hb. induction H as [|n l H IH|n k l l' H1 IH1 H2 IH2]; [easy|now constructor|].
  cbn [app]. rewrite <- app_assoc. now constructor.
Qed.
Lemma bal_fun l : bal l -> forall l' r r', bal l' -> l ++ IClose :: r = l' ++ IClose :: r' -> l = l' /\ r = r'.
Proof.
  intro H. induction H as [|n l H IH|n k l1 l2 H1 IH1 H2 IH2]; intros l' r r' H' E.
  - destruct H'; cbn in E; try discriminate. now injection E as <-.
  - destruct H' as [|n' l' H'|]; cbn in E; try discriminate. injection E as <- E. destruct (IH _ _ _ H' E) as [<- <-]. easy.
  - destruct H' as [| |n' k' l1' l2' H1' H2']; cbn in E; try discriminate. injection E as <- <- E. rewrite <- !app_assoc in E. cbn [app] in E.
    destruct (IH1 _ _ _ H1' E) as [<- E']. destruct (IH2 _ _ _ H2' E') as [<- <-]. easy.
Qed.
Lemma items_bal : (forall anc e is, element_of_items anc e is -> bal is) /\ (forall anc ns is, nodes_of_items anc ns is -> bal is).
Proof.
  apply items_ind2.
  - intros anc e n l is _ _ _ _ IH. apply bl_elem; [easy|constructor].
  - intro anc. constructor.
  - intros anc n ns is _ _ IH. now constructor.
  - intros anc e ns is is' _ IH _ IH'. now apply bal_app.
Qed.
Lemma text_bal t a : text_item t a -> bal a.
Proof. intros []; repeat constructor. Qed.
Lemma citems_bal : (forall i l, citems i l -> bal l) /\ (forall b l, cbitems b l -> bal l).
Proof.
  assert (H : forall i l, citems i l -> bal l).
  { apply (citems_mut (fun _ l => bal l) (fun _ l => bal l)).
    - intros. apply (bl_elem _ _ [] []); constructor.
    - intros. apply bl_elem; [easy|constructor].
    - repeat constructor.
    - repeat constructor.
    - intros t a. apply text_bal.
    - intros t i b a is is' Ht _ Hi _ Hb. apply bal_app; [now apply text_bal in Ht|now apply bal_app]. }
  split; [exact H|]. induction 1 as [t a Ht|t i b a is is' Ht Hi Hb IH]; [now apply text_bal in Ht|].
  apply bal_app; [now apply text_bal in Ht|]. apply bal_app; [now apply H in Hi|easy].
Qed.

Lemma nil_item a : text_item [] a -> a = [].
Proof. apply ws_item, ws_nil. Qed.
(** One text of the contents. *)
Lemma text_first s l is : (forall t l', l <> NText t :: l') -> cbitems (body_src (esc_text s) l) (ILeaf (NText s) :: is) ->
  unescapes (esc_text s) (Some s) /\ cbitems (body_src [] l) is.
Proof.
  assert (T : forall a x y, text_item (esc_text s) a -> a ++ x = ILeaf (NText s) :: y -> (forall z, x <> ILeaf (NText s) :: z) ->
    unescapes (esc_text s) (Some s) /\ x = y).
  { intros a x y [t H|t v H1 H2 H3|t v H1 H2 H3] E N; cbn [app] in E.
    - now apply N in E.
    - now apply N in E.
    - injection E as -> <-. easy. }
  assert (T0 : text_item [] []) by (constructor; apply ws_nil).
  intros N H. destruct l as [|n l].
  - cbn [body_src] in *. inversion H as [t a Ht|]; subst. rewrite <- (app_nil_r (ILeaf (NText s) :: is)) in Ht.
    destruct (T _ [] is Ht) as [U <-]; [now rewrite !app_nil_r|easy|]. split; [easy|now constructor].
  - assert (M : forall i b, cbitems (BItem (esc_text s) i b) (ILeaf (NText s) :: is) -> unescapes (esc_text s) (Some s) /\ cbitems (BItem [] i b) is).
    { intros i b Hb. inversion Hb as [|t i' b' a x y Ht Hi Hb' Et E]; subst. destruct (T a (x ++ y) is Ht E) as [U <-].
      - intros z Ez. now destruct Hi.
      - split; [easy|]. now apply (cb_item [] i b []). }
    destruct n as [c|t|t|t]; cbn [body_src] in *; [now apply M| |now apply M|now apply M]. now destruct (N t l).
Qed.

Lemma src_element e l : citems (item_src e) l -> exists kvs m, Forall2 attr_item (attrs_src (e_attributes e)) kvs /\
  cbitems (body_src [] (e_children e)) m /\ l = IOpen (qualified e) kvs :: m ++ [IClose].
Proof.
  rewrite item_src_eq. intro H. destruct (e_children e) as [|n ch] eqn:E.
  - inversion H; subst. exists kvs, []. split; [easy|]. split; [|easy]. constructor. constructor. apply ws_nil.
  - inversion H; subst. now exists kvs, is.
Qed.
Lemma attrs_kept e e' kvs n : map_ok (e_attributes e) -> Permutation (e_attributes e') (e_attributes e) -> labelled n kvs e' ->
  Forall2 attr_item (attrs_src (e_attributes e)) kvs -> forall k v, In (k, v) (e_attributes e) -> survives all_special v.
Proof.
  intros M P (_ & _ & L) F k v Hi.
  assert (S : In (k, v) (sorted_attrs (e_attributes e))) by now apply (proj2 (sorted_in _ _)).
  assert (Nd : NoDup (map fst kvs)).
  { assert (K : map fst kvs = map fst (sorted_attrs (e_attributes e))).
    { unfold attrs_src in F. clear -F. revert kvs F. induction (sorted_attrs (e_attributes e)) as [|x l IH]; intros kvs F; inversion F as [|? y ? ? [Hk _] F']; subst; [easy|].
      cbn [map] in *. rewrite (IH _ F'). cbn in Hk. now rewrite Hk. }
    rewrite K. apply (Permutation_NoDup (l := map fst (e_attributes e))); [|exact M]. apply Permutation_map. apply Permutation_sym.
    apply sort_by_perm. }
  unfold attrs_src in F. assert (X : exists v', In (k, v') kvs /\ unescapes (esc_attr v) (Some v')).
  { clear -F S. revert kvs F. induction (sorted_attrs (e_attributes e)) as [|x l IH]; intros kvs F; [easy|].
    cbn [map] in F. inversion F as [|? y ? r [Hk Hv] F']; subst. destruct S as [->|S].
    - cbn in Hk, Hv. subst k. exists (snd y). split; [left; now destruct y|easy].
    - destruct (IH S _ F') as (v' & H1 & H2). exists v'. split; [now right|easy]. }
  destruct X as (v' & Hv' & U). apply in_split in Hv' as (a & b & ->).
  assert (Hi' : In (k, v') (e_attributes e')).
  { apply L. exists a, b. split; [easy|]. rewrite map_app in Nd. cbn [map fst] in Nd. apply NoDup_remove_2 in Nd.
    intro H. apply Nd. apply in_or_app. now right. }
  apply (Permutation_in _ P) in Hi'. assert (v = v') as <-.
  { clear -M Hi Hi'. unfold map_ok in M. induction (e_attributes e) as [|[k0 v0] m IH]; [easy|].
    cbn [map fst] in M. apply NoDup_cons_iff in M. destruct M as [M1 M2].
    destruct Hi as [Hi|Hi], Hi' as [Hi'|Hi'].
    - congruence.
    - injection Hi as -> ->. exfalso. apply M1. now apply (in_map fst) in Hi'.
    - injection Hi' as -> ->. exfalso. apply M1. now apply (in_map fst) in Hi.
    - now apply IH. }
  now apply unescape_exact.
Qed.
Lemma same_alike e' e : map_ok (e_attributes e) -> elem_same e' e -> alike_head e e'.
Proof.
  intros M S. inversion S as [? ? _ Hx Hp P _]; subst. split; [easy|]. split; [easy|]. intro k. unfold get_attr.
  symmetry. now apply aget_same.
Qed.
Lemma nodes_writable anc (P : elem -> Prop) : forall l l' m, nodes_same l' l -> nodes_of_items anc l' m -> cbitems (body_src [] l) m ->
  no_adjacent_text l ->
  (forall c c' is, In (NElem c) l -> elem_same c' c -> element_of_items anc c' is -> citems (item_src c) is -> P c) ->
  (forall t, In (NText t) l -> survives text_special t) /\ (forall c, In (NElem c) l -> P c).
Proof.
  induction l as [|n l IH]; intros l' m S Ns C Na HP; [easy|].
  assert (Na' : no_adjacent_text l) by (intros a s t b E; apply (Na (n :: a) s t b); now rewrite E).
  assert (HP' : forall c c' is, In (NElem c) l -> elem_same c' c -> element_of_items anc c' is -> citems (item_src c) is -> P c)
    by (intros c c' is Hc; apply HP; now right).
  assert (K : forall i, (match n with NElem c => i = item_src c | NText _ => False | NComment c => i = CComment c | NCData c => i = CCData c end) ->
    exists is is', citems i is /\ cbitems (body_src [] l) is' /\ m = is ++ is').
  { intros i Hi. destruct n as [c|s|s|s]; cbn [body_src] in C; subst; try easy;
      inversion C as [|? ? ? a is is' Ha His His']; subst; apply nil_item in Ha; subst a; now exists is, is'. }
  inversion S as [|? l1 ? Nn Sl|c' c l1 ? Sc Sl]; subst.
  - inversion Ns as [|? ? ? is _ Ns'|? e0 ? ? ? _ _]; subst; [|now destruct (Nn e0)].
    assert (R : (forall s, n = NText s -> survives text_special s) /\ cbitems (body_src [] l) is).
    { destruct n as [c|s|s|s]; [now destruct (Nn c)| | |].
      - cbn [body_src app] in C. apply text_first in C.
        + destruct C as [U C]. split; [|easy]. intros t E. injection E as <-. now apply unescape_exact.
        + intros t r ->. now apply (Na [] s t r).
      - destruct (K _ eq_refl) as (x & y & Hx & Hy & E). inversion Hx; subst. injection E as ->. easy.
      - destruct (K _ eq_refl) as (x & y & Hx & Hy & E). inversion Hx; subst. injection E as ->. easy. }
    destruct R as [R1 R2]. destruct (IH _ _ Sl Ns' R2 Na' HP') as [I1 I2]. split.
    + intros t [E|Ht]; [now apply R1|now apply I1].
    + intros c [E|Hc]; [now destruct (Nn c)|now apply I2].
  - inversion Ns as [|? ? ? ? Nx _|? ? ? is is' Ei Ns']; subst; [now destruct (Nx c')|].
    destruct (K _ eq_refl) as (x & y & Hx & Hy & E).
    assert (X : is = x /\ is' = y).
    { destruct Ei as [anc e n l0 is1 _ _ _ N1]. apply src_element in Hx as Hx'. destruct Hx' as (kvs & m & _ & Cm & ->).
      cbn [app] in E. injection E as -> -> E. rewrite <- !app_assoc in E. cbn [app] in E.
      apply bal_fun in E; [|now apply items_bal in N1|now apply citems_bal in Cm]. now destruct E as [-> ->]. }
    destruct X as [-> ->]. destruct (IH _ _ Sl Ns' Hy Na' HP') as [I1 I2]. split.
    + intros t [E'|Ht]; [discriminate|now apply I1].
    + intros d [E'|Hd]; [injection E' as <-|now apply I2]. apply (HP c c' x); [now left|easy..].
Qed.
Lemma back_writable : forall e, elem_ok e -> well_named e -> tidy e -> forall e' anc anc' is, elem_same e' e ->
  Forall2 alike_head anc anc' -> element_of_items anc' e' is -> citems (item_src e) is -> writable anc e.
Proof.
  induction e as [e IH] using elem_ind'. intros Ok W T e' anc anc' is S F E C.
  inversion W as [? Hn Ha Hk]; inversion T as [? T1 T2 T3 T4]; inversion Ok as [? O1 _ O2]; subst.
  inversion E as [? ? n l m L X _ Ns]; subst. apply src_element in C. destruct C as (kvs & m' & Fk & Cb & Ec).
  injection Ec as -> <- Em. apply app_inj_tail in Em. destruct Em as [<- _].
  assert (A : alike_head e e') by now apply same_alike.
  inversion S as [? ? _ Sx Sp P Sn]; subst.
  destruct (nodes_writable (e' :: anc') (writable (e :: anc)) _ _ _ Sn Ns Cb (proj1 T1)) as [R1 R2].
  { intros c c' is Hc Sc Ec Cc. apply (IH c Hc) with c' (e' :: anc') is; auto. }
  constructor; try easy.
  - intros k v Hi. split; [now apply (Ha k v)|]. now apply (attrs_kept e e' l _ O1 P L Fk k v).
  - rewrite <- Sx, X. symmetry. apply rule_alike; [easy|apply A|easy].
  - intros t Ht. split; [exact (T2 (NText t) Ht)|now apply R1].
  - intros c Hc. exact (T2 (NComment c) Hc).
Qed.

Theorem trip_writable d ind d' : elem_ok (root_element d) -> well_named (root_element d) ->
  parse_str (doc_to_string_with_indent d ind) = Ok d' -> doc_eqb d' d = true -> writable_doc d.
Proof.
  intros Ho W Pd Q. pose proof (C48_parsed_valid _ _ Pd) as [V Tn]. pose proof (parsed_accepts _ _ Pd) as A.
  apply doc_eqb_same in Q; [|now apply elem_valid_ok|easy].
  pose proof (no_dtds _ _ _ Ho W A Q) as Nd. destruct Q as (E1 & E2 & E3).
  assert (Dw : forall x, declaration d = Some x -> decl_wf x).
  { intros x Ex. apply (accepted_decl _ _ _ A). rewrite E1. exact Ex. }
  assert (T : tidy (root_element d)).
  { apply (tidy_same (d_root d')); [exact E3|]. apply tidy_intro; [easy|easy|now apply accepts_leaves in A]. }
  destruct (doc_written d ind Ho) as (i & I & Es). rewrite Nd in Es. cbn [flat_map app] in Es.
  assert (Si : item_shape i) by (apply (proj1 indents_shape _ _ I); now apply item_src_shape).
  assert (Ei : is_element i).
  { rewrite item_src_eq in I. destruct (e_children (root_element d)); now inversion I. }
  pose proof (written_one_root _ _ Dw Si Ei) as O. rewrite <- Es in O.
  destruct (accepts_stands _ _ _ _ A O) as (_ & _ & is & Hi & He).
  rewrite <- (app_nil_r (toks_item _ i)) in Hi. apply (proj1 written_items _ Si) in Hi. destruct Hi as (a & is' & r & Ha & Hc & Hr & ->).
  inversion Hr; subst r. assert (a = []) as ->.
  { apply ws_item in Ha; [easy|]. destruct (declaration d); [now repeat constructor|apply ws_nil]. }
  cbn [app] in He. rewrite app_nil_r in He. apply (proj1 indents_items _ _ I) in Hc.
  split; [easy|]. split; [easy|]. split; [easy|]. split.
  - exact (back_writable _ Ho W T _ [] [] _ E3 (Forall2_nil _) He Hc).
  - intros p Ep. pose proof (C39_root_declared _ _ _ _ p Pd O) as Rd.
    inversion E3 as [? ? _ _ Hp P _]; subst. rewrite Hp in Rd. specialize (Rd Ep). intro F. apply Rd. rewrite <- F. unfold get_attr.
    apply aget_same; [|easy]. now destruct (elem_ok_inv _ Ho).
Qed.

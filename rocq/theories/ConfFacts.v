(** Proofs for SpecConf.v: elements with their contents. *)
From Coq Require Import List NArith Arith Bool Ascii String Lia.
From Verif Require Import Base BaseFacts Escape Dom Spec EscapeFacts SpecDom DomFacts SpecLex SpecParse LexFacts ParseFacts DocFacts
  SpecEsc UnescFacts SpecDoc PrintFacts PrintDoc TripFacts SpecErr ReadFacts LoopFacts SpecMean MeanFacts CycleDoc SpecXml XmlFacts SpecConf ConfText ConfLex ConfTag.
Import ListNotations.

(** * Items in pairs *)

Inductive bal : list item -> Prop :=
| bl_nil : bal []
| bl_leaf n is : bal is -> bal (ILeaf n :: is)
| bl_elem n l a b : bal a -> bal b -> bal (IOpen n l :: a ++ IClose :: b).
Lemma bal_cut a : bal a -> forall b r r', bal b -> a ++ IClose :: r = b ++ IClose :: r' -> a = b /\ r = r'.
Proof.
  induction 1 as [|n is H IH|n l a1 a2 H1 IH1 H2 IH2]; intros b r r' B E.
  - destruct B as [|n is B|n l b1 b2 B1 B2]; cbn in E; [|discriminate E..]. now injection E as ->.
  - destruct B as [|n' is' B|n' l b1 b2 B1 B2]; cbn in E; [discriminate E| |discriminate E]. injection E as -> E.
    destruct (IH _ _ _ B E) as [-> ->]. easy.
  - destruct B as [|n' is' B|n' l' b1 b2 B1 B2]; cbn in E; [discriminate E|discriminate E|]. injection E as -> -> E.
    rewrite <- !app_assoc in E. cbn [app] in E. destruct (IH1 _ _ _ B1 E) as [-> E'].
    destruct (IH2 _ _ _ B2 E') as [-> ->]. easy.
Qed.
Lemma bal_app a b : bal a -> bal b -> bal (a ++ b).
Proof.
  induction 1 as [|n is H IH|n l a1 a2 H1 IH1 H2 IH2]; intro B; [easy|now apply bl_leaf, IH|].
  cbn [app]. rewrite <- app_assoc. cbn [app]. apply bl_elem; auto.
Qed.
Lemma bal_leaves ns : bal (map ILeaf ns).
Proof. induction ns as [|n ns IH]; [constructor|now constructor]. Qed.
Lemma nodes_bal :
  (forall anc e is, element_of_items anc e is -> exists n l a, is = IOpen n l :: a ++ [IClose] /\ bal a) /\
  (forall anc ns is, nodes_of_items anc ns is -> bal is).
Proof.
  apply items_ind2.
  - intros anc e n l is _ _ _ _ B. now exists n, l, is.
  - intro anc. constructor.
  - intros anc n ns is _ _ B. now constructor.
  - intros anc e ns is is' _ (n & l & a & -> & B) _ B'. cbn [app]. rewrite <- app_assoc. now apply bl_elem.
Qed.
Lemma open_inv anc ns n l c r : nodes_of_items anc ns (IOpen n l :: c ++ IClose :: r) -> bal c ->
  exists e ns', ns = NElem e :: ns' /\ labelled n l e /\ e_xmlns e = namespace_rule e anc /\
    nodes_of_items (e :: anc) (e_children e) c /\ nodes_of_items anc ns' r.
Proof.
  intros H B. remember (IOpen n l :: c ++ IClose :: r) as is eqn:E. destruct H as [anc|anc x ns is0 _ H|anc e ns is1 is2 He H].
  - discriminate E.
  - discriminate E.
  - destruct He as [anc e n' l' is1 L X _ H']. cbn [app] in E. injection E as -> -> E. rewrite <- app_assoc in E. cbn [app] in E.
    apply bal_cut in E; [|now apply nodes_bal in H'|easy]. destruct E as [-> ->]. now exists e, ns.
Qed.
Lemma leaves_inv anc xs : forall ns r, nodes_of_items anc ns (map ILeaf xs ++ r) -> exists ns', ns = xs ++ ns' /\ nodes_of_items anc ns' r.
Proof.
  induction xs as [|x xs IH]; intros ns r H; [now exists ns|]. cbn [map app] in H.
  remember (ILeaf x :: map ILeaf xs ++ r) as is eqn:E. destruct H as [anc|anc y ns is0 _ H|anc e ns is1 is2 He H].
  - discriminate E.
  - injection E as -> ->. destruct (IH _ _ H) as (ns' & -> & H'). now exists ns'.
  - destruct He. discriminate E.
Qed.
Lemma nodes_nil anc ns : nodes_of_items anc ns [] -> ns = [].
Proof.
  intro H. remember (@nil item) as is eqn:E. destruct H as [anc|anc y ns is0 _ H|anc e ns is1 is2 He H]; [easy|discriminate E|]. destruct He. discriminate E.
Qed.
Lemma items_app a x : items a x -> forall b y, items b y -> items (a ++ b) (x ++ y).
Proof. induction 1 as [|txt t toks u v l T G I IH]; intros b y J; [easy|]. cbn [app]. rewrite <- !app_assoc. constructor; auto. Qed.
Lemma items_split a b : forall is, items (a ++ b) is -> exists x y, is = x ++ y /\ items a x /\ items b y.
Proof.
  induction a as [|[txt t] a IH]; intros is H; [exists [], is; split; [easy|split; [constructor|easy]]|].
  cbn [app] in H. inversion H as [|txt' t' toks u v l T G I]; subst. destruct (IH _ I) as (x & y & -> & J & K).
  exists (u ++ v ++ x), y. rewrite <- !app_assoc. split; [easy|]. split; [now constructor|easy].
Qed.
Lemma items_one txt t is : items [(txt, t)] is -> exists a b, is = a ++ b /\ text_item txt a /\ tag_item t b.
Proof. intro H. inversion H as [|txt' t' toks u v l T G I]; subst. inversion I; subst. exists u, v. now rewrite app_nil_r. Qed.

(** * Scopes *)

Definition scoped (anc : list elem) (sc : scope) (below : bool) : Prop :=
  (forall q, sc (Some q) = nearest (lit "xmlns:" ++ q) anc) /\
  (forall q, nearest (lit "xmlns:" ++ lit "xmlns:" ++ q) anc = None) /\
  match anc with
  | [] => below = false /\ sc None = None
  | p :: _ => below = (match e_prefix p with None => false | Some _ => true end) /\ (e_prefix p = None -> e_xmlns p = sc None)
  end.
Definition extends (sc0 sc : scope) : Prop := forall q, sc q = match sc0 q with Some v => Some v | None => no_declarations q end.
Lemma extends_declare sc0 sc l : attributes_ok l -> extends sc0 sc -> extends (declare l sc0) (declare l sc).
Proof.
  intros (_ & _ & O) E q. unfold declare. destruct (the_attribute (declaring q) l) as [a|] eqn:T; [|apply E].
  destruct (value_said (at_value a)) eqn:V; [|easy]. destruct q as [q|]; [|easy]. exfalso. apply the_attribute_in in T. destruct T as [I T].
  now apply (O a q).
Qed.
Lemma extends_none sc0 sc : extends sc0 sc -> sc None = sc0 None.
Proof. intro E. rewrite E. now destruct (sc0 None). Qed.
Lemma written_get nm l e k : labelled nm (written_attributes l) e -> attributes_ok l ->
  get_attr e k = option_map (fun a => value_said (at_value a)) (the_attribute k l).
Proof.
  intros L (_ & N & _).
  assert (Nw : NoDup (map fst (written_attributes l))) by (unfold written_attributes; now rewrite map_map).
  destruct (the_attribute k l) as [a|] eqn:T; cbn [option_map].
  - apply the_attribute_in in T. destruct T as [I <-]. apply (labelled_get _ _ _ _ _ L Nw). unfold written_attributes.
    apply in_map_iff. now exists a.
  - destruct (get_attr e k) as [v|] eqn:G; [|easy]. exfalso. apply (labelled_get _ _ _ _ _ L Nw) in G. unfold written_attributes in G.
    apply in_map_iff in G. destruct G as (a & E & I). injection E as E _. now rewrite (the_attribute_some _ _ _ N I E) in T.
Qed.
Definition fair_prefix (below : bool) (sc : scope) (attrs : list attribute) (p : option str) : Prop :=
  match p with
  | Some q => declare attrs sc (Some q) <> None
  | None => match the_attribute (lit "xmlns") attrs with
            | Some a => value_said (at_value a) <> []
            | None => below = true -> sc None = None
            end
  end.
Lemma tag_scope anc sc0 sc below nm attrs e : labelled nm (written_attributes attrs) e -> attributes_ok attrs -> scoped anc sc0 below -> extends sc0 sc ->
  e_xmlns e = namespace_rule e anc -> (forall q, e_prefix e = Some q -> declare attrs sc (Some q) <> None) ->
  (e_xmlns e = declare attrs sc (e_prefix e) <-> fair_prefix below sc0 attrs (e_prefix e)).
Proof.
  intros L O (S1 & S2 & S3) X E K. rewrite E. unfold namespace_rule, fair_prefix, declare in *.
  destruct (e_prefix e) as [q|]; cbn [declaring].
  - rewrite (written_get _ _ _ _ L O). specialize (K q eq_refl). cbn [declaring] in K.
    destruct (the_attribute (lit "xmlns:" ++ q) attrs) as [a|] eqn:T; cbn [option_map].
    + now destruct (value_said (at_value a)).
    + rewrite S2, <- S1. rewrite (X (Some q)) in *. destruct (sc0 (Some q)) as [v|]; [easy|]. split; intro H; [now rewrite <- H in K|easy].
  - rewrite (written_get _ _ _ _ L O). destruct (the_attribute (lit "xmlns") attrs) as [a|] eqn:T; cbn [option_map].
    + destruct (value_said (at_value a)); split; try easy. 
    + rewrite (extends_none _ _ X). destruct anc as [|p anc].
      * destruct S3 as [-> ->]. easy.
      * destruct S3 as [-> S3]. destruct (e_prefix p) as [q|]; [|rewrite S3; easy]. split; [now intros <-|]. intro H. now rewrite H.
Qed.
Lemma tag_scoped anc sc0 sc below nm attrs e : labelled nm (written_attributes attrs) e -> attributes_ok attrs -> scoped anc sc0 below -> extends sc0 sc ->
  qname nm (e_prefix e) (e_name e) -> e_xmlns e = declare attrs sc (e_prefix e) -> scoped (e :: anc) (declare attrs sc0) (prefixed nm).
Proof.
  intros L O (S1 & S2 & S3) X Q E. split; [|split].
  - intro q. cbn [nearest]. rewrite (written_get _ _ _ _ L O), <- S1. unfold declare. cbn [declaring].
    destruct (the_attribute (lit "xmlns:" ++ q) attrs) as [a|] eqn:T; [|easy]. cbn [option_map].
    apply the_attribute_in in T. destruct T as [I T]. destruct O as (_ & _ & O). pose proof (O a q I T). now destruct (value_said (at_value a)).
  - intro q. cbn [nearest]. rewrite (written_get _ _ _ _ L O), S2.
    match goal with |- context [the_attribute ?k attrs] => destruct (the_attribute k attrs) as [a|] eqn:T end; [|reflexivity]. exfalso.
    apply the_attribute_in in T. destruct T as [I T]. destruct O as (O & _). rewrite Forall_forall in O.
    destruct (O a I) as (_ & _ & (p' & n' & Q') & _). exact (qname_no_second _ _ _ q Q' T).
  - split; [rewrite (qname_prefixed _ _ _ Q); now destruct (e_prefix e)|]. intro P. rewrite E, P. unfold declare.
    destruct (the_attribute (declaring None) attrs); [easy|]. now apply extends_none.
Qed.
Lemma tag_told nm attrs e sc : labelled nm (written_attributes attrs) e -> attributes_ok attrs -> qname nm (e_prefix e) (e_name e) ->
  e_xmlns e = declare attrs sc (e_prefix e) -> tag_says sc nm attrs e.
Proof.
  intros L O Q E. split; [easy|]. split; [easy|]. intros k v. rewrite (written_get _ _ _ _ L O). destruct O as (_ & N & _). split.
  - destruct (the_attribute k attrs) as [a|] eqn:T; [|easy]. cbn. intro Ev. injection Ev as <-. apply the_attribute_in in T. now exists a.
  - intros (a & I & K & ->). now rewrite (the_attribute_some _ _ _ N I K).
Qed.

(** * What is fair is read *)

Lemma xml_listed s : xml_name s -> listed_name s.
Proof.
  intros (c & r & -> & H & Hr). exists c, r. split; [easy|]. split; [now left|]. eapply Forall_impl; [|exact Hr]. intros x Hx. now left.
Qed.
Lemma end_formed nm w : is_name nm -> ~ In 5760%N nm -> spaces w -> formed (end_text nm w).
Proof.
  intros Hn N Hw. exists [], (end_text nm w), []. split; [now rewrite app_nil_r|].
  exists (lit "/"), nm, [], w, []. split; [reflexivity|]. split; [now right|]. split; [now apply xml_listed, is_name_xml|].
  split; [constructor|]. split; [now apply spaces_ws|now left].
Qed.
Lemma end_closes nm w : is_name nm -> spaces w -> closes (end_text nm w) nm.
Proof.
  intros Hn Hw. exists [], w, []. split; [reflexivity|]. split; [constructor|]. split; [now apply spaces_ws|]. right. split; [easy|].
  intros [x E]. assert (In 47%N (nm ++ w)) as I by (rewrite E; apply in_or_app; right; now left).
  apply in_app_or in I. destruct I as [I|I]; [revert I; apply name_chars_no; [easy|cbn; tauto]|].
  unfold spaces in Hw. rewrite Forall_forall in Hw. apply Hw in I. cbn in I. repeat (destruct I as [I|I]; [discriminate I|]). destruct I.
Qed.
Lemma fair_tag_start below sc0 t sc nm attrs w e : t = start_text nm attrs w e -> tag_ok sc nm attrs w -> e = lit ">" \/ e = lit "/>" ->
  fair_tag below sc0 t nm attrs ->
  exists p n, qname nm p n /\ fair_prefix below sc0 attrs p /\ ~ In 5760%N nm /\ formed t /\ start_tag t nm (written_attributes attrs) /\
    forall P : Prop, (P -> forall q, p = Some q -> In (lit "xmlns:" ++ q) (map at_name attrs)) -> element_reads P t nm.
Proof.
  intros -> ((p & n & Q & _) & (Ha & _) & Hw) He (F & Fa & Fp). exists p, n. split; [easy|]. destruct (Fp p n Q) as [E K].
  assert (H : forall q, p = Some q -> ~ In 5760%N q) by (intros q ->; apply K).
  split; [destruct p; [apply K|exact K]|]. split; [now apply (qname_no_1680 nm p n)|]. split; [easy|].
  now apply (fair_start nm p n).
Qed.
Lemma fair_was_read :
  (forall m sc below sc0, markup_ok sc m -> fair_markup below sc0 m -> was_read m) /\
  (forall b sc below sc0, content_ok sc b -> fair_content below sc0 b -> was_read_in b).
Proof.
  apply markup_ind2.
  - intros nm attrs w sc below sc0 O F. destruct (fair_tag_start _ _ _ _ _ _ w _ eq_refl O (or_intror eq_refl) F) as (p & n & _ & _ & _ & Fo & _ & R).
    exists nm. split; [easy|]. now apply R.
  - intros nm attrs w b IH w' sc below sc0 (O & Ob & Hw') (F & Fb).
    destruct (fair_tag_start _ _ _ _ _ _ w _ eq_refl O (or_introl eq_refl) F) as (p & n & Q & _ & _ & Fo & _ & R). apply qname_name in Q.
    split; [|now apply (IH (declare attrs sc) (prefixed nm) (declare attrs sc0))]. exists nm. split; [split; [easy|now apply R]|now apply end_closes].
  - intros c sc below sc0 O F. now destruct F.
  - easy.
  - intros p sc below sc0 O F. destruct F.
  - easy.
  - intros t m IHm b IHb sc below sc0 (Ot & Om & Ob) (Ft & Fm & Fb). split; [now apply IHm with sc below sc0|now apply IHb with sc below sc0].
Qed.
Lemma item_fine names txt a : names <> [] -> text_item txt a -> text_fine names txt.
Proof. intros N [t W|t v W U _|t v W U _]; [now left|right; split; [easy|now exists v]..]. Qed.
Lemma one_tag names txt s t rest names' : no_tag txt -> tag_at s t rest -> text_fine names txt -> tag_fine names t names' ->
  steps (Inside names, txt ++ s) (Inside names', rest).
Proof. intros N T X F. eapply ss_step; [|constructor]. now apply sp_tag with txt t s. Qed.
Lemma fair_steps :
  (forall m sc below sc0 names txt r, markup_ok sc m -> fair_markup below sc0 m -> names <> [] -> no_tag txt -> text_fine names txt ->
     steps (Inside names, txt ++ markup_text m ++ r) (Inside names, r)) /\
  (forall b sc below sc0 names r, content_ok sc b -> fair_content below sc0 b -> names <> [] ->
     steps (Inside names, content_text b ++ r) (Inside names, ctail b ++ r) /\ text_fine names (ctail b) /\ no_tag (ctail b)).
Proof.
  apply markup_ind2.
  - intros nm attrs w sc below sc0 names txt r O F D N X.
    destruct (fair_tag_start _ _ _ _ _ _ w _ eq_refl O (or_intror eq_refl) F) as (p & n & Q & _ & _ & Fo & (B1 & B2 & _) & R).
    apply tag_ok_parts in O. destruct O as (Hn & Ha & Hw). rewrite empty_text.
    eapply one_tag; [easy|apply start_at; tauto|easy|]. apply (tf_single _ _ nm); try easy; [|apply start_self]. now apply R.
  - intros nm attrs w b IH w' sc below sc0 names txt r (O & Ob & Hw') (F & Fb) D N X.
    destruct (fair_tag_start _ _ _ _ _ _ w _ eq_refl O (or_introl eq_refl) F) as (p & n & Q & _ & N0 & Fo & (B1 & B2 & _) & R).
    apply tag_ok_parts in O. destruct O as (Hn & Ha & Hw). rewrite elem_text.
    assert (nm :: names <> []) as D' by discriminate.
    destruct (IH (declare attrs sc) (prefixed nm) (declare attrs sc0) (nm :: names) (end_text nm w' ++ r) Ob Fb D') as (Sb & Xb & Nb).
    eapply steps_trans; [eapply one_tag; [easy|apply start_at; tauto|easy|]|].
    + apply (tf_open _ _ nm); try easy; [now apply R|now apply start_open].
    + eapply steps_trans; [exact Sb|]. eapply one_tag; [easy|now apply end_at|easy|].
      apply (tf_close _ _ nm); [easy|apply end_begins|now apply end_formed|now apply end_closes].
  - intros c sc below sc0 names txt r O F D N X. destruct F as (_ & F1 & F2). eapply one_tag; [easy|now apply comment_wf_at|easy|].
    apply tf_comment; [easy|now eexists| |].
    + intro E. apply (f_equal (@List.length _)) in E. unfold comment_text in E. rewrite !app_length in E. cbn in E. lia.
    + intro E. apply (f_equal (@List.length _)) in E. unfold comment_text in E. rewrite !app_length in E. cbn in E. lia.
  - intros c sc below sc0 names txt r O F D N X. eapply one_tag; [easy|now apply cdata_wf_at|easy|]. apply tf_cdata; [easy|now eexists].
  - intros p sc below sc0 names txt r O F. destruct F.
  - intros t sc below sc0 names r O F D. cbn [content_ok fair_content content_text ctail] in *. split; [constructor|]. split; [|now apply chardata_no_tag].
    apply item_fine with (map ILeaf (text_says t)); [easy|]. apply fair_text_item; [now apply good_text|easy].
  - intros t m IHm b IHb sc below sc0 names r (Ot & Om & Ob) (Ft & Fm & Fb) D. cbn [content_text ctail]. rewrite <- !app_assoc.
    destruct (IHb sc below sc0 names r Ob Fb D) as (Sb & Xb & Nb). split; [|easy]. eapply steps_trans; [|exact Sb].
    apply IHm with sc below sc0; try easy; [now apply chardata_no_tag|].
    apply item_fine with (map ILeaf (text_says t)); [easy|]. apply fair_text_item; [now apply good_text|easy].
Qed.

(** ** and says what XML says *)

Fixpoint mitems (m : markup) : list item :=
  match m with
  | MEmpty nm attrs w => [IOpen nm (written_attributes attrs); IClose]
  | MElem nm attrs w b w' => IOpen nm (written_attributes attrs) :: citems b ++ [IClose]
  | MComment c => [ILeaf (NComment c)]
  | MCData c => [ILeaf (NCData c)]
  | MPI p => []
  end
with citems (b : content) : list item :=
  match b with
  | CText t => map ILeaf (text_says t)
  | CMore t m b => map ILeaf (text_says t) ++ mitems m ++ citems b
  end.
Lemma items_bal : (forall m, bal (mitems m)) /\ (forall b, bal (citems b)).
Proof.
  apply markup_ind2; cbn [mitems citems]; intros.
  - apply (bl_elem _ _ [] []); constructor.
  - apply bl_elem; [easy|constructor].
  - repeat constructor.
  - repeat constructor.
  - constructor.
  - apply bal_leaves.
  - apply bal_app; [apply bal_leaves|now apply bal_app].
Qed.
Lemma end_item nm w : is_name nm -> spaces w -> tag_item (end_text nm w) [IClose].
Proof. intros Hn Hw. apply gi_close with nm. now apply closes_closing, end_closes. Qed.
Lemma fair_items :
  (forall m sc below sc0 txt a, markup_ok sc m -> fair_markup below sc0 m -> text_item txt a -> items (mtoks txt m) (a ++ mitems m)) /\
  (forall b sc below sc0, content_ok sc b -> fair_content below sc0 b ->
     exists c a, items (ctoks b) c /\ text_item (ctail b) a /\ citems b = c ++ a).
Proof.
  assert (One : forall txt t a b, text_item txt a -> tag_item t b -> items [(txt, t)] (a ++ b)).
  { intros txt t a b A B. rewrite <- (app_nil_r b). constructor; [easy|easy|constructor]. }
  apply markup_ind2.
  - intros nm attrs w sc below sc0 txt a O F A.
    destruct (fair_tag_start _ _ _ _ _ _ w _ eq_refl O (or_intror eq_refl) F) as (p & n & Q & _ & _ & _ & S & _).
    apply One; [easy|]. apply gi_single; [easy|apply start_self].
  - intros nm attrs w b IH w' sc below sc0 txt a (O & Ob & Hw') (F & Fb) A.
    destruct (fair_tag_start _ _ _ _ _ _ w _ eq_refl O (or_introl eq_refl) F) as (p & n & Q & _ & _ & _ & S & _).
    destruct (IH _ _ _ Ob Fb) as (c & a' & I & A' & E). apply tag_ok_parts in O. destruct O as (Hn & Ha & Hw). cbn [mtoks mitems]. rewrite E.
    apply (it_tok txt _ _ a [IOpen nm (written_attributes attrs)] ((c ++ a') ++ [IClose])); [easy|apply gi_open; [easy|now apply start_open]|].
    rewrite <- app_assoc. apply items_app; [easy|]. apply One; [easy|now apply end_item].
  - intros c sc below sc0 txt a O F A. apply One; [easy|apply gi_comment].
  - intros c sc below sc0 txt a O F A. apply One; [easy|apply gi_cdata].
  - intros p sc below sc0 txt a O F. destruct F.
  - intros t sc below sc0 O F. exists [], (map ILeaf (text_says t)). split; [constructor|]. split; [|easy]. apply fair_text_item; [now apply good_text|easy].
  - intros t m IHm b IHb sc below sc0 (Ot & Om & Ob) (Ft & Fm & Fb). destruct (IHb _ _ _ Ob Fb) as (c & a & I & A & E).
    exists ((map ILeaf (text_says t) ++ mitems m) ++ c), a. split; [|split; [easy|cbn [citems]; now rewrite E, <- !app_assoc]].
    cbn [ctoks]. apply items_app; [|easy]. apply IHm with sc below sc0; try easy. apply fair_text_item; [now apply good_text|easy].
Qed.
Lemma plain_same c : ~ In 13%N c -> plain_said c = c.
Proof.
  intro N. unfold plain_said, text_said. induction c as [|x c IH]; [easy|]. cbn [map line_ends is_chr].
  apply not_in_cons in N. destruct N as [N1 N2]. destruct (x =? 13)%N eqn:E; [apply N.eqb_eq in E; congruence|].
  cbn [flat_map said app]. now rewrite IH.
Qed.
Lemma fair_says :
  (forall m sc below sc0 anc ns r, markup_ok sc m -> fair_markup below sc0 m -> scoped anc sc0 below -> extends sc0 sc ->
     nodes_of_items anc ns (mitems m ++ r) -> exists l ns', ns = l ++ ns' /\ says sc m l /\ nodes_of_items anc ns' r) /\
  (forall b sc below sc0 anc ns, content_ok sc b -> fair_content below sc0 b -> scoped anc sc0 below -> extends sc0 sc ->
     nodes_of_items anc ns (citems b) -> says_in sc b ns).
Proof.
  assert (T : forall sc below sc0 anc nm attrs w e' e, tag_ok sc nm attrs w -> e' = lit ">" \/ e' = lit "/>" ->
    fair_tag below sc0 (start_text nm attrs w e') nm attrs -> scoped anc sc0 below -> extends sc0 sc ->
    labelled nm (written_attributes attrs) e -> e_xmlns e = namespace_rule e anc ->
    tag_says sc nm attrs e /\ scoped (e :: anc) (declare attrs sc0) (prefixed nm) /\ extends (declare attrs sc0) (declare attrs sc)).
  { intros sc below sc0 anc nm attrs w e' e O He F S X L E.
    destruct (fair_tag_start _ _ _ _ _ _ w _ eq_refl O He F) as (p & n & Q & Fp & _). destruct O as ((p0 & n0 & Q0 & K) & O & _).
    destruct (qname_fun _ _ _ _ _ Q Q0) as [<- <-].
    assert (e_prefix e = p /\ e_name e = n) as [Ep En].
    { destruct L as (L & _). clear - Q L. remember (e_prefix e) as p' eqn:E1. remember (e_name e) as n' eqn:E2. clear E1 E2.
      assert (parts_of_name nm p n) as L'. { destruct Q as [n [_ H]|q n [_ H] _]; now constructor. }
      now apply parts_of_name_fun with nm. }
    assert (Q' : qname nm (e_prefix e) (e_name e)) by now rewrite Ep, En.
    assert (X' : e_xmlns e = declare attrs sc (e_prefix e)).
    { apply (tag_scope anc sc0 sc below nm attrs e L O S X E); [intros q Eq; rewrite Ep in Eq; now rewrite <- Eq; apply (K q)|now rewrite Ep]. }
    split; [now apply tag_told|]. split; [now apply tag_scoped with sc below|now apply extends_declare]. }
  apply markup_ind2.
  - intros nm attrs w sc below sc0 anc ns r O F S X H. cbn [mitems app] in H.
    destruct (open_inv anc ns _ _ [] r H bl_nil) as (e & ns' & -> & L & E & Hc & H'). apply nodes_nil in Hc.
    destruct (T sc below sc0 anc nm attrs w _ e O (or_intror eq_refl) F S X L E) as (G & _). exists [NElem e], ns'. split; [easy|]. split; [now apply sy_empty|easy].
  - intros nm attrs w b IH w' sc below sc0 anc ns r (O & Ob & _) (F & Fb) S X H. cbn [mitems app] in H. rewrite <- app_assoc in H. cbn [app] in H.
    destruct (open_inv anc ns _ _ _ r H (proj2 items_bal b)) as (e & ns' & -> & L & E & Hc & H').
    destruct (T sc below sc0 anc nm attrs w _ e O (or_introl eq_refl) F S X L E) as (G & S' & X'). exists [NElem e], ns'. split; [easy|].
    split; [|easy]. apply sy_elem; [easy|]. now apply (IH _ (prefixed nm) (declare attrs sc0) (e :: anc)).
  - intros c sc below sc0 anc ns r O F S X H. destruct (leaves_inv anc [NComment c] _ _ H) as (ns' & -> & H').
    exists [NComment c], ns'. split; [easy|]. split; [|easy]. rewrite <- (plain_same c) at 2 by apply F. constructor.
  - intros c sc below sc0 anc ns r O F S X H. destruct (leaves_inv anc [NCData c] _ _ H) as (ns' & -> & H').
    exists [NCData c], ns'. split; [easy|]. split; [|easy]. rewrite <- (plain_same c) at 2 by apply F. constructor.
  - intros p sc below sc0 anc ns r O F. destruct F.
  - intros t sc below sc0 anc ns O F S X H. cbn [citems] in H. rewrite <- (app_nil_r (map ILeaf _)) in H. apply leaves_inv in H.
    destruct H as (ns' & -> & H). apply nodes_nil in H. subst ns'. rewrite app_nil_r. constructor.
  - intros t m IHm b IHb sc below sc0 anc ns (Ot & Om & Ob) (Ft & Fm & Fb) S X H. cbn [citems] in H. apply leaves_inv in H. destruct H as (ns' & -> & H).
    destruct (IHm _ _ _ _ _ _ Om Fm S X H) as (l & ns2 & -> & Sm & H'). constructor; [easy|]. now apply IHb with below sc0 anc.
Qed.

(** * What is read as XML says is fair *)

Lemma empty_item_inv nm attrs w b : is_name nm -> tag_item (start_text nm attrs w (lit "/>")) b ->
  exists n l, b = [IOpen n l; IClose] /\ start_tag (start_text nm attrs w (lit "/>")) n l.
Proof.
  intros Hn T. destruct (start_not_special nm attrs w (lit "/>") Hn) as (B1 & B2 & _). pose proof (start_self nm attrs w) as S.
  remember (start_text nm attrs w (lit "/>")) as t eqn:E. destruct T as [c|c|t n l H C|t n l H C|t n C].
  - exfalso. apply B1. now eexists.
  - exfalso. apply B1. now eexists.
  - easy.
  - now exists n, l.
  - exfalso. apply B2. now apply closing_begins in C.
Qed.
Lemma open_item_inv nm attrs w b : is_name nm -> Forall attribute_ok attrs -> spaces w -> tag_item (start_text nm attrs w (lit ">")) b ->
  exists n l, b = [IOpen n l] /\ start_tag (start_text nm attrs w (lit ">")) n l.
Proof.
  intros Hn Ha Hw T. destruct (start_not_special nm attrs w (lit ">") Hn) as (B1 & B2 & _). pose proof (start_open nm attrs w Hn Ha Hw) as S.
  remember (start_text nm attrs w (lit ">")) as t eqn:E. destruct T as [c|c|t n l H C|t n l H C|t n C].
  - exfalso. apply B1. now eexists.
  - exfalso. apply B1. now eexists.
  - now exists n, l.
  - easy.
  - exfalso. apply B2. now apply closing_begins in C.
Qed.
Definition is_text (n : node) : Prop := exists v, n = NText v.
Lemma text_leaves txt a : text_item txt a -> exists xs, a = map ILeaf xs /\ Forall is_text xs.
Proof.
  intros [t W|t v W U _|t v W U _]; [now exists []|now exists []|]. exists [NText v]. split; [easy|]. constructor; [now exists v|constructor].
Qed.
Lemma texts_cut xs : forall ys z z' r r', Forall is_text xs -> Forall is_text ys -> ~ is_text z -> ~ is_text z' ->
  xs ++ z :: r = ys ++ z' :: r' -> xs = ys /\ z :: r = z' :: r'.
Proof.
  induction xs as [|x xs IH]; intros [|y ys] z z' r r' X Y N N' E.
  - now split.
  - exfalso. inversion Y; subst. cbn in E. injection E as -> _. easy.
  - exfalso. inversion X; subst. cbn in E. injection E as -> _. easy.
  - inversion X; inversion Y; subst. cbn [app] in E. injection E as -> E. destruct (IH ys z z' r r') as [-> E']; easy.
Qed.
Lemma says_text t : Forall is_text (text_says t).
Proof. unfold text_says. destruct (forallb _ _); constructor; [now eexists|constructor]. Qed.
Lemma read_bal :
  (forall m sc txt is, markup_ok sc m -> was_read m -> items (mtoks txt m) is ->
     exists a x im, is = a ++ x :: im /\ text_item txt a /\ bal (x :: im) /\ (forall v, x <> ILeaf (NText v)) /\ x <> IClose) /\
  (forall b sc c a, content_ok sc b -> was_read_in b -> items (ctoks b) c -> text_item (ctail b) a -> bal (c ++ a)).
Proof.
  apply markup_ind2.
  - intros nm attrs w sc txt is O R H. apply tag_ok_parts in O. destruct O as (Hn & Ha & Hw). cbn [mtoks] in H.
    destruct (items_one _ _ _ H) as (a & b & -> & A & T). destruct (empty_item_inv _ _ _ _ Hn T) as (n & l & -> & _).
    exists a, (IOpen n l), [IClose]. repeat split; try easy. apply (bl_elem _ _ [] []); constructor.
  - intros nm attrs w b IH w' sc txt is (O & Ob & Hw') (_ & Rb) H. apply tag_ok_parts in O. destruct O as (Hn & Ha & Hw). cbn [mtoks] in H.
    inversion H as [|txt' t' toks a v l' A T I]; subst. destruct (open_item_inv _ _ _ _ Hn Ha Hw T) as (n & l & -> & _).
    destruct (items_split _ _ _ I) as (c & y & -> & Ic & Iy). destruct (items_one _ _ _ Iy) as (a' & u & -> & A' & T').
    rewrite (tag_item_fun _ _ _ T' (end_item _ _ Hn Hw')). exists a, (IOpen n l), (c ++ a' ++ [IClose]). repeat split; try easy.
    rewrite app_assoc. apply bl_elem; [now apply IH with (declare attrs sc)|constructor].
  - intros c sc txt is O R H. cbn [mtoks] in H. destruct (items_one _ _ _ H) as (a & b & -> & A & T).
    rewrite (tag_item_fun _ _ _ T (gi_comment c)). exists a, (ILeaf (NComment c)), []. repeat split; try easy. repeat constructor.
  - intros c sc txt is O R H. cbn [mtoks] in H. destruct (items_one _ _ _ H) as (a & b & -> & A & T).
    rewrite (tag_item_fun _ _ _ T (gi_cdata c)). exists a, (ILeaf (NCData c)), []. repeat split; try easy. repeat constructor.
  - intros p sc txt is O R. destruct R.
  - intros t sc c a O R H A. cbn [ctoks] in H. inversion H; subst. destruct (text_leaves _ _ A) as (xs & -> & _). apply bal_leaves.
  - intros t m IHm b IHb sc c a (Ot & Om & Ob) (Rm & Rb) H A. cbn [ctoks ctail] in *. destruct (items_split _ _ _ H) as (u & v & -> & Hu & Hv).
    destruct (IHm _ _ _ Om Rm Hu) as (a' & x & im & -> & A' & B & _). destruct (text_leaves _ _ A') as (xs & -> & _).
    rewrite <- !app_assoc. apply bal_app; [apply bal_leaves|]. apply bal_app; [easy|]. now apply IHb with sc.
Qed.
Lemma plain_fair c : plain_said c = c -> ~ In 13%N c.
Proof.
  unfold plain_said, text_said. intros E I.
  assert (K : forall s, ~ In 13%N (flat_map said (line_ends (map Chr s)))); [|rewrite <- E in I; now apply K in I].
  clear. induction s as [|x s IH]; [easy|]. cbn [map line_ends is_chr]. destruct (x =? 13)%N eqn:Ex.
  - destruct (match map Chr s with q :: _ => is_chr 10 q | [] => false end); [exact IH|]. cbn [flat_map said app]. intros [H|H]; [discriminate H|easy].
  - cbn [flat_map said app]. intros [H|H]; [subst x; discriminate Ex|easy].
Qed.
Lemma told_fair D :
  (forall m sc1 sc below sc0 anc txt is a x im ns r l ns', markup_ok sc1 m -> markup_ok sc (completed D m) -> was_read m -> scoped anc sc0 below -> extends sc0 sc ->
     items (mtoks txt m) is -> is = a ++ x :: im -> text_item txt a -> (forall v, x <> ILeaf (NText v)) ->
     nodes_of_items anc ns (x :: im ++ r) -> ns = l ++ ns' -> says sc (completed D m) l ->
     nodes_of_items anc ns' r /\ completed D m = m /\ fair_markup below sc0 m) /\
  (forall b sc1 sc below sc0 anc c a ns, content_ok sc1 b -> content_ok sc (completed_in D b) -> was_read_in b -> scoped anc sc0 below -> extends sc0 sc ->
     items (ctoks b) c -> text_item (ctail b) a -> nodes_of_items anc ns (c ++ a) -> says_in sc (completed_in D b) ns ->
     completed_in D b = b /\ fair_content below sc0 b).
Proof.
  assert (Same : forall txt a a' (x : item) im y, text_item txt a -> text_item txt a' -> a ++ x :: im = a' ++ y -> x :: im = y).
  { intros txt a a' x im y A A' E. rewrite (text_item_fun _ _ _ A A') in E. now apply app_inv_head in E. }
  assert (T : forall sc1 sc below sc0 anc nm attrs w e' e n n0 l0, tag_ok sc1 nm attrs w -> e' = lit ">" \/ e' = lit "/>" ->
    tag_ok sc nm (complete_attributes D nm attrs) w ->
    start_tag (start_text nm attrs w e') n l0 -> tag_read (start_text nm attrs w e') n0 ->
    scoped anc sc0 below -> extends sc0 sc ->
    labelled n l0 e -> e_xmlns e = namespace_rule e anc -> tag_says sc nm (complete_attributes D nm attrs) e ->
    complete_attributes D nm attrs = attrs /\ fair_tag below sc0 (start_text nm attrs w e') nm attrs /\
    scoped (e :: anc) (declare attrs sc0) (prefixed nm) /\ extends (declare attrs sc0) (declare attrs sc)).
  { intros sc1 sc below sc0 anc nm attrs w e' e n n0 l0 ((p1 & n1 & Q1 & _) & O & Hw) He Od S [Fo R] Sc X L E G.
    destruct (told_start D sc nm attrs w e' n n0 l0 e) as (-> & -> & Ec & Fa & En & Hq); try easy; [now exists p1, n1|].
    split; [easy|]. rewrite Ec in Od, G. destruct Od as ((p2 & n2 & Q2 & K) & _). destruct G as (Q & Ex & _).
    destruct (qname_fun _ _ _ _ _ Q Q2) as [<- <-].
    assert (Fp : fair_prefix below sc0 attrs (e_prefix e)).
    { apply (tag_scope anc sc0 sc below nm attrs e L O Sc X E); [intros q Eq; rewrite <- Eq; now apply (K q)|easy]. }
    split; [|split; [now apply tag_scoped with sc below|now apply extends_declare]].
    split; [easy|]. split; [easy|]. intros p n Qp. destruct (qname_fun _ _ _ _ _ Q Qp) as [<- <-]. split; [easy|].
    destruct (e_prefix e) as [q|]; [split; [now apply Hq|easy]|exact Fp]. }
  apply markup_ind2.
  - intros nm attrs w sc1 sc below sc0 anc txt is a x im ns r l ns' O Od [n0 R] S X H Eis A Nx Hn En Hs. cbn [mtoks completed] in *. subst is.
    pose proof (tag_ok_parts _ _ _ _ O) as (N & Ha & Hw).
    destruct (items_one _ _ _ H) as (a' & b & Eb & A' & Tb). destruct (empty_item_inv _ _ _ _ N Tb) as (n & l0 & -> & Sb).
    apply (Same _ _ _ _ _ _ A A') in Eb. injection Eb as -> ->. cbn [app] in Hn.
    destruct (open_inv anc ns _ _ [] r Hn bl_nil) as (e & ns2 & E2 & L & E & Hc & H'). inversion Hs as [sc' nm' at' w' e0 G Gc| | | |]; subst.
    cbn [app] in E2. injection E2 as -> ->.
    destruct (T sc1 sc below sc0 anc nm attrs w _ e n n0 l0 O (or_intror eq_refl) Od Sb R S X L E G) as (-> & F & _). easy.
  - intros nm attrs w b IH w' sc1 sc below sc0 anc txt is a x im ns r l ns' (O & Ob & Hw') (Od & Obd & _) [(n0 & R & _) Rb] S X H Eis A Nx Hn En Hs.
    cbn [mtoks completed] in *. subst is. pose proof (tag_ok_parts _ _ _ _ O) as (N & Ha & Hw).
    inversion H as [|txt' t' toks a1 v l' A1 Tv I]; subst. destruct (open_item_inv _ _ _ _ N Ha Hw Tv) as (n & l0 & -> & Sb).
    destruct (items_split _ _ _ I) as (c & y & -> & Ic & Iy). destruct (items_one _ _ _ Iy) as (a' & u & -> & A' & T').
    rewrite (tag_item_fun _ _ _ T' (end_item _ _ N Hw')) in *.
    match goal with K : _ = a ++ x :: im |- _ => symmetry in K; apply (Same _ _ _ _ _ _ A A1) in K; cbn [app] in K; injection K as -> -> end.
    assert (B : bal (c ++ a')) by now apply (proj2 read_bal b (declare attrs sc1)).
    replace ((c ++ a' ++ [IClose]) ++ r) with ((c ++ a') ++ IClose :: r) in Hn by now rewrite <- !app_assoc.
    destruct (open_inv anc _ _ _ _ r Hn B) as (e & ns2 & E2 & L & E & Hc & H'). inversion Hs as [|sc' nm' at' w1 b1 w1' e0 G Gc| | |]; subst.
    cbn [app] in E2. injection E2 as -> ->.
    destruct (T sc1 sc below sc0 anc nm attrs w _ e n n0 l0 O (or_introl eq_refl) Od Sb R S X L E G) as (Ec & F & S' & X').
    rewrite Ec in *. destruct (IH _ _ _ _ _ _ _ _ Ob Obd Rb S' X' Ic A' Hc Gc) as [-> Fb]. easy.
  - intros c sc1 sc below sc0 anc txt is a x im ns r l ns' O Od R S X H Eis A Nx Hn En Hs. cbn [mtoks completed] in *. subst is.
    destruct (items_one _ _ _ H) as (a' & b & Eb & A' & Tb). rewrite (tag_item_fun _ _ _ Tb (gi_comment c)) in Eb.
    apply (Same _ _ _ _ _ _ A A') in Eb. injection Eb as -> ->. destruct (leaves_inv anc [NComment c] _ _ Hn) as (ns2 & E2 & H').
    inversion Hs; subst. cbn [app] in E2. injection E2 as E2 ->. split; [easy|]. split; [easy|]. split; [now apply plain_fair|exact R].
  - intros c sc1 sc below sc0 anc txt is a x im ns r l ns' O Od R S X H Eis A Nx Hn En Hs. cbn [mtoks completed] in *. subst is.
    destruct (items_one _ _ _ H) as (a' & b & Eb & A' & Tb). rewrite (tag_item_fun _ _ _ Tb (gi_cdata c)) in Eb.
    apply (Same _ _ _ _ _ _ A A') in Eb. injection Eb as -> ->. destruct (leaves_inv anc [NCData c] _ _ Hn) as (ns2 & E2 & H').
    inversion Hs; subst. cbn [app] in E2. injection E2 as E2 ->. split; [easy|]. split; [easy|]. now apply plain_fair.
  - intros p sc1 sc below sc0 anc txt is a x im ns r l ns' O Od R. destruct R.
  - intros t sc1 sc below sc0 anc c a ns O Od R S X H A Hn Hs. cbn [ctoks completed_in ctail content_ok] in *. inversion H; subst. split; [easy|].
    inversion Hs; subst. cbn [app] in Hn. apply (text_exact t a (good_text _ O) A). destruct (text_leaves _ _ A) as (xs & -> & _).
    rewrite <- (app_nil_r (map ILeaf xs)) in Hn. apply leaves_inv in Hn. destruct Hn as (ns' & -> & Hn). apply nodes_nil in Hn. subst ns'. now rewrite app_nil_r.
  - intros t m IHm b IHb sc1 sc below sc0 anc c a ns (Ot & Om & Ob) (_ & Omd & Obd) (Rm & Rb) S X H A Hn Hs. cbn [ctoks completed_in ctail] in *.
    destruct (items_split _ _ _ H) as (u & v & -> & Hu & Hv).
    destruct (proj1 read_bal m sc1 _ _ Om Rm Hu) as (a' & x & im & -> & A' & B & Nx & Nc). destruct (text_leaves _ _ A') as (xs & Ea & Xs).
    inversion Hs as [|? ? ? ? l l' Sm Sb]; subst. rewrite <- !app_assoc in Hn. apply leaves_inv in Hn. destruct Hn as (ns2 & E2 & Hn). cbn [app] in Hn.
    assert (exists z r, ns2 = z :: r /\ ~ is_text z) as (z & r & -> & Nz).
    { remember (x :: im ++ v ++ a) as is eqn:Ei. destruct Hn as [anc|anc y ns is0 _ Hn|anc e ns is1 is2 He Hn].
      - discriminate Ei.
      - injection Ei as <- _. exists y, ns. split; [easy|]. intros [s ->]. now apply (Nx s).
      - exists (NElem e), ns. split; [easy|]. now intros [s Es]. }
    assert (exists z', l = [z'] /\ ~ is_text z') as (z' & -> & Nz').
    { destruct m as [nm at' w|nm at' w b' w'|c|c|p]; [inversion Sm; subst; (eexists; split; [reflexivity|intros [s Es]; discriminate Es])..|destruct Rm]. }
    cbn [app] in E2. apply texts_cut in E2; [|apply says_text|easy..]. destruct E2 as [Et E2].
    assert (nodes_of_items anc (z' :: l') (x :: im ++ v ++ a)) as Hn' by now rewrite E2.
    destruct (IHm sc1 sc below sc0 anc _ _ _ _ _ _ (v ++ a) [z'] l' Om Omd Rm S X Hu eq_refl A' Nx Hn' eq_refl Sm) as (H' & -> & Fm).
    destruct (IHb sc1 sc below sc0 anc v a l' Ob Obd Rb S X Hv A H' Sb) as [-> Fb]. split; [easy|]. split; [|now split].
    apply (text_exact t _ (good_text _ Ot) A'). now rewrite Et.
Qed.

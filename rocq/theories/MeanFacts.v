(** The document read from a text is the one it stands for (SpecMean.v). *)
From Coq Require Import List NArith Arith Bool Ascii String Lia Permutation.
From Verif Require Import Base BaseFacts Escape Dom Spec EscapeFacts SpecDom DomFacts SpecApi ApiFacts Regex RegexFacts
  ParseTree SpecTree ParseTreeFacts Parse SpecLex SpecParse SpecEsc LexFacts ParseFacts DocFacts TagFacts AcceptFacts PosFacts
  DocProps SpecDoc UnescFacts PrintFacts PrintDoc PrologFacts ParsedFacts NsFacts FormFacts SerFacts SpecErr ReadFacts ErrFacts SpecMean.
Import ListNotations.

(** * Tags *)

Definition markup_or_element (t : str) : Prop := delimited t /\ (~ begins (lit "<!") t -> elementish t).
Lemma lexed_tags s toks tail : lexed s toks tail -> Forall (fun x => markup_or_element (snd x)) toks.
Proof.
  intro L. pose proof (lexed_delimited _ _ _ L) as D. induction L as [s|txt s t rest toks tail Hn T L IH]; [constructor|].
  apply Forall_cons_iff in D. destruct D as [D1 D2]. constructor; [|now apply IH]. split; [easy|].
  intro N. now apply tag_elementish with s rest.
Qed.

Lemma last_bound_spec k v l : last_bound k l = Some v <-> exists a b, l = a ++ (k, v) :: b /\ ~ In k (map fst b).
Proof.
  split.
  - induction l as [|[k' v'] l IH]; cbn [last_bound fst snd]; [discriminate|]. destruct (last_bound k l) as [w|] eqn:B.
    + intro E. injection E as ->. destruct (IH eq_refl) as (a & b & -> & N). now exists ((k', v') :: a), b.
    + destruct (str_eqb k' k) eqn:E; [|discriminate]. intro V. injection V as ->. apply str_eqb_eq in E. subst k'.
      exists [], l. split; [easy|]. intro H. apply last_bound_in in H. congruence.
  - intros (a & b & -> & N). now apply last_bound_app.
Qed.
Lemma element_of_labelled t b top e : elementish t -> ~ begins (lit "<!") t -> ~ begins (lit "</") t -> strip_tag t = Ok b ->
  element_of top b = Ok e -> exists n l, start_tag t n l /\ labelled n l e.
Proof.
  intros El N1 N2 S E. pose proof (strip_words _ _ El N2 S) as W. apply element_of_spec in E.
  destruct E as (nm & comps & l & prefix & local & Wb & Rl & Q & _ & _ & _ & ->).
  rewrite (split_words _ _ Wb) in W. exists nm, l. split.
  - split; [easy|]. split; [easy|]. exists (join_loop comps).
    split; [exists comps; split; [easy|now apply join_loop_joined with (List.length comps)]|].
    assert (Rl' : parse_attrs (join_loop comps) [] 0 [] = Ok (set_all l [])) by (apply parse_attrs_reads; now exists l).
    pose proof (parse_attrs_outcome [] 0 (join_loop comps) []) as AO. rewrite Rl' in AO. inversion AO as [l' F E| |].
    assert (l' = l) as <- by now apply reads_attrs_same with (join_loop comps). exact F.
  - destruct (adopt_opt_fields top (bare local prefix (set_all l []) (explicit_ns top (set_all l []) prefix))) as (Ea & Ep & En).
    split; [|split].
    + rewrite Ep, En. cbn [bare e_prefix e_name]. destruct Q as [n Hn|p n Hn]; now constructor.
    + rewrite Ea. apply set_all_ok. constructor.
    + intros k v. rewrite Ea. cbn [bare e_attributes]. rewrite <- last_bound_spec.
      pose proof (set_all_get k l []) as G. cbn [aget] in G.
      assert (O : NoDup (akeys (set_all l []))) by (apply set_all_ok; constructor).
      transitivity (aget k (set_all l []) = Some v); [split; [now apply in_aget|apply aget_in]|].
      rewrite G. now destruct (last_bound k l).
Qed.

(** * Trees under construction *)

Inductive rt_items : rtree -> list item -> Prop :=
| rti_elem e ks n l is : labelled n l e -> rts_items ks is -> rt_items (RT (NElem e) ks) (IOpen n l :: is ++ [IClose])
| rti_leaf n : (forall e, n <> NElem e) -> keep_node n = true -> rt_items (RT n []) [ILeaf n]
| rti_blank n : keep_node n = false -> rt_items (RT n []) []
with rts_items : list rtree -> list item -> Prop :=
| rtl_nil : rts_items [] []
| rtl_cons k ks is is' : rt_items k is -> rts_items ks is' -> rts_items (k :: ks) (is ++ is').
Lemma rts_app ks is : rts_items ks is -> forall ks' is', rts_items ks' is' -> rts_items (ks ++ ks') (is ++ is').
Proof.
  induction 1 as [|k ks i1 i2 H F IH]; intros ks' is' H'; [easy|]. cbn. rewrite <- app_assoc. constructor; [easy|now apply IH].
Qed.
Lemma rts_one k is : rt_items k is -> rts_items [k] is.
Proof. intro H. rewrite <- (app_nil_r is). constructor; [easy|constructor]. Qed.
Inductive frames_items : list (elem * list rtree) -> list item -> Prop :=
| fri_nil : frames_items [] []
| fri_cons e ks outer n l a is : frames_items outer a -> labelled n l e -> rts_items ks is ->
    frames_items ((e, ks) :: outer) (a ++ IOpen n l :: is).
Definition m_items (m : machine) (is : list item) : Prop :=
  match m with
  | MNew => is = []
  | MOpen e ks outer => frames_items ((e, ks) :: outer) is
  | MDone e ks => rt_items (RT (NElem e) ks) is
  end.
Lemma frames_items_snoc e ks outer is k i : frames_items ((e, ks) :: outer) is -> rt_items k i ->
  frames_items ((e, ks ++ [k]) :: outer) (is ++ i).
Proof.
  intros H Hk. inversion H as [|? ? ? n l a is0 F L R]; subst. rewrite <- app_assoc. cbn [app].
  constructor; [easy|easy|]. apply rts_app; [easy|now apply rts_one].
Qed.

Lemma text_step_items e ks outer txt m1 is : text_step (MOpen e ks outer) txt m1 -> m_items (MOpen e ks outer) is ->
  exists i, text_item txt i /\ m_items m1 (is ++ i).
Proof.
  intros [H|op m1' H D] Hi.
  - exists []. rewrite app_nil_r. split; [|easy]. inversion H. now apply xi_white.
  - inversion H as [|t v B U]; subst. cbn in D. injection D as <-. apply unescape_exact in U.
    destruct (text_is_whitespace v) eqn:Ev.
    + exists []. split; [apply xi_blank with v; [easy|easy|now apply is_whitespace_blank]|].
      apply frames_items_snoc; [easy|]. apply rti_blank. cbn. now rewrite Ev.
    + exists [ILeaf (NText v)]. split; [apply xi_text; [easy|easy|now apply not_blank]|].
      apply frames_items_snoc; [easy|]. apply rti_leaf; [easy|]. cbn. now rewrite Ev.
Qed.
Lemma tag_step_items e ks outer t m' is : markup_or_element t -> tag_step (MOpen e ks outer) t m' -> m_items (MOpen e ks outer) is ->
  exists i, tag_item t i /\ m_items m' (is ++ i).
Proof.
  intros [Dt Et] [op m1 H D] Hi.
  destruct H as [c Hc|c Hc|t b a N1 N2 S C Ht Hb|t b c N1 N2 S C E Z|t b c N1 N2 S C E Z].
  - cbn in D. injection D as <-. exists [ILeaf (NComment c)]. split; [apply gi_comment|].
    apply frames_items_snoc; [easy|now apply rti_leaf].
  - cbn in D. injection D as <-. exists [ILeaf (NCData c)]. split; [apply gi_cdata|].
    apply frames_items_snoc; [easy|now apply rti_leaf].
  - exists [IClose]. split; [apply gi_close with (tag_name a); subst; now apply close_closing|].
    cbn [m_items] in Hi. inversion Hi as [|? ? ? n l a0 is0 F L R]; subst.
    destruct outer as [|[a1 ks1] outer]; cbn in D; injection D as <-.
    + inversion F; subst. cbn. now constructor.
    + rewrite <- app_assoc. apply frames_items_snoc; [easy|]. cbn. now constructor.
  - cbn in D. injection D as <-. destruct (element_of_labelled _ _ _ _ (Et N1) N1 N2 S E) as (n & l & T & L).
    exists [IOpen n l; IClose]. split; [now apply gi_single|]. apply frames_items_snoc; [easy|].
    change [IOpen n l; IClose] with (IOpen n l :: [] ++ [IClose]). constructor; [easy|constructor].
  - cbn in D. injection D as <-. destruct (element_of_labelled _ _ _ _ (Et N1) N1 N2 S E) as (n & l & T & L).
    exists [IOpen n l]. split; [now apply gi_open|]. constructor; [easy|easy|constructor].
Qed.
Lemma inside_items m toks m' : inside m toks m' -> Forall (fun x => markup_or_element (snd x)) toks ->
  forall is, m_items m is -> exists i, items toks i /\ m_items m' (is ++ i).
Proof.
  induction 1 as [m|e ks outer txt t toks m1 m2 m' X G F IH]; intros D is Hi.
  - exists []. rewrite app_nil_r. split; [constructor|easy].
  - apply Forall_cons_iff in D. destruct D as [D1 D2]. cbn in D1.
    destruct (text_step_items _ _ _ _ _ _ X Hi) as (i1 & X1 & H1). destruct (text_step_open _ _ _ _ _ X) as [ks1 ->].
    destruct (tag_step_items _ _ _ _ _ _ D1 G H1) as (i2 & X2 & H2).
    destruct (IH D2 _ H2) as (i3 & X3 & H3). exists (i1 ++ i2 ++ i3). split; [now constructor|].
    now rewrite !app_assoc in *.
Qed.

(** * The finished tree *)

Lemma labelled_head n l e e' : same_head e e' -> labelled n l e -> labelled n l e'.
Proof.
  intros H. assert (E : e_name e = e_name e') by (destruct e, e'; unfold same_head in H; cbn in H; injection H as -> -> -> -> ->; easy).
  destruct (same_head_fields _ _ H) as (E1 & E2 & _). unfold labelled. now rewrite E, E1, E2.
Qed.
Lemma same_head_sym a b : same_head a b -> same_head b a.
Proof. unfold same_head. congruence. Qed.
Lemma same_head_context a b : same_head a b -> e_context a = e_context b.
Proof. destruct a, b. unfold same_head. cbn. intro H. injection H as -> -> -> -> ->. easy. Qed.

Lemma assemble_leaf n : (forall e, n <> NElem e) -> assemble (RT n []) = n.
Proof. intro H. destruct n as [e|s|s|s]; [now destruct (H e)|reflexivity..]. Qed.
Lemma assemble_items : forall k, rt_valid k -> rt_spaced k -> forall anc anc', rt_scoped anc k -> Forall2 same_head anc' anc ->
  forall is, rt_items k is -> keep_node (assemble k) = true ->
  nodes_of_items anc' [assemble k] is /\ forall q l, anc = q :: l -> inherited q (assemble k) = assemble k.
Proof.
  induction k as [v ks IH] using rtree_ind'. intros V S anc anc' Sc F is Hi K. inversion S as [? ? S1 S2]; subst.
  inversion V as [e ks' He Hk|n Hn Hv]; subst.
  - inversion Sc as [? ? ? Sc0 Sck|? ? ? N]; subst; [|now destruct (N e)].
    inversion Hi as [? ? n l is0 L R|? N _|? N]; subst; [|now destruct (N e)|discriminate].
    destruct Sc0 as (Sx & Sn & Si). pose proof (build_head e (map assemble ks) (proj2 He)) as Hd.
    destruct (same_head_fields _ _ Hd) as (Ha & Hp & Hx). cbn [assemble]. split.
    + rewrite <- (app_nil_r (IOpen n l :: is0 ++ [IClose])). apply ni_elem; [|constructor].
      constructor.
      * now apply labelled_head with e; [apply same_head_sym|].
      * rewrite Hx, Sn. symmetry. exact (parsed_ns_heads _ _ _ _ Hd F).
      * intro p. rewrite (same_head_context _ _ Hd), Sx. symmetry. apply nearest_heads. now constructor.
      * set (B := build e (map assemble ks)) in *.
        assert (Fb : Forall2 same_head (B :: anc') (e :: anc)) by now constructor.
        assert (Ec : e_children B = map (inherited e) (filter keep_node (map assemble ks))).
        { unfold B. now rewrite build_sep by (try apply He; now apply spaced_no_adjacent). }
        rewrite Ec. clearbody B. clear Ec S Hd Ha Hp Hx S1 V Sc Hi L K He.
        revert is0 R. induction ks as [|k ks IHks]; intros is0 R; inversion R as [|? ? i1 i2 R1 R2]; subst; [constructor|].
        cbn [map filter].
        assert (T : nodes_of_items (B :: anc') (map (inherited e) (filter keep_node (map assemble ks))) i2).
        { apply IHks; [intros k' Hk'; apply IH; now right|intros k' Hk'; (apply Sck || apply Hk || apply S2 || apply IH); now right..|easy]. }
        destruct (keep_node (assemble k)) eqn:Ek.
        -- destruct (IH k (or_introl eq_refl) (Hk k (or_introl eq_refl)) (S2 k (or_introl eq_refl)) (e :: anc) (B :: anc') (Sck k (or_introl eq_refl)) Fb i1 R1 Ek) as [G1 G2].
           cbn [map]. rewrite (G2 e anc eq_refl).
           inversion G1 as [|? ? ? ? N1 N2|? ? ? ? ? N1 N2]; subst.
           ++ inversion N2; subst. now apply ni_leaf.
           ++ inversion N2; subst. rewrite app_nil_r. now apply ni_elem.
        -- assert (i1 = []) as ->; [|exact T]. inversion R1; subst; [discriminate| |easy]. rewrite assemble_leaf in Ek by easy. congruence.
    + intros q l0 ->. apply inherited_built; [apply He|exact Si].
  - rewrite assemble_leaf in * by easy. inversion Hi as [? ? n l is0 L R|? N _|? N]; subst; [now destruct (Hn e)| |congruence].
    split; [apply ni_leaf; [easy|constructor]|]. intros q l _. destruct v; [now destruct (Hn e)|reflexivity..].
Qed.

Theorem accepts_stands s d pr el : accepts s d -> one_root s pr el -> stands_for pr el d.
Proof.
  intros A O. pose proof O as ((tail & Sp) & P & ET & SE). split; [|split].
  - exact (proj1 (accepts_declaration _ _ _ _ _ A Sp P SE)).
  - exact (accepts_dtds _ _ _ _ _ A Sp P SE).
  - destruct (accepts_one_root _ _ _ _ A O) as (decl & dtds & txt & root & body & b & e & ks & -> & _ & W & Op & St & E & -> & H & D).
    assert (D' : Forall (fun x => markup_or_element (snd x)) ((txt, root) :: body)).
    { destruct Sp as [L _]. apply lexed_tags in L. now apply Forall_app in L. }
    apply Forall_cons_iff in D'. destruct D' as [[_ Et] D']. cbn [snd] in Et. destruct Op as (N1 & N2 & _).
    destruct (element_of_labelled _ _ _ _ (Et N1) N1 N2 St E) as (n & l & T & L).
    pose proof (element_of_scope None b e [] E eq_refl) as Sc. apply element_of_valid in E. cbn [d_root].
    assert (M : exists i, items ((txt, root) :: body) i /\ rt_items (RT (NElem e) ks) i /\ m_valid (MDone e ks) /\ m_spaced (MDone e ks) /\ m_scoped (MDone e ks)).
    { destruct H as [(Z & -> & ->)|(Z & I)].
      - exists ([] ++ [IOpen n l; IClose] ++ []). split; [constructor; [now apply xi_white|now apply gi_single|constructor]|].
        split; [apply (rti_elem e [] n l []); [easy|constructor]|]. split; [now split|]. split; [split; [apply spaced_nil|easy]|].
        split; [exact Sc|now split].
      - destruct (inside_items _ _ _ I D' [IOpen n l]) as (i & I1 & I2).
        { apply (fri_cons e [] [] n l [] []); [constructor|easy|constructor]. }
        exists ([] ++ [IOpen n l] ++ i). split; [constructor; [now apply xi_white|now apply gi_open|easy]|]. split; [exact I2|].
        split; [|split].
        + apply (inside_valid _ _ _ I D). split; [now split|constructor].
        + apply (inside_spaced _ _ _ I D); [|intros a k Ek; destruct a; discriminate].
          split; [split; [apply spaced_nil|easy]|constructor].
        + apply (inside_scoped _ _ _ I D). split; [exact Sc|now split]. }
    destruct M as (i & Hi & Ri & [V1 V2] & [S1 S2] & (C1 & C2 & _)). exists i. split; [easy|].
    destruct (assemble_items (RT (NElem e) ks) ltac:(now constructor) ltac:(now constructor) [] [] ltac:(now constructor)
      ltac:(constructor) i Ri eq_refl) as [G _].
    cbn [assemble] in G. inversion G as [|? ? ? ? N _|? ? ? ? ? G1 G2]; subst; [now destruct (N (build e (map assemble ks)))|].
    inversion G2; subst. now rewrite app_nil_r in *.
Qed.

(** * Uniqueness *)

Lemma item_open n t l : start_tag t n l -> begins (lit "<") t /\ ~ begins (lit "<!") t /\ ~ begins (lit "</") t.
Proof. intros (H1 & H2 & kvs & (comps & (b & o & -> & _) & _) & _). split; [now eexists|now split]. Qed.
Lemma start_tag_fun t n l n' l' : start_tag t n l -> start_tag t n' l' -> n = n' /\ l = l'.
Proof.
  intros (_ & _ & kvs & T & F) (_ & _ & kvs' & T' & F'). destruct (tag_parts_fun _ _ _ _ _ T T') as [<- <-]. split; [easy|].
  clear T T'. revert l' F'. induction F as [|kv x kvs l H F IH]; intros l' F'; inversion F'; subst; [easy|].
  f_equal; [now apply attr_reads_fun with kv|now apply IH].
Qed.
Lemma text_item_fun t i i' : text_item t i -> text_item t i' -> i = i'.
Proof.
  intros H H'. destruct H as [t W|t v W U B|t v W U B], H' as [t W'|t v' W' U' B'|t v' W' U' B']; try easy;
    pose proof (unescapes_fun _ _ _ U U') as E; injection E as <-; easy.
Qed.
Lemma closing_begins t n : closing t n -> begins (lit "</") t.
Proof. intros (w1 & w2 & o & -> & _). now eexists. Qed.
Lemma tag_item_fun t i i' : tag_item t i -> tag_item t i' -> i = i'.
Proof.
  assert (K : forall t p, begins (lit "<!") t -> begins p t -> p = lit "</" -> False).
  { intros t0 p [a ->] [b E] ->. discriminate. }
  intros H H'. destruct H as [c|c|t n l T Z|t n l T Z|t n C]; inversion H' as [c' E|c' E|t' n' l' T' Z' E|t' n' l' T' Z' E|t' n' C' E]; subst; try easy.
  - apply app_inv_tail in E. now subst.
  - exfalso. apply (proj1 T'). now eexists.
  - exfalso. apply (proj1 T'). now eexists.
  - exfalso. apply closing_begins in C'. eapply K; [|exact C'|easy]. now eexists.
  - apply app_inv_tail in E. now subst.
  - exfalso. apply (proj1 T'). now eexists.
  - exfalso. apply (proj1 T'). now eexists.
  - exfalso. apply closing_begins in C'. eapply K; [|exact C'|easy]. now eexists.
  - exfalso. apply (proj1 T). now eexists.
  - exfalso. apply (proj1 T). now eexists.
  - now destruct (start_tag_fun _ _ _ _ _ T T') as [<- <-].
  - exfalso. apply closing_begins in C'. now apply (proj1 (proj2 T)).
  - exfalso. apply (proj1 T). now eexists.
  - exfalso. apply (proj1 T). now eexists.
  - now destruct (start_tag_fun _ _ _ _ _ T T') as [<- <-].
  - exfalso. apply closing_begins in C'. now apply (proj1 (proj2 T)).
  - exfalso. apply closing_begins in C. eapply K; [|exact C|easy]. now eexists.
  - exfalso. apply closing_begins in C. eapply K; [|exact C|easy]. now eexists.
  - exfalso. apply closing_begins in C. now apply (proj1 (proj2 T')).
  - exfalso. apply closing_begins in C. now apply (proj1 (proj2 T')).
Qed.
Lemma items_fun toks i : items toks i -> forall i', items toks i' -> i = i'.
Proof.
  induction 1 as [|txt t toks a b l X G F IH]; intros i' H'; inversion H'; subst; [easy|].
  f_equal; [now apply text_item_fun with txt|]. f_equal; [now apply tag_item_fun with t|now apply IH].
Qed.

(** Elements that agree in all that descendants may look up. *)
Definition alike_head (a b : elem) : Prop :=
  e_prefix a = e_prefix b /\ e_xmlns a = e_xmlns b /\ forall k, get_attr a k = get_attr b k.
Lemma nearest_alike k l l' : Forall2 alike_head l l' -> nearest k l = nearest k l'.
Proof. induction 1 as [|a b l l' (_ & _ & H) F IH]; [easy|]. cbn. now rewrite H, IH. Qed.
Lemma rule_alike e e' anc anc' : e_prefix e = e_prefix e' -> (forall k, get_attr e k = get_attr e' k) -> Forall2 alike_head anc anc' ->
  namespace_rule e anc = namespace_rule e' anc'.
Proof.
  intros Hp Ha F. unfold namespace_rule. rewrite Hp. destruct (e_prefix e') as [p|].
  - now rewrite Ha, !(nearest_alike _ _ _ F).
  - rewrite Ha. destruct F as [|a b l l' (H1 & H2 & _) F]; [easy|]. now rewrite H1, H2.
Qed.
Lemma parts_of_name_fun n p l p' l' : parts_of_name n p l -> parts_of_name n p' l' -> p = p' /\ l = l'.
Proof.
  intros [m H|q m H] H'; inversion H' as [m' G E|q' m' G E]; subst; try easy.
  - exfalso. apply H. apply in_or_app. right. now left.
  - exfalso. apply G. apply in_or_app. right. now left.
  - apply split_colon in E; [|easy..]. now destruct E as [-> ->].
Qed.
Lemma labelled_fun n l e e' : labelled n l e -> labelled n l e' ->
  e_name e = e_name e' /\ e_prefix e = e_prefix e' /\ Permutation (e_attributes e) (e_attributes e') /\
  forall k, get_attr e k = get_attr e' k.
Proof.
  intros (P & D & A) (P' & D' & A'). destruct (parts_of_name_fun _ _ _ _ _ P P') as [Ep En].
  split; [easy|]. split; [easy|]. split.
  - apply NoDup_Permutation; [now apply NoDup_map_inv with (f := fst)|now apply NoDup_map_inv with (f := fst)|].
    intros [k v]. now rewrite A, A'.
  - intro k. unfold get_attr. destruct (aget k (e_attributes e)) as [v|] eqn:G.
    + symmetry. apply in_aget; [easy|]. apply A', A. now apply aget_in.
    + destruct (aget k (e_attributes e')) as [v|] eqn:G'; [|easy]. apply aget_in, A', A in G'.
      apply in_aget in G'; [|easy]. congruence.
Qed.

Lemma items_unique :
  (forall anc e is, element_of_items anc e is -> forall anc' e' is' r r', element_of_items anc' e' is' ->
    Forall2 alike_head anc anc' -> is ++ r = is' ++ r' -> is = is' /\ elem_same e e') /\
  (forall anc ns is, nodes_of_items anc ns is -> forall anc' ns' is' r r', nodes_of_items anc' ns' is' ->
    Forall2 alike_head anc anc' -> is ++ IClose :: r = is' ++ IClose :: r' -> is = is' /\ nodes_same ns ns').
Proof.
  apply items_ind2.
  - intros anc e n l is L X C Ns IH anc' e' is' r r' H' F E. inversion H' as [? ? n' l' is0 L' X' C' Ns']; subst.
    cbn in E. injection E as <- <- E. rewrite <- !app_assoc in E. cbn [app] in E.
    destruct (labelled_fun _ _ _ _ L L') as (En & Ep & Pa & Ga).
    assert (Ex : e_xmlns e = e_xmlns e') by (rewrite X, X'; now apply rule_alike).
    destruct (IH _ _ _ _ _ Ns' ltac:(now constructor) E) as [<- S]. split; [easy|]. now constructor.
  - intros anc anc' ns' is' r r' H' F E. inversion H' as [|? ? ? ? N H1|? ? ? ? ? H1 H2]; subst; [split; [easy|constructor]|discriminate|].
    inversion H1; subst. discriminate.
  - intros anc n ns is N H IH anc' ns' is' r r' H' F E. inversion H' as [|? n' ? ? N' H1|? ? ? ? ? H1 H2]; subst.
    + discriminate.
    + cbn in E. injection E as -> E. destruct (IH _ _ _ _ _ H1 F E) as [-> S]. split; [easy|]. now constructor.
    + inversion H1; subst. discriminate.
  - intros anc e ns is is2 He IHe Hn IHn anc' ns' is' r r' H' F E. inversion H' as [|? n' ? ? N' H1|? ? ? ? ? H1 H2]; subst.
    + inversion He; subst. discriminate.
    + inversion He; subst. discriminate.
    + rewrite <- !app_assoc in E. destruct (IHe _ _ _ _ _ H1 F E) as [-> S]. apply app_inv_head in E.
      destruct (IHn _ _ _ _ _ H2 F E) as [-> S2]. split; [easy|]. now constructor.
Qed.
Lemma element_unique e e' is : element_of_items [] e is -> element_of_items [] e' is -> elem_same e e'.
Proof. intros H H'. exact (proj2 (proj1 items_unique _ _ _ H _ _ _ [] [] H' ltac:(constructor) eq_refl)). Qed.
Lemma declared_fun pr o o' : declared pr o -> declared pr o' -> o = o'.
Proof.
  intros H H'. destruct o as [d|].
  - symmetry. apply H'. now apply H.
  - destruct o' as [d|]; [|easy]. apply H. now apply H'.
Qed.
Lemma dtds_in_fun toks l : dtds_in toks l -> forall l', dtds_in toks l' -> l = l'.
Proof.
  induction 1 as [|txt d toks l H IH|txt t toks l N H IH]; intros l' H'; inversion H' as [|? d' ? l1 H1|? ? ? ? N' H1]; subst; try easy.
  - match goal with E : _ ++ lit ">" = _ ++ lit ">" |- _ => apply app_inv_tail in E; subst end. f_equal. now apply IH.
  - exfalso. apply N'. now eexists.
  - exfalso. apply N. now eexists.
  - now apply IH.
Qed.
Theorem stands_for_fun pr el d d' : stands_for pr el d -> stands_for pr el d' -> doc_same d d'.
Proof.
  intros (H1 & H2 & is & I & E) (H1' & H2' & is' & I' & E'). split; [now apply declared_fun with pr|].
  split; [now apply dtds_in_fun with pr|]. rewrite <- (items_fun _ _ I _ I') in E'. now apply element_unique with is.
Qed.

(** Showing what a tag or text amounts to by computation. *)
Lemma start_tag_by t b n comps l b0 : t = lit "<" ++ b0 ++ lit ">" -> quotes_closed b0 -> ~ begins (lit "<!") t -> ~ begins (lit "</") t ->
  strip_tag t = Ok b -> quote_aware_split b = n :: comps -> Forall2 attr_reads (join_loop comps) l -> start_tag t n l.
Proof.
  intros E Q N1 N2 S W F. split; [easy|]. split; [easy|]. exists (join_loop comps). split; [|easy].
  assert (El : elementish t) by now exists b0. pose proof (strip_words _ _ El N2 S) as T. rewrite W in T.
  exists comps. split; [easy|now apply join_loop_joined with (List.length comps)].
Qed.
Lemma unescapes_by t v : unescape t = Ok v -> unescapes t (Some v).
Proof. apply unescape_exact. Qed.
Lemma attr_reads_by k u v q : is_quote q = true -> ~ In 61%N k -> unescape u = Ok v -> attr_reads (k ++ lit "=" ++ [q] ++ u ++ [q]) (k, v).
Proof. intros Q N U. exists ([q] ++ u ++ [q]), u. split; [easy|]. split; [easy|]. split; [now exists q|now apply unescapes_by]. Qed.

(** What a written document means, and how its formatting matters. *)
From Coq Require Import List NArith Arith Bool Ascii String Lia.
From Verif Require Import Base BaseFacts Escape Dom Spec EscapeFacts SpecDom DomFacts SpecApi ApiFacts
  ParseTree SpecTree ParseTreeFacts Parse SpecLex SpecParse LexFacts ParseFacts DocFacts TagFacts AcceptFacts ParsedFacts
  NsFacts DocProps PosFacts PrologFacts RegexFacts SpecDoc PrintFacts PrintDoc.
Import ListNotations.

(** * Formatting *)

Section Alike.
Variable f : freedom.
Lemma alike_bindings l l' : Forall2 (attr_alike f) l l' -> bindings l = bindings l'.
Proof.
  induction 1 as [|a b l l' (H1 & H2 & _) F IH]; [easy|]. unfold bindings in *. cbn [map]. now rewrite IH, H1, H2.
Qed.
Lemma alike_head top nm l l' : Forall2 (attr_alike f) l l' -> head_elem top nm l = head_elem top nm l'.
Proof. intro H. unfold head_elem. now rewrite (alike_bindings _ _ H). Qed.
Lemma ws_rt t : ws t -> rt_text t = [].
Proof. intro H. unfold rt_text. now rewrite (proj2 (is_blank_spec t) H). Qed.
Lemma alike_text t t' : text_alike f t t' -> rt_text t = rt_text t'.
Proof. intros [->|(_ & H1 & H2)]; [easy|]. now rewrite !ws_rt. Qed.
Lemma alike_items :
  (forall i i', item_alike f i i' -> forall top, rt_item top i = rt_item top i') /\
  (forall b b', body_alike f b b' -> forall top, rt_body top b = rt_body top b').
Proof.
  assert (H : forall i i', item_alike f i i' -> forall top, rt_item top i = rt_item top i').
  { apply (item_alike_mut f (fun i i' => forall top, rt_item top i = rt_item top i')
      (fun b b' => forall top, rt_body top b = rt_body top b')); intros; cbn [rt_item rt_body].
    - now rewrite (alike_head _ _ _ _ H).
    - rewrite (alike_head _ _ _ _ H). now rewrite H2.
    - now rewrite (alike_head _ _ _ _ H0), ws_rt.
    - now rewrite (alike_head _ _ _ _ H0), ws_rt.
    - easy.
    - easy.
    - now apply alike_text.
    - now rewrite (alike_text _ _ H), H1, H3. }
  split; [exact H|].
  intros b b' A. induction A as [t t' Ht|t t' i i' b b' Ht Hi Hb IH]; intro top; cbn [rt_body].
  - now apply alike_text.
  - now rewrite (alike_text _ _ Ht), (H _ _ Hi), IH.
Qed.
Lemma alike_prolog l l' : prolog_alike f l l' -> doctypes l = doctypes l'.
Proof.
  induction 1 as [|w w' i l l' _ _ IH|w c l l' _ _ IH|w c l l' _ _ IH]; cbn [doctypes]; try easy.
  destruct i; now rewrite IH.
Qed.
Lemma alike_document x y : source_alike f x y -> document_of x = document_of y.
Proof.
  intros (H1 & _ & H2 & _ & H3 & _). unfold document_of, root_of.
  now rewrite H1, (alike_prolog _ _ H2), (proj1 alike_items _ _ H3).
Qed.
End Alike.
(** Two writings of the same document are read as the same document. *)
Theorem alike_parsed f x y : source_wf x -> source_wf y -> source_alike f x y ->
  parse_str (source_print x) = parse_str (source_print y).
Proof. intros Hx Hy A. now rewrite !source_parsed, (alike_document _ _ _ A). Qed.

(** * Meaning *)

Lemma adopt_opt_fields top e : e_attributes (adopt_opt top e) = e_attributes e /\
  e_prefix (adopt_opt top e) = e_prefix e /\ e_name (adopt_opt top e) = e_name e.
Proof.
  destruct top as [t|]; [|easy]. cbn. unfold inherited, apply_xmlns_context, set_namespace_context, default_namespace.
  destruct e as [nm ch at_ [x|] [p|] ctx]; cbn; try easy.
  destruct (e_prefix t); [easy|]. now destruct (e_xmlns t).
Qed.
Lemma head_attrs top nm p n l : named nm p n -> e_attributes (head_elem top nm l) = set_all (bindings l) [] /\
  e_prefix (head_elem top nm l) = p /\ e_name (head_elem top nm l) = n /\ e_children (head_elem top nm l) = [].
Proof.
  intro H. unfold head_elem. rewrite (split_named _ _ _ H), adopt_opt_children.
  destruct (adopt_opt_fields top (bare n p (set_all (bindings l) []) (explicit_ns top (set_all (bindings l) []) p))) as (-> & -> & ->).
  easy.
Qed.
Lemma head_inherits q nm l : inherited q (NElem (head_elem (Some q) nm l)) = NElem (head_elem (Some q) nm l).
Proof. unfold head_elem. destruct (split_name nm) as [p n]. rewrite adopt_opt_inherited. apply inherited_idem. Qed.
Lemma last_bound_value k l : last_bound k (bindings l) = option_map value (last_value k l).
Proof.
  induction l as [|a l IH]; [easy|]. unfold bindings in *. cbn [map last_bound last_value fst snd]. rewrite IH.
  destruct (last_value k l); [easy|]. cbn. now destruct (str_eqb (a_key a) k).
Qed.
Lemma last_value_in k l raw : last_value k l = Some raw -> exists a, In a l /\ a_key a = k /\ a_raw a = raw.
Proof.
  induction l as [|a l IH]; [easy|]. cbn [last_value]. destruct (last_value k l) as [r|].
  - intro E. destruct (IH E) as (b & Hb & H). exists b. split; [now right|easy].
  - destruct (str_eqb (a_key a) k) eqn:E; [|easy]. intro H. injection H as <-. apply str_eqb_eq in E.
    exists a. split; [now left|easy].
Qed.
Lemma head_meant top nm p n l cs : named nm p n -> Forall attr_wf l -> head_means nm l (set_children (head_elem top nm l) cs).
Proof.
  intros Hn Hl. destruct (head_attrs top nm p n l Hn) as (E1 & E2 & E3 & _). split.
  - cbn [set_children e_prefix e_name]. now rewrite E2, E3.
  - intro k. unfold get_attr. cbn [set_children e_attributes]. rewrite E1, set_all_get, last_bound_value.
    destruct (last_value k l) as [raw|] eqn:E; [|easy]. cbn [option_map].
    destruct (last_value_in _ _ _ E) as (a & Ha & _ & Er). rewrite Forall_forall in Hl. apply Hl in Ha.
    destruct Ha as (_ & _ & _ & _ & _ & _ & _ & [v Hv]). rewrite Er in Hv. exists v. split; [easy|].
    unfold value. now rewrite Hv.
Qed.

Definition no_text_first (ks : list rtree) : Prop := match ks with k :: _ => rt_is_text k = false | [] => True end.
Lemma spaced_cons k ks : spaced ks -> (rt_is_text k = true -> no_text_first ks) -> spaced (k :: ks).
Proof.
  intros H Hk a b E. destruct a as [|x a].
  - cbn in E. injection E as E1 E2. apply Hk in E1. destruct ks as [|k' ks]; [discriminate|]. cbn in *. injection E2 as E2 _. congruence.
  - cbn in E. injection E as _ E. now apply (H a b).
Qed.
Lemma spaced_text t ks : spaced ks -> no_text_first ks -> spaced (rt_text t ++ ks).
Proof. intros H1 H2. unfold rt_text. destruct (is_blank t); [easy|]. now apply spaced_cons. Qed.
Lemma item_no_text top i : rt_is_text (rt_item top i) = false.
Proof. now destruct i. Qed.
Lemma body_spaced top b : spaced (rt_body top b).
Proof.
  induction b as [t|t i b IH]; cbn [rt_body].
  - rewrite <- (app_nil_r (rt_text t)). now apply spaced_text; [apply spaced_nil|].
  - apply spaced_text; [|apply item_no_text]. apply spaced_cons; [easy|]. now rewrite item_no_text.
Qed.
Lemma text_meant txt : text_wf txt -> text_means txt (filter keep_node (map assemble (rt_text txt))).
Proof.
  intros [_ H]. unfold rt_text. destruct (is_blank txt) eqn:B.
  - apply tm_blank. now apply is_blank_spec.
  - apply is_blank_false in B. destruct H as [H|[v H]]; [contradiction|]. unfold value. rewrite H. cbn.
    destruct (text_is_whitespace v) eqn:W; cbn [negb].
    + apply tm_decoded with v; [easy|easy|]. now apply is_whitespace_blank.
    + apply tm_text; [easy|easy|]. now apply not_blank.
Qed.
Lemma text_inherits q txt : map (inherited q) (map assemble (rt_text txt)) = map assemble (rt_text txt).
Proof. unfold rt_text. now destruct (is_blank txt). Qed.
Lemma filter_fixed {A} (g : A -> A) p l : map g l = l -> map g (filter p l) = filter p l.
Proof.
  induction l as [|x l IH]; [easy|]. cbn. intro H. injection H as H1 H2. destruct (p x); cbn; [now rewrite H1, IH|now apply IH].
Qed.
Lemma items_meant :
  (forall i, item_wf i -> forall top, item_means i (assemble (rt_item top i)) /\
     (forall q, top = Some q -> inherited q (assemble (rt_item top i)) = assemble (rt_item top i))) /\
  (forall b, body_wf b -> forall q, body_means b (filter keep_node (map assemble (rt_body (Some q) b))) /\
     map (inherited q) (map assemble (rt_body (Some q) b)) = map assemble (rt_body (Some q) b)).
Proof.
  apply citem_ind2.
  - intros nm l w ((p & n & Hn) & [Hl _] & Hw) top. cbn [rt_item assemble map]. destruct (head_attrs top nm p n l Hn) as (_ & _ & _ & Ec).
    split.
    + rewrite build_sep by (try easy; intros a s t b E; destruct a; discriminate). cbn [filter map].
      apply im_empty; [now apply head_meant with p n|easy].
    + intros q ->. apply inherited_built; [easy|apply head_inherits].
  - intros nm l w b IH w' ((p & n & Hn) & [Hl _] & Hw & Hb & Hw') top. cbn [rt_item assemble]. destruct (head_attrs top nm p n l Hn) as (_ & _ & _ & Ec).
    split.
    + rewrite build_sep by (try easy; apply spaced_no_adjacent, body_spaced).
      destruct (IH Hb (head_elem top nm l)) as [M I]. rewrite filter_fixed by easy.
      apply im_elem; [now apply head_meant with p n|easy].
    + intros q ->. apply inherited_built; [easy|apply head_inherits].
  - intros c Hc top. split; [constructor|easy].
  - intros c Hc top. split; [constructor|easy].
  - intros t Ht q. cbn [rt_body]. split; [constructor; now apply text_meant|apply text_inherits].
  - intros t i IHi b IHb (Ht & Hi & Hb) q. cbn [rt_body]. destruct (IHi Hi (Some q)) as [Mi Ii], (IHb Hb q) as [Mb Ib].
    rewrite !map_app, !filter_app. cbn [map filter]. split.
    + assert (keep_node (assemble (rt_item (Some q) i)) = true) as -> by now destruct i.
      apply bm_item; [now apply text_meant|easy|easy].
    + now rewrite text_inherits, Ii, Ib.
Qed.
Theorem source_meant x : source_wf x -> source_means x (document_of x).
Proof.
  intros (_ & _ & _ & _ & Hi & (nm & l & Hr & _) & _). split; [easy|]. split; [easy|]. cbn [document_of d_root].
  pose proof (proj1 (proj1 items_meant _ Hi None)) as M. unfold root_of.
  destruct Hr as [[w E]|(w & b & w' & E)]; rewrite E in *; exact M.
Qed.

(** * Reading one tag *)

Lemma alike_read f top nm p n l l' : named nm p n -> Forall attr_wf l -> Forall attr_wf l' -> Forall2 (attr_alike f) l l' ->
  (top = None -> forall q, p = Some q -> In (lit "xmlns:" ++ q) (map a_key l)) ->
  element_of top (head_print nm l) = element_of top (head_print nm l').
Proof.
  intros Hn H1 H2 A Ht. rewrite (head_reads top nm p n l), (head_reads top nm p n l') by (try easy; intros E q Eq;
    rewrite <- (bindings_keys l'), <- (alike_bindings _ _ _ A), bindings_keys; now apply Ht).
  now rewrite (alike_head _ _ _ _ _ A).
Qed.
(** In any tag the last value given to an attribute counts. *)
Lemma element_of_last top b e : element_of top b = Ok e -> exists nm comps l,
  words b (nm :: comps) /\ reads_attrs (join_loop comps) l /\
  NoDup (map fst (e_attributes e)) /\ forall k, get_attr e k = last_bound k l.
Proof.
  intro H. apply element_of_spec in H. destruct H as (nm & comps & l & prefix & local & W & Rl & Q & V1 & V2 & _ & ->).
  exists nm, comps, l. split; [easy|]. split; [easy|].
  destruct (adopt_opt_fields top (bare local prefix (set_all l []) (explicit_ns top (set_all l []) prefix))) as (E & _ & _).
  unfold get_attr. rewrite E. cbn [bare e_attributes]. split.
  - apply set_all_ok. constructor.
  - intro k. rewrite set_all_get. now destruct (last_bound k l).
Qed.

(** * Spaces around '=' in the first attribute *)

Lemma span2 (P Q : char -> Prop) a x u b y v : a ++ x :: u = b ++ y :: v ->
  Forall P a -> Forall Q b -> ~ P y -> ~ Q x -> a = b /\ x = y /\ u = v.
Proof.
  intros E Ha Hb Ny Nx. apply app_eq_app in E. destruct E as (z & [[-> E]|[-> E]]); destruct z as [|z0 z].
  - injection E as -> ->. now rewrite app_nil_r.
  - exfalso. injection E as <- _. apply Forall_app in Ha. destruct Ha as [_ Ha]. now inversion Ha.
  - injection E as -> ->. now rewrite app_nil_r.
  - exfalso. injection E as <- _. apply Forall_app in Hb. destruct Hb as [_ Hb]. now inversion Hb.
Qed.
Import Regex.
Definition in_name (c : char) : Prop := cls_in (mkCls false name_char_ranges) c = true.
Lemma star_cls_inv k s : matches (RStar (RCls k)) s -> Forall (fun c => cls_in k c = true) s.
Proof.
  intro H. remember (RStar (RCls k)) as r eqn:E. induction H as [| | | | |a|a s t H1 _ H2 IH]; try discriminate; [constructor|].
  injection E as ->. apply matches_cls_inv in H1. destruct H1 as (c & -> & Hc). constructor; [easy|]. now apply IH.
Qed.
Lemma start_in_name c : cls_in (mkCls false name_start_ranges) c = true -> in_name c.
Proof. rewrite cls_spec. unfold in_name. rewrite cls_spec. unfold name_char_ranges. intro H. apply Exists_app. now left. Qed.
Lemma in_name_char c : in_name c -> c <> 5760%N -> name_char c.
Proof.
  unfold in_name. rewrite cls_spec. unfold name_char, name_start, name_char_ranges. rewrite Exists_app. unfold name_start_ranges. rewrite !Exists_cons, !Exists_nil.
  unfold between_. cbn [fst snd]. lia.
Qed.
Lemma name_char_in c : name_char c -> in_name c.
Proof. apply name_char_cls. Qed.
Lemma char_inv c s : matches (RChar c) s -> s = [c].
Proof.
  intro H. apply matches_cls_inv in H. destruct H as (x & -> & Hx). apply cls_spec in Hx. rewrite Exists_cons, Exists_nil in Hx.
  unfold between_ in Hx. cbn [fst snd] in Hx. f_equal. unfold char in *. lia.
Qed.
Lemma opt_inv r s : matches (ROpt r) s -> s = [] \/ matches r s.
Proof. intro H. apply matches_alt_inv in H. destruct H as [H|H]; [now right|]. left. now apply matches_eps_inv. Qed.
Lemma ws_cls c : cls_in (mkCls false ws_ranges) c = true -> is_whitespace c = true.
Proof. now rewrite ws_ranges_spec. Qed.
Lemma star_ws_inv s : matches (RStar tpWS) s -> ws s.
Proof. intro H. apply star_cls_inv in H. eapply Forall_impl; [|exact H]. intros c. apply ws_cls. Qed.
Lemma tp_attr_inv s : matches tpAttr s -> exists w k q r, s = w ++ k ++ cEq :: q :: r /\ w <> [] /\ ws w /\ k <> [] /\
  Forall in_name k /\ is_quote q = true.
Proof.
  intro H. unfold tpAttr in H. cbn [RSeqs] in H.
  apply matches_seq_inv in H. destruct H as (w & s1 & -> & Hw & H).
  apply matches_seq_inv in H. destruct H as (c & s2 & -> & Hc & H).
  apply matches_seq_inv in H. destruct H as (cs & s3 & -> & Hcs & H).
  apply matches_seq_inv in H. destruct H as (e & s4 & -> & He & H). apply char_inv in He. subst e.
  assert (exists q r, s4 = q :: r /\ is_quote q = true) as (q & r & -> & Hq).
  { apply matches_alt_inv in H. destruct H as [H|H]; unfold tpQuoted in H; cbn [RSeqs] in H;
      apply matches_seq_inv in H; destruct H as (q & r & -> & Hq & _); apply char_inv in Hq; subst q; now eexists _, r. }
  apply matches_seq_inv in Hw. destruct Hw as (w1 & w2 & -> & Hw1 & Hw2). apply matches_cls_inv in Hw1. destruct Hw1 as (x & -> & Hx).
  apply matches_cls_inv in Hc. destruct Hc as (c0 & -> & Hc). apply star_cls_inv in Hcs.
  exists ([x] ++ w2), ([c0] ++ cs), q, r. split; [now rewrite <- !app_assoc|]. split; [easy|]. split.
  { constructor; [now apply ws_cls|now apply star_ws_inv]. }
  split; [easy|]. split; [|easy]. constructor; [now apply start_in_name|easy].
Qed.
Lemma tag_pattern_inv s : matches tag_pattern s -> exists s1 n A w s2, s = lit "<" ++ s1 ++ n ++ A ++ w ++ s2 ++ lit ">" /\
  (s1 = [] \/ s1 = lit "/") /\ n <> [] /\ Forall in_name n /\ matches (RStar tpAttr) A /\ ws w /\ (s2 = [] \/ s2 = lit "/").
Proof.
  intro H. unfold tag_pattern in H. cbn [RSeqs] in H.
  apply matches_seq_inv in H. destruct H as (l & x1 & -> & Hl & H). apply char_inv in Hl. subst l.
  apply matches_seq_inv in H. destruct H as (s1 & x2 & -> & H1 & H).
  apply matches_seq_inv in H. destruct H as (c & x3 & -> & Hc & H).
  apply matches_seq_inv in H. destruct H as (cs & x4 & -> & Hcs & H).
  apply matches_seq_inv in H. destruct H as (o & x5 & -> & Ho & H).
  apply matches_seq_inv in H. destruct H as (A & x6 & -> & HA & H).
  apply matches_seq_inv in H. destruct H as (w & x7 & -> & Hw & H).
  apply matches_seq_inv in H. destruct H as (s2 & g & -> & H2 & Hg). apply char_inv in Hg. subst g.
  apply matches_cls_inv in Hc. destruct Hc as (c0 & -> & Hc). apply start_in_name in Hc. apply star_cls_inv in Hcs.
  exists s1, ([c0] ++ cs ++ o), A, w, s2. split; [now rewrite <- !app_assoc|].
  split; [apply opt_inv in H1; destruct H1 as [->|H1]; [now left|right; now apply char_inv]|].
  split; [easy|]. split.
  { constructor; [easy|]. apply Forall_app. split; [easy|]. apply opt_inv in Ho. destruct Ho as [->|Ho]; [constructor|].
    apply matches_seq_inv in Ho. destruct Ho as (k & y1 & -> & Hk & Ho). apply char_inv in Hk. subst k.
    apply matches_seq_inv in Ho. destruct Ho as (d & y2 & -> & Hd & Ho). apply matches_cls_inv in Hd. destruct Hd as (d0 & -> & Hd).
    apply start_in_name in Hd. apply star_cls_inv in Ho. constructor; [reflexivity|]. now constructor. }
  split; [easy|]. split; [now apply star_ws_inv|].
  apply opt_inv in H2. destruct H2 as [->|H2]; [now left|right; now apply char_inv].
Qed.
Lemma in_name_ws c : in_name c -> c <> 5760%N -> is_whitespace c = false.
Proof. intros H N. now apply name_char_odd, in_name_char. Qed.
Theorem spaced_first_rejected nm a l w s2 : xml_name nm -> attr_wf a -> Forall attr_wf l -> ws w ->
  s2 = [] \/ s2 = lit "/" -> ~ unspaced a -> ~ In 5760%N (a_space a ++ a_eq1 a) ->
  Forall (fun b => ~ In lt_ (a_raw b)) (a :: l) ->
  exists x, check_element_tag (lit "<" ++ head_print nm (a :: l) ++ w ++ s2 ++ lit ">") = Err x.
Proof.
  intros Hn Ha Hl Hw H2 Ns Ng Hlt. unfold check_element_tag.
  set (t := lit "<" ++ head_print nm (a :: l) ++ w ++ s2 ++ lit ">").
  destruct (is_match tag_pattern t) eqn:M; [exfalso|now eexists].
  apply is_match_spec in M. destruct M as (pre & m & post & E & M). apply tag_pattern_inv in M.
  destruct M as (s1 & n & A & w' & s2' & -> & H1 & Nn & Hnm & HA & Hw' & H2').
  assert (Lt : ~ In lt_ (head_print nm (a :: l) ++ w ++ s2 ++ lit ">")).
  { assert (Wl : forall u, ws u -> ~ In lt_ u).
    { intros u Hu Hi. unfold ws in Hu. rewrite Forall_forall in Hu. now apply Hu in Hi. }
    assert (Nl : forall u, xml_name u -> ~ In lt_ u).
    { intros u Hu Hi. apply xml_name_chars in Hu. rewrite Forall_forall in Hu. apply Hu, name_char_odd in Hi.
      now destruct Hi as (_ & _ & Hi & _). }
    unfold head_print. rewrite !in_app_iff. intros [[Hi|Hi]|[Hi|[Hi|Hi]]].
    - now apply Nl in Hi.
    - apply in_flat_map in Hi. destruct Hi as (b & Hb & Hi). rewrite Forall_forall in Hlt. apply Hlt in Hb as Hr.
      assert (attr_wf b) as Hw0. { destruct Hb as [<-|Hb]; [easy|]. rewrite Forall_forall in Hl. now apply Hl. }
      destruct Hw0 as (_ & W1 & W2 & W3 & W4 & W5 & _). unfold attr_print in Hi. rewrite !in_app_iff in Hi.
      destruct Hi as [Hi|[Hi|[Hi|[Hi|[Hi|[Hi|[Hi|Hi]]]]]]].
      + now apply Wl in Hi.
      + now apply plain_xml, Nl in W2.
      + now apply Wl in Hi.
      + now destruct Hi as [Hi|[]].
      + now apply Wl in Hi.
      + destruct Hi as [Hi|[]]. rewrite Hi in W5. now destruct W5.
      + easy.
      + destruct Hi as [Hi|[]]. rewrite Hi in W5. now destruct W5.
    - now apply Wl in Hi.
    - destruct H2 as [->| ->]; [easy|]. now destruct Hi as [Hi|[]].
    - now destruct Hi as [Hi|[]]. }
  (* the match starts at the first character *)
  destruct pre as [|p0 pre].
  2:{ injection E as _ E. apply Lt. rewrite E. apply in_or_app. right. now left. }
  cbn [app] in E. injection E as E.
  destruct Hn as (c & r & -> & Hc & Hr). destruct n as [|c' n]; [easy|].
  assert (name_char c) as Hc' by now left. pose proof (name_char_odd c Hc') as Oc.
  destruct H1 as [->| ->]; [|injection E as E _; now destruct Oc as (_ & _ & _ & _ & Oc & _)].
  destruct Ha as (S1 & S2 & S3 & S4 & S5 & S6 & _ & _).
  destruct (a_space a) as [|x sp] eqn:Esp; [easy|]. inversion S2 as [|? ? Sx Ssp]; subst.
  unfold head_print in E. cbn [flat_map] in E. unfold attr_print in E at 1. rewrite Esp in E. cbn [app] in E. injection E as <- E.
  inversion Hnm as [|? ? _ Hnm']; subst.
  assert (exists y u, A ++ w' ++ s2' ++ lit ">" = y :: u /\ ~ name_char y) as (y & u & Ey & Ny).
  { assert (forall z v, is_whitespace z = true -> exists y u, z :: v = y :: u /\ ~ name_char y) as Wy.
    { intros z v Hz. exists z, v. split; [easy|]. intro K. apply name_char_odd in K. destruct K as (K & _). congruence. }
    apply matches_star_inv in HA. destruct HA as [->|(u1 & u2 & _ & -> & HA & _)].
    - cbn [app]. destruct w' as [|z w']; [|inversion Hw'; now apply Wy].
      destruct H2' as [->| ->]; cbn [app]; eexists _, _; (split; [reflexivity|]); intro K; apply name_char_odd in K;
        destruct K as (_ & _ & _ & K1 & K2 & _); now (apply K1 || apply K2).
    - apply tp_attr_inv in HA. destruct HA as (w1 & k & q & r1 & -> & Nw1 & Hw1 & _). destruct w1 as [|z w1]; [easy|].
      inversion Hw1. cbn [app]. now apply Wy. }
  (* the name is the whole name *)
  assert (E' : n ++ y :: (u ++ post) = r ++ x :: (sp ++ a_key a ++ a_eq1 a ++ lit "=" ++ a_eq2 a ++ [a_quote a] ++
    a_raw a ++ [a_quote a] ++ flat_map attr_print l ++ w ++ s2 ++ lit ">")).
  { symmetry. etransitivity; [|etransitivity; [exact E|]].
    - repeat (rewrite <- !app_assoc; cbn [app]). reflexivity.
    - change (y :: u ++ post) with ((y :: u) ++ post). rewrite <- Ey, <- !app_assoc. reflexivity. }
  assert (Nx : ~ in_name x).
  { intro K. rewrite in_name_ws in Sx; [easy|easy|]. intros ->. apply Ng. now left. }
  destruct (span2 in_name name_char _ _ _ _ _ _ E' Hnm' Hr Nx Ny) as (-> & -> & E2). clear E E'.
  assert (E3 : (A ++ w' ++ s2' ++ lit ">") ++ post = (x :: sp) ++ a_key a ++ a_eq1 a ++ lit "=" ++ a_eq2 a ++ [a_quote a] ++
    a_raw a ++ [a_quote a] ++ flat_map attr_print l ++ w ++ s2 ++ lit ">").
  { rewrite Ey. cbn [app]. now rewrite E2. }
  clear E2 Ey. destruct S3 as (k0 & kr & Ek & Hk0 & Hkr). rewrite Ek in E3.
  assert (name_char k0) as Ck0 by (left; now apply letter_start). pose proof (name_char_odd k0 Ck0) as Ok0.
  set (isws := fun z => is_whitespace z = true).
  apply matches_star_inv in HA. destruct HA as [->|(u1 & u2 & _ & -> & HA & _)].
  - cbn [app] in E3. rewrite <- !app_assoc in E3.
    destruct H2' as [->| ->]; cbn [app] in E3.
    + destruct (span2 isws isws w' _ _ (x :: sp) k0 _ E3 Hw' S2) as (_ & K & _).
      * destruct Ok0 as (K & _). unfold isws. congruence.
      * easy.
      * rewrite <- K in Ok0. now destruct Ok0 as (_ & _ & _ & K' & _).
    + destruct (span2 isws isws w' _ _ (x :: sp) k0 _ E3 Hw' S2) as (_ & K & _).
      * destruct Ok0 as (K & _). unfold isws. congruence.
      * easy.
      * rewrite <- K in Ok0. now destruct Ok0 as (_ & _ & _ & _ & K' & _).
  - apply tp_attr_inv in HA. destruct HA as (w1 & k & q & r1 & -> & Nw1 & Hw1 & Nk & Hk & Hq).
    destruct k as [|k1 k]; [easy|]. inversion Hk as [|? ? Hk1 Hk']; subst.
    repeat (rewrite <- !app_assoc in E3; cbn [app] in E3).
    set (spc := fun z => is_whitespace z = true /\ z <> 5760%N).
    assert (Forall spc (x :: sp)) as Hspc.
    { apply Forall_forall. intros z Hz. unfold ws in S2. rewrite Forall_forall in S2. split; [now apply S2|].
      intros ->. apply Ng. apply in_or_app. now left. }
    destruct (span2 isws spc w1 k1 _ (x :: sp) k0 _ E3 Hw1 Hspc) as (-> & -> & E4).
    { destruct Ok0 as (K & _). unfold isws. congruence. }
    { intros [K1 K2]. rewrite in_name_ws in K1; easy. }
    clear E3.
    set (nn := fun z => in_name z /\ z <> cEq).
    destruct (a_eq1 a) as [|e1 w1'] eqn:Ee1.
    + cbn [app] in E4. 
      destruct (span2 in_name nn k cEq _ kr _ _ E4 Hk') as (-> & _ & E5).
      { eapply Forall_impl; [|exact Hkr]. intros z Hz. split; [now apply name_char_in|]. now apply name_char_odd in Hz. }
      { discriminate. }
      { intros [_ K]. now apply K. }
      destruct (a_eq2 a) as [|e2 w2'] eqn:Ee2; [now apply Ns|]. cbn [app] in E5. injection E5 as -> _. inversion S5 as [|? ? K _]; subst.
      apply quote_not_ws in Hq. congruence.
    + cbn [app] in E4. inversion S4 as [|? ? K _]; subst.
      destruct (span2 in_name nn k cEq _ kr _ _ E4 Hk') as (-> & K2 & E5).
      { eapply Forall_impl; [|exact Hkr]. intros z Hz. split; [now apply name_char_in|]. now apply name_char_odd in Hz. }
      { intro K'. rewrite in_name_ws in K; [easy|easy|]. intros ->. apply Ng. apply in_or_app. right. now left. }
      { intros [_ K']. now apply K'. }
      rewrite <- K2 in K. discriminate.
Qed.

(** A document starting with such a tag is never accepted. *)
Theorem spaced_first_not_parsed nm a l w s2 rest d : xml_name nm -> attr_wf a -> Forall attr_wf l -> ws w ->
  s2 = [] \/ s2 = lit "/" -> ~ unspaced a -> ~ In 5760%N (a_space a ++ a_eq1 a) ->
  Forall (fun b => ~ In lt_ (a_raw b)) (a :: l) ->
  parse_str (lit "<" ++ head_print nm (a :: l) ++ w ++ s2 ++ lit ">" ++ rest) <> Ok d.
Proof.
  intros Hn Ha Hl Hw H2 Ns Ng Hlt E.
  destruct (spaced_first_rejected nm a l w s2 Hn Ha Hl Hw H2 Ns Ng Hlt) as [x Ec].
  pose proof (head_at nm (a :: l) w s2 rest Hn (Forall_cons _ Ha Hl) Hw H2) as T.
  pose proof (lexed_one [] _ _ _ (fun H => H) T) as L. cbn [app] in L.
  set (t := lit "<" ++ head_print nm (a :: l) ++ w ++ s2 ++ lit ">") in *.
  pose proof (parse_str_result (lit "<" ++ head_print nm (a :: l) ++ w ++ s2 ++ lit ">" ++ rest)) as R. rewrite E in R.
  inversion R as [d' A Ed| |]; subst. inversion A as [toks txt root rest' decl dtds b e body tail m r ks L' P B Rt].
  destruct (head_tag_first nm (a :: l) (w ++ s2 ++ lit ">") Hn) as (F1 & F2 & F3).
  destruct toks as [|[tx t1] toks].
  - destruct (lexed_prefix_fun _ _ _ _ _ L L') as [Et _]; [easy|]. injection Et as <- <-.
    destruct Rt as (_ & _ & _ & Rt). congruence.
  - change (((tx, t1) :: toks) ++ [(txt, root)]) with ([(tx, t1)] ++ toks ++ [(txt, root)]) in L'.
    apply lexed_split in L'. destruct L' as (mid & L1 & _).
    destruct (lexed_prefix_fun _ _ _ _ _ L L1) as [Et _]; [easy|]. injection Et as <- <-.
    apply (prolog_not_root _ _ _ _ _ _ _ _ P ([], t)); [now left|].
    inversion P; subst; try contradiction; exfalso; apply F1;
      (eapply begins_trans; [|eassumption]); [now exists (lit "--")|now exists (lit "DOCTYPE")].
Qed.

(** * Changing the quotes *)

Definition quotes_only : freedom := Free true false false.
Lemma same_false {A} (x y : A) : same_unless false x y -> x = y.
Proof. now intros [H|H]. Qed.
Lemma requote_attrs l l' : Forall2 (attr_alike quotes_only) l l' -> attrs_wf l -> Forall quotable l -> Forall has_quotes l' ->
  attrs_wf l'.
Proof.
  intros F [W _] Q H. split.
  - induction F as [|a b l l' (E1 & E2 & _ & E4 & E5 & E6) F IH]; [constructor|].
    apply same_false in E4, E5, E6. inversion W; inversion Q; inversion H; subst. constructor; [|now apply IH].
    destruct H2 as (W1 & W2 & W3 & W4 & W5 & W6 & W7 & W8). destruct H6 as (_ & Q1 & Q2).
    unfold attr_wf. rewrite <- E1, <- E2, <- E4, <- E5, <- E6. repeat split; try easy.
    destruct H10 as [->| ->]; easy.
  - clear W H. induction F as [|a b l l' (E1 & E2 & _ & E4 & E5 & E6) F IH]; [constructor|].
    apply same_false in E4, E5. inversion Q; subst. apply gr_one; [|now apply IH]. destruct H1 as ([U1 U2] & _).
    split; congruence.
Qed.
Lemma requote_items :
  (forall i, item_wf i -> every_attr quotable i -> forall i', item_alike quotes_only i i' -> every_attr has_quotes i' -> item_wf i') /\
  (forall b, body_wf b -> every_attr_in quotable b -> forall b', body_alike quotes_only b b' -> every_attr_in has_quotes b' -> body_wf b').
Proof.
  apply citem_ind2.
  - intros nm l w (Hn & Hl & Hw) Q i' A H. inversion A as [? ? l' ? w' F E| | |  | |]; subst; [|discriminate].
    apply same_false in E. subst. cbn in *. split; [easy|]. split; [now apply (requote_attrs l)|easy].
  - intros nm l w b IH v (Hn & Hl & Hw & Hb & Hv) [Q1 Q2] i' A H. inversion A as [|? ? l' ? w' ? b' ? v' F E1 B E2| | | |]; subst; [|discriminate].
    apply same_false in E1, E2. subst. cbn in *. destruct H as [H1 H2]. split; [easy|]. split; [now apply (requote_attrs l)|].
    split; [easy|]. split; [|easy]. now apply IH.
  - intros c Hc Q i' A H. inversion A; subst. easy.
  - intros c Hc Q i' A H. inversion A; subst. easy.
  - intros t Ht Q b' A H. inversion A as [? t' E|]; subst. destruct E as [<-|(E & _)]; [easy|discriminate].
  - intros t i IHi b IHb (Ht & Hi & Hb) [Q1 Q2] b' A H. inversion A as [|? t' ? i' ? b1 E Ai Ab]; subst.
    destruct E as [<-|(E & _)]; [|discriminate]. destruct H as [H1 H2]. split; [easy|]. split; [now apply IHi|now apply IHb].
Qed.
Lemma requote_prolog l l' : prolog_alike quotes_only l l' -> l = l'.
Proof. induction 1 as [|w w' i l l' E _ IH|? ? ? ? E|? ? ? ? E]; [easy| |discriminate..]. apply same_false in E. congruence. Qed.
Lemma alike_keys f l l' : Forall2 (attr_alike f) l l' -> map a_key l = map a_key l'.
Proof. induction 1 as [|a b l l' (E & _) F IH]; [easy|]. cbn. now rewrite E, IH. Qed.
Lemma requote_wf x y : source_wf x -> every_attr quotable (x_root x) -> source_alike quotes_only x y ->
  every_attr has_quotes (x_root y) -> source_wf y.
Proof.
  intros (Hd & Hp & Hs & Hg & Hi & (nm & l & Hk & Hq) & Ha) Q (A1 & A2 & A3 & A4 & A5 & A6) H.
  apply same_false in A2, A4, A6. apply requote_prolog in A3.
  assert (x_decl y = x_decl x) as Ed.
  { destruct (x_decl x) as [[]|], (x_decl y) as [[]|]; cbn in *; congruence. }
  unfold source_wf. rewrite Ed, <- A3, <- A4, <- A6.
  split; [easy|]. split; [easy|]. split; [easy|]. split; [easy|]. split; [now apply (proj1 requote_items _ Hi Q)|]. split; [|easy].
  unfold root_wf. destruct Hk as [[w E]|(w & b & w' & E)]; rewrite E in A5.
  - inversion A5 as [? ? l' ? w' F _|? ? ? ? ? ? ? ? ? ? ? ? ?|? ? ? ? ? ? ? F|? ? ? ? ? ? ? F| |]; subst; [|discriminate].
    exists nm, l'. split; [left; eauto|]. rewrite <- (alike_keys _ _ _ F). exact Hq.
  - inversion A5 as [|? ? l' ? v ? b' ? v' F _ _ _|? ? ? ? ? ? ? F|? ? ? ? ? ? ? F| |]; subst; [|discriminate].
    exists nm, l'. split; [right; eauto|]. rewrite <- (alike_keys _ _ _ F). exact Hq.
Qed.
Theorem requote_parsed x y : source_wf x -> every_attr quotable (x_root x) -> source_alike quotes_only x y ->
  every_attr has_quotes (x_root y) -> parse_str (source_print y) = parse_str (source_print x).
Proof.
  intros H1 H2 H3 H4. symmetry. apply alike_parsed with quotes_only; [easy|now apply (requote_wf x)|easy].
Qed.

(** * Tags in any document *)

Definition attr_component (comp : str) (kv : str * str) : Prop :=
  exists q raw, comp = fst kv ++ lit "=" ++ [q] ++ raw ++ [q] /\ ~ In cEq (fst kv) /\ (q = dquote \/ q = squote) /\
  unescape raw = Ok (snd kv).
Lemma reads_components comps l : reads_attrs comps l -> Forall2 attr_component comps l.
Proof. induction 1 as [|k q u v comps l Hk Hq Hu _ IH]; constructor; [|easy]. now exists q, u. Qed.
Lemma last_bound_app k v l1 l2 : ~ In k (map fst l2) -> last_bound k (l1 ++ (k, v) :: l2) = Some v.
Proof.
  intro H. induction l1 as [|[k' v'] l1 IH]; cbn [app last_bound fst snd].
  - destruct (last_bound k l2) eqn:E; [|now rewrite str_eqb_refl]. exfalso. apply H. apply last_bound_in. congruence.
  - now rewrite IH.
Qed.
Theorem tag_last content buffer pos parent e : parse_new_element content buffer pos parent = Ok e -> exists nm comps l,
  join_spaced_attributes (quote_aware_split content) = nm :: comps /\ Forall2 attr_component comps l /\
  NoDup (map fst (e_attributes e)) /\
  (forall l1 k v l2, l = l1 ++ (k, v) :: l2 -> ~ In k (map fst l2) -> get_attr e k = Some v) /\
  (forall k, ~ In k (map fst l) -> get_attr e k = None).
Proof.
  intro H. pose proof (same_ok _ _ _ (element_of_same content buffer pos parent) H) as E.
  apply element_of_last in E. destruct E as (nm & comps & l & W & R & N & G).
  exists nm, (join_loop comps), l. split; [now rewrite (split_words _ _ W)|]. split; [now apply reads_components|]. split; [easy|]. split.
  - intros l1 k v l2 -> Hk. rewrite G. now apply last_bound_app.
  - intros k Hk. rewrite G. destruct (last_bound k l) eqn:B; [|easy]. exfalso. apply Hk, last_bound_in. congruence.
Qed.

(** The document read from a text with any number of roots (SpecMany.v). *)
From Coq Require Import List NArith Arith Bool Ascii String Lia Permutation.
From Verif Require Import Base BaseFacts Escape Dom Spec EscapeFacts SpecDom DomFacts SpecApi ApiFacts Regex RegexFacts
  ParseTree SpecTree ParseTreeFacts Parse SpecLex SpecParse SpecEsc LexFacts ParseFacts DocFacts TagFacts AcceptFacts PosFacts
  DocProps SpecDoc UnescFacts PrintFacts PrintDoc PrologFacts ParsedFacts NsFacts FormFacts SerFacts SpecErr ReadFacts ErrFacts
  SpecMean MeanFacts SpecMany.
Import ListNotations.

(** * Children of the last root *)

Lemma len_utf8_pos c : 1 <= len_utf8 c.
Proof. unfold len_utf8. repeat destruct (N.ltb _ _); lia. Qed.
Lemma unescapes_nonempty t o : unescapes t o -> t <> [] -> o <> Some [].
Proof.
  intros H Ht E. destruct H as [t N|p q q' a last u v o N R E1 E2 B H|p q q' a last N R E1 B].
  - now injection E as ->.
  - destruct o as [r|]; [|discriminate]. cbn in E. injection E as E. apply app_eq_nil in E. destruct E as [_ E].
    apply app_eq_nil in E. destruct E as [-> _]. change (blen []) with 0 in B. pose proof (len_utf8_pos last). lia.
  - discriminate.
Qed.

(** What appending from the right and reversing does. *)
Definition knit1 (n : node) (l : list node) : list node :=
  match n with
  | NText s => match l with
               | NText t :: l' => NText (t ++ s) :: l'
               | _ => if text_is_whitespace s then l else n :: l
               end
  | _ => n :: l
  end.
Definition knitf (ns : list node) : list node := fold_right knit1 [] ns.
Definition no_text_head (l : list node) : Prop := forall t l', l <> NText t :: l'.
Lemma knitf_knit ns : knit ns (knitf ns).
Proof.
  induction ns as [|n ns IH]; [constructor|]. cbn [knitf fold_right]. fold (knitf ns). destruct n as [e|s|s|s]; cbn [knit1]; try now apply kn_node.
  destruct (knitf ns) as [|[e|t|t|t] l] eqn:E; try (destruct (text_is_whitespace s) eqn:Es;
    [apply kn_blank; [now apply is_whitespace_blank|easy|easy]|apply kn_text; [now apply not_blank|easy|easy]]).
  now apply kn_join.
Qed.


Definition texts_nonempty (l : list node) : Prop := ~ In (NText []) l.
Lemma blank_split s t : blank (t ++ s) -> t <> [] -> blank t.
Proof. intros [_ H] Ht. apply Forall_app in H. now split. Qed.
Lemma no_adjacent_snoc a x : no_adjacent_text a -> (forall s, x <> NText s) \/ (forall b s, a <> b ++ [NText s]) ->
  no_adjacent_text (a ++ [x]).
Proof.
  intros H K b s t c E. destruct (exists_last_or c) as [->|(c' & z & ->)].
  - cbn [app] in E. replace (b ++ [NText s; NText t]) with ((b ++ [NText s]) ++ [NText t]) in E by now rewrite <- app_assoc.
    apply app_inj_tail in E.
    destruct E as [-> ->]. destruct K as [K|K]; [now apply (K t)|now apply (K b s)].
  - rewrite !app_assoc in E. apply app_inj_tail in E. destruct E as [-> _]. apply (H b s t c'). now rewrite <- !app_assoc.
Qed.
Lemma filter_all (a : list node) : no_blank_text a -> filter keep_node a = a.
Proof.
  intro H. induction a as [|n a IH]; [easy|]. cbn [filter]. rewrite IH by (intros s Hs; apply H; now right).
  destruct n as [e|s|s|s]; try easy. cbn [keep_node]. destruct (text_is_whitespace s) eqn:E; [|easy].
  apply is_whitespace_blank in E. now destruct (H s (or_introl eq_refl)).
Qed.
Lemma merge_last a s t : merge_text (a ++ [NText s; NText t]) = merge_text (a ++ [NText (s ++ t)]).
Proof. unfold merge_text. now rewrite !fold_right_app. Qed.
Lemma clean_snoc a x : text_normal a -> texts_nonempty a -> clean (a ++ [x]) = rev (knit1 x (rev a)).
Proof.
  intros [Ha Hb] Hn. destruct x as [e|s|s|s].
  1,3,4: cbn [knit1 rev]; rewrite rev_involutive, clean_sep by (apply no_adjacent_snoc; [easy|now left]);
    rewrite filter_app, (filter_all a) by easy; reflexivity.
  assert (K : (forall b t, a <> b ++ [NText t]) -> clean (a ++ [NText s]) = rev (if text_is_whitespace s then rev a else NText s :: rev a)).
  { intro K. rewrite clean_sep by (apply no_adjacent_snoc; [easy|now right]). rewrite filter_app, (filter_all a) by easy. cbn [filter keep_node].
    destruct (text_is_whitespace s); cbn [negb]; [now rewrite app_nil_r, rev_involutive|cbn [rev]; now rewrite rev_involutive]. }
  destruct (exists_last_or a) as [->|(b & y & ->)]; [now apply K; intros []|].
  rewrite rev_app_distr in *. cbn [rev app] in *. cbn [knit1].
  destruct y as [e|t|t|t]; try (apply K; intros b' t' E; apply app_inj_tail in E; now destruct E).
  rewrite <- app_assoc. cbn [app]. unfold clean. rewrite merge_last. fold (clean (b ++ [NText (t ++ s)])). cbn [rev]. rewrite rev_involutive.
  apply clean_fixed. split.
  - apply (no_adjacent_same (b ++ [NText t])); [|easy]. now rewrite !map_app.
  - intros u Hu. apply in_app_or in Hu. destruct Hu as [Hu|[E|[]]]; [apply Hb, in_or_app; now left|]. injection E as <-. intro B.
    apply blank_split in B; [|intros ->; apply Hn, in_or_app; right; now left]. apply (Hb t); [apply in_or_app; right; now left|easy].
Qed.
Lemma knit1_nonempty x l : texts_nonempty l -> x <> NText [] -> texts_nonempty (knit1 x l).
Proof.
  intros Hl Hx H. destruct x as [e|s|s|s]; cbn [knit1] in H; try (destruct H as [H|H]; [discriminate|now apply Hl]).
  assert (K : In (NText []) (if text_is_whitespace s then l else NText s :: l) -> False).
  { destruct (text_is_whitespace s); [easy|]. intros [E|E]; [now apply Hx|now apply Hl]. }
  destruct l as [|[e|t|t|t] l]; try now apply K. destruct H as [E|E]; [|apply Hl; now right].
  injection E as E. apply app_eq_nil in E. destruct E as [-> ->]. apply Hl. now left.
Qed.
Lemma knit1_map e x l : knit1 (inherited e x) (map (inherited e) l) = map (inherited e) (knit1 x l).
Proof.
  destruct x as [c|s|s|s]; try reflexivity. change (inherited e (NText s)) with (NText s : node).
  destruct l as [|[c|t|t|t] l]; cbn; now destruct (text_is_whitespace s).
Qed.
Lemma map_nonempty e l : texts_nonempty l -> texts_nonempty (map (inherited e) l).
Proof. intros H E. apply in_map_iff in E. destruct E as (n & E & Hn). apply inherited_text in E. now subst. Qed.
Lemma fold_adopt1_knit e : forall ms l0, texts_nonempty l0 -> texts_nonempty ms -> text_normal (map (inherited e) (rev l0)) ->
  fold_left adopt1 ms (set_children e (map (inherited e) (rev l0))) =
  set_children e (map (inherited e) (rev (fold_left (fun l n => knit1 n l) ms l0))).
Proof.
  induction ms as [|m ms IH]; intros l0 H0 Hm T; [easy|]. cbn [fold_left]. unfold adopt1 at 2.
  rewrite inherited_set_children, set_children_twice. cbn [e_children set_children].
  rewrite clean_snoc; [|easy|apply map_nonempty; intro H; apply H0; now apply in_rev].
  rewrite <- map_rev, rev_involutive, knit1_map, <- map_rev.
  assert (K : m <> NText []) by (intros ->; apply Hm; now left).
  apply IH; [now apply knit1_nonempty|intro H; apply Hm; now right|].
  rewrite map_rev, <- knit1_map. replace (map (inherited e) l0) with (rev (map (inherited e) (rev l0))) by (rewrite map_rev; apply rev_involutive).
  rewrite <- clean_snoc; [apply clean_normal|easy|apply map_nonempty; intro H; apply H0; now apply in_rev].
Qed.
Lemma build_knit e ns : e_children e = [] -> texts_nonempty ns -> build e ns = set_children e (map (inherited e) (knitf ns)).
Proof.
  intros E H. unfold build, gather.
  replace e with (set_children e (map (inherited e) (rev []))) at 1 by (destruct e; cbn in *; now subst).
  rewrite fold_adopt1_knit; [|intros []|intro K; apply H; now apply in_rev|now apply (clean_normal [])].
  unfold reverse_children. cbn [e_children set_children]. rewrite set_children_twice, <- map_rev, rev_involutive.
  unfold knitf. now rewrite <- fold_left_rev_right, rev_involutive.
Qed.
Lemma build_gathered e ns : e_children e = [] -> texts_nonempty ns -> gathered e ns (build e ns).
Proof.
  intros E H. exists (knitf ns), (map (inherited e) (knitf ns)). split; [apply knitf_knit|]. split; [|now apply build_knit].
  induction (knitf ns) as [|n l IH]; constructor; [apply inherited_adopted|easy].
Qed.

(** * One root *)

(** What earlier roots left does not matter. *)
Fixpoint pre_last (ks0 : list rtree) (l : list (elem * list rtree)) : list (elem * list rtree) :=
  match l with
  | [] => []
  | [(e, ks)] => [(e, ks0 ++ ks)]
  | x :: l' => x :: pre_last ks0 l'
  end.
Definition pre (ks0 : list rtree) (m : machine) : machine :=
  match m with
  | MNew => MNew
  | MOpen e ks [] => MOpen e (ks0 ++ ks) []
  | MOpen e ks outer => MOpen e ks (pre_last ks0 outer)
  | MDone e ks => MDone e (ks0 ++ ks)
  end.
Lemma pre_append ks0 e ks outer n m' : m_do (pre ks0 (MOpen e ks outer)) (OpAppend n) = Some m' ->
  exists m1, m_do (MOpen e ks outer) (OpAppend n) = Some m1 /\ m' = pre ks0 m1.
Proof.
  intro H. destruct outer as [|x outer]; cbn in *; injection H as <-; eexists; (split; [reflexivity|]); cbn; [now rewrite app_assoc|easy].
Qed.
Lemma pre_push ks0 e ks outer c m' : m_do (pre ks0 (MOpen e ks outer)) (OpPush c) = Some m' ->
  exists m1, m_do (MOpen e ks outer) (OpPush c) = Some m1 /\ m' = pre ks0 m1.
Proof.
  intro H. destruct outer as [|x outer]; cbn in *; injection H as <-; eexists; (split; [reflexivity|]); cbn; easy.
Qed.
Lemma pre_pop ks0 e ks outer m' : m_do (pre ks0 (MOpen e ks outer)) OpPop = Some m' ->
  exists m1, m_do (MOpen e ks outer) OpPop = Some m1 /\ m' = pre ks0 m1.
Proof.
  intro H. destruct outer as [|[a ka] outer]; [cbn in *; injection H as <-; now eexists|].
  destruct outer as [|y outer]; cbn in *; injection H as <-; eexists; (split; [reflexivity|]); cbn; [now rewrite app_assoc|easy].
Qed.
Lemma pre_do ks0 e ks outer op m' : m_do (pre ks0 (MOpen e ks outer)) op = Some m' ->
  exists m1, m_do (MOpen e ks outer) op = Some m1 /\ m' = pre ks0 m1.
Proof. destruct op; [apply pre_push|apply pre_append|apply pre_pop]. Qed.
Lemma pre_top ks0 m : m_top (pre ks0 m) = m_top m.
Proof. now destruct m as [|e ks [|x outer]|e ks]. Qed.
Lemma pre_inside ks0 m1 toks m' : inside m1 toks m' -> forall m, m1 = pre ks0 m -> exists m2, m' = pre ks0 m2 /\ inside m toks m2.
Proof.
  induction 1 as [m1|e ks outer txt t toks m1 m2 m' X G F IH]; intros m E; [exists m; split; [easy|constructor]|].
  assert (exists e0 k0 o0, m = MOpen e0 k0 o0) as (e0 & k0 & o0 & ->).
  { destruct m as [|e0 k0 o0|e0 k0]; try discriminate. now exists e0, k0, o0. }
  rewrite E in X.
  assert (exists k1, m1 = pre ks0 (MOpen e0 k1 o0) /\ text_step (MOpen e0 k0 o0) txt (MOpen e0 k1 o0)) as (k1 & -> & X').
  { destruct X as [X|op m1 X D]; [exists k0; split; [easy|now constructor]|].
    destruct (pre_do _ _ _ _ _ _ D) as (ma & Da & ->).
    assert (Y : text_step (MOpen e0 k0 o0) txt ma) by now apply ts_some with op.
    destruct (text_step_open _ _ _ _ _ Y) as [k1 ->]. now exists k1. }
  destruct G as [op m2 O D]. destruct (pre_do _ _ _ _ _ _ D) as (mb & Db & ->).
  destruct (IH _ eq_refl) as (m3 & -> & I3). exists m3. split; [easy|].
  apply in_cons with (MOpen e0 k1 o0) mb; [easy| |easy]. apply tg with op; [|easy]. now rewrite pre_top in O.
Qed.
Lemma inside_fresh e ks0 toks e' ks : inside (MOpen e ks0 []) toks (MDone e' ks) ->
  exists ks1, ks = ks0 ++ ks1 /\ inside (MOpen e [] []) toks (MDone e' ks1).
Proof.
  intro H. destruct (pre_inside ks0 _ _ _ H (MOpen e [] [])) as (m2 & E & I); [cbn; now rewrite app_nil_r|].
  destruct m2 as [|a k [|x o]|a k]; try discriminate. cbn in E. injection E as -> ->. now exists k.
Qed.

(** The trees that the tags of a root stand for. *)
Definition leaf (n : node) : rtree := RT n [].
Inductive rcontent : list (str * str) -> list rtree -> Prop :=
| rc_nil : rcontent [] []
| rc_leaf toks ks txt a t n : rcontent toks ks -> loose_text txt a -> tag_item t [ILeaf n] -> (forall e, n <> NElem e) ->
    rcontent (toks ++ [(txt, t)]) (ks ++ map leaf a ++ [leaf n])
| rc_elem toks ks txt a t g is e k : rcontent toks ks -> loose_text txt a -> items (([], t) :: g) is -> rt_items (RT (NElem e) k) is ->
    rcontent (toks ++ (txt, t) :: g) (ks ++ map leaf a ++ [RT (NElem e) k]).
Inductive base_state (e : elem) : list (str * str) -> machine -> Prop :=
| bs_flat toks ks : rcontent toks ks -> base_state e toks (MOpen e ks [])
| bs_deep toks ks txt a t g is c kc outer : rcontent toks ks -> loose_text txt a -> items (([], t) :: g) is ->
    frames_items ((c, kc) :: outer) is ->
    base_state e (toks ++ (txt, t) :: g) (MOpen c kc (outer ++ [(e, ks ++ map leaf a)]))
| bs_done toks ks last a close : rcontent toks ks -> loose_text last a -> closing close (tag_name e) ->
    base_state e (toks ++ [(last, close)]) (MDone e (ks ++ map leaf a)).

(** A machine above another frame. *)
Definition above (b : elem * list rtree) (m : machine) : machine :=
  match m with
  | MNew => MNew
  | MOpen c kc o => MOpen c kc (o ++ [b])
  | MDone c kc => MOpen (fst b) (snd b ++ [RT (NElem c) kc]) []
  end.
Lemma above_do b c kc o op m' : m_do (MOpen c kc (o ++ [b])) op = Some m' ->
  exists m1, m_do (MOpen c kc o) op = Some m1 /\ m' = above b m1.
Proof.
  intro H. destruct op as [x|n|].
  - cbn in H. injection H as <-. now eexists.
  - cbn in H. injection H as <-. now eexists.
  - destruct b as [e ke]. destruct o as [|[a ka] o]; cbn in H; injection H as <-; now eexists.
Qed.
Lemma loose_step e ks outer txt m1 : text_step (MOpen e ks outer) txt m1 ->
  exists a, loose_text txt a /\ m1 = MOpen e (ks ++ map leaf a) outer.
Proof.
  intros [H|op m1' H D].
  - exists []. cbn. rewrite app_nil_r. split; [|easy]. inversion H. now apply lo_white.
  - inversion H as [|t v B U]; subst. cbn in D. injection D as <-. apply unescape_exact in U. exists [NText v]. split; [now apply lo_text|easy].
Qed.
Lemma items_app a i : items a i -> forall b j, items b j -> items (a ++ b) (i ++ j).
Proof.
  induction 1 as [|txt t toks x y l X G F IH]; intros b j Hb; [easy|]. rewrite <- !app_assoc. cbn [app]. constructor; [easy|easy|now apply IH].
Qed.
Lemma items_one txt t a b : text_item txt a -> tag_item t b -> items [(txt, t)] (a ++ b).
Proof. intros H H'. rewrite <- (app_nil_r b). now constructor; [| |constructor]. Qed.
Lemma empty_item : text_item [] [].
Proof. apply xi_white. constructor. Qed.
Lemma base_step e toks e1 k1 o1 txt t m1 m2 : base_state e toks (MOpen e1 k1 o1) -> markup_or_element t ->
  text_step (MOpen e1 k1 o1) txt m1 -> tag_step m1 t m2 -> base_state e (toks ++ [(txt, t)]) m2.
Proof.
  intros B Mt X G. inversion B as [toks0 ks R E1 E2|toks0 ks txt0 a t0 g is c kc outer R La It Fr|]; subst.
  - destruct (loose_step _ _ _ _ _ X) as (a & La & ->). destruct G as [op m2 H D]. destruct Mt as [Dt Et].
    destruct H as [c Hc|c Hc|t b x N1 N2 S C Ht Hb|t b c N1 N2 S C E Z|t b c N1 N2 S C E Z]; cbn in D; injection D as <-.
    + apply bs_flat. rewrite <- app_assoc. apply rc_leaf; [easy|easy|apply gi_comment|easy].
    + apply bs_flat. rewrite <- app_assoc. apply rc_leaf; [easy|easy|apply gi_cdata|easy].
    + apply bs_done; [easy|easy|]. cbn in Ht. injection Ht as <-. subst b. now apply close_closing.
    + destruct (element_of_labelled _ _ _ _ (Et N1) N1 N2 S E) as (n & l & T & L).
      apply bs_flat. rewrite <- app_assoc. apply rc_elem with (is := [] ++ [IOpen n l; IClose]); [easy|easy| |].
      * apply items_one; [apply empty_item|now apply gi_single].
      * apply (rti_elem c [] n l []); [easy|constructor].
    + destruct (element_of_labelled _ _ _ _ (Et N1) N1 N2 S E) as (n & l & T & L).
      apply (bs_deep _ toks _ txt a t [] ([] ++ [IOpen n l]) c [] []); [easy|easy| |].
      * apply items_one; [apply empty_item|now apply gi_open].
      * apply (fri_cons c [] [] n l [] []); [constructor|easy|constructor].
  - assert (exists kc1, m1 = MOpen e1 kc1 (outer ++ [(e, ks ++ map leaf a)]) /\ text_step (MOpen e1 k1 outer) txt (MOpen e1 kc1 outer)) as (kc1 & -> & X').
    { destruct X as [X|op m1 X D]; [exists k1; split; [easy|now constructor]|].
      inversion X as [|? v Bv U]; subst. cbn in D. injection D as <-. exists (k1 ++ [RT (NText v) []]). split; [easy|].
      now apply ts_some with (OpAppend (NText v)). }
    destruct G as [op m2 H D]. destruct (above_do _ _ _ _ _ _ D) as (m3 & D3 & ->).
    destruct (text_step_items _ _ _ _ _ _ X' Fr) as (i1 & X1 & H1).
    assert (G3 : tag_step (MOpen e1 kc1 outer) t m3) by now apply tg with op.
    destruct (tag_step_items _ _ _ _ _ _ Mt G3 H1) as (i2 & X2 & H2).
    pose proof (items_app _ _ It _ _ (items_one _ _ _ _ X1 X2)) as It'. cbn [app] in It'. rewrite <- app_assoc in H2.
    rewrite <- app_assoc. cbn [app]. destruct m3 as [|c kc o|c kc]; cbn [above].
    + destruct outer as [|[]]; destruct op; discriminate.
    + apply bs_deep with (is ++ i1 ++ i2); easy.
    + cbn [fst snd]. apply bs_flat. rewrite <- app_assoc. apply rc_elem with (is ++ i1 ++ i2); easy.
Qed.
Lemma base_inside e m toks m' : inside m toks m' -> Forall (fun x => markup_or_element (snd x)) toks ->
  forall toks0, base_state e toks0 m -> base_state e (toks0 ++ toks) m'.
Proof.
  induction 1 as [m|e1 ks outer txt t toks m1 m2 m' X G F IH]; intros D toks0 B; [now rewrite app_nil_r|].
  apply Forall_cons_iff in D. destruct D as [D1 D2]. cbn in D1.
  replace (toks0 ++ (txt, t) :: toks) with ((toks0 ++ [(txt, t)]) ++ toks) by now rewrite <- app_assoc.
  apply IH; [easy|]. now apply base_step with e1 ks outer m1.
Qed.

(** The finished contents. *)
Lemma content_app q a ns : content q a ns -> forall b ms, content q b ms -> content q (a ++ b) (ns ++ ms).
Proof.
  induction 1 as [|txt a t n toks ns La T C IH|txt a t g is e toks ns La It E C IH]; intros b ms Hb; [easy| |].
  - rewrite <- app_assoc. cbn [app]. apply co_leaf; [easy|easy|now apply IH].
  - rewrite <- app_assoc. cbn [app]. rewrite <- app_assoc. apply co_elem with is; [easy|easy|easy|now apply IH].
Qed.
Lemma assemble_leaves txt a : loose_text txt a -> map assemble (map leaf a) = a.
Proof. now intros []. Qed.
Lemma rcontent_content q toks ks : rcontent toks ks -> (forall k, In k ks -> rt_valid k /\ rt_spaced k /\ rt_scoped [q] k) ->
  content q toks (map assemble ks).
Proof.
  induction 1 as [|toks ks txt a t n R IH La T N|toks ks txt a t g is e k R IH La It Ri]; intro H; [constructor| |]; rewrite !map_app.
  - apply content_app; [apply IH; intros k Hk; apply H, in_or_app; now left|]. rewrite (assemble_leaves _ _ La). cbn [map].
    unfold leaf. rewrite assemble_leaf by easy. apply co_leaf; [easy|easy|constructor].
  - apply content_app; [apply IH; intros k' Hk; apply H, in_or_app; now left|]. rewrite (assemble_leaves _ _ La).
    cbn [map]. replace ((txt, t) :: g) with ((txt, t) :: g ++ []) by now rewrite app_nil_r.
    destruct (H (RT (NElem e) k)) as (V & S & Sc); [apply in_or_app; right; apply in_or_app; right; now left|].
    destruct (assemble_items _ V S [q] [q] Sc ltac:(repeat constructor) is Ri eq_refl) as [G _].
    cbn [assemble] in *. apply co_elem with is; [easy|easy| |constructor].
    inversion G as [|? ? ? ? N _|? ? ? ? ? G1 G2]; subst; [now destruct (N (build e (map assemble k)))|].
    inversion G2; subst. now rewrite app_nil_r in *.
Qed.
Lemma labelled_tag_name n l e : labelled n l e -> tag_name e = n.
Proof. intros (P & _). unfold tag_name. inversion P as [m H E1 E2|p m H E1 E2]; easy. Qed.
Lemma scope_head n l e : labelled n l e -> head_ok e -> scope_ok e [] -> root_head n l e.
Proof. intros L [_ H] (S1 & S2 & _). split; [easy|]. split; [easy|]. now split. Qed.
Lemma one_root_reads txt t b e n l body ks : ws txt -> start_tag t n l -> labelled n l e -> element_of None b = Ok e ->
  ~ self_closing t -> inside (MOpen e [] []) body (MDone e ks) -> Forall (fun x => markup_or_element (snd x)) body ->
  root_reads ((txt, t) :: body) e (map assemble ks).
Proof.
  intros W T L E Z I D.
  assert (D' : Forall (fun x => delimited (snd x)) body) by (revert D; apply Forall_impl; now intros x []).
  pose proof (element_of_scope None b e [] E eq_refl) as Sc. pose proof (element_of_valid _ _ _ E) as V.
  assert (M : m_valid (MDone e ks) /\ m_spaced (MDone e ks) /\ m_scoped (MDone e ks)).
  { split; [|split].
    - apply (inside_valid _ _ _ I D'). split; [now split|constructor].
    - apply (inside_spaced _ _ _ I D'); [|intros x k Ek; destruct x; discriminate].
      split; [split; [apply spaced_nil|easy]|constructor].
    - apply (inside_scoped _ _ _ I D'). split; [exact Sc|now split]. }
  destruct M as ([V1 V2] & [S1 S2] & (C1 & C2 & _)). cbn [fst snd map] in *.
  assert (B : base_state e ([] ++ body) (MDone e ks)) by (apply (base_inside e _ _ _ I D); apply bs_flat; constructor).
  cbn [app] in B. inversion B as [| |toks ks1 last a close R La Cl]; subst. rewrite map_app, (assemble_leaves _ _ La).
  apply rr_pair with n l; [easy|easy|easy|now apply scope_head| |easy|].
  - apply rcontent_content; [easy|]. intros k Hk. assert (In k (ks1 ++ map leaf a)) by (apply in_or_app; now left).
    split; [now apply V2|]. split; [now apply S2|now apply C2].
  - now rewrite <- (labelled_tag_name _ _ _ L).
Qed.

(** * All roots *)

Lemma run_root e ks0 root tb m el : element_tags (root :: map snd tb) -> ~ self_closing root ->
  Forall (fun x => delimited (snd x)) tb -> feeds (MOpen e ks0 []) (tb ++ el) m ->
  exists ks, inside (MOpen e ks0 []) tb (MDone e ks) /\ feeds (MDone e ks) el m.
Proof.
  intros ET Z D F. inversion ET as [t n O Z' Et|t n body c O Z' Hb C Et]; subst; [contradiction|].
  symmetry in H. apply map_snd_app in H. destruct H as (tb' & tc & -> & Etb & Etc).
  destruct tc as [|[txc c'] [|]]; try discriminate. injection Etc as ->.
  apply Forall_app in D. destruct D as [D1 D2]. apply Forall_cons_iff in D2. destruct D2 as [D2 _]. cbn in D2.
  rewrite <- app_assoc in F. apply AcceptFacts.feeds_app in F. destruct F as (m1 & F1 & F2).
  destruct (proj2 stays_inside _ Hb _ Etb D1 _ _ _ _ F1) as (ks1 & -> & I1).
  cbn [app] in F2. inversion F2 as [|? ? ? ? m4 m5 ? X4 G4 F4]; subst.
  destruct (text_step_open _ _ _ _ _ X4) as [ks4 ->].
  destruct (step_closing _ _ _ _ D2 C G4) as (a & Ea & _ & E). cbn in E. injection E as <-.
  exists ks4. split; [|easy]. eapply inside_app; [exact I1|]. eapply in_cons; [exact X4|exact G4|constructor].
Qed.
(** One more root. *)
Lemma next_root e0 ks0 l el m : element_tags (map snd l) -> Forall (fun x => markup_or_element (snd x)) l ->
  feeds (MDone e0 ks0) (l ++ el) m ->
  exists e ks, root_reads l e (map assemble ks) /\ feeds (MDone e (ks0 ++ ks)) el m.
Proof.
  intros ET D F. destruct l as [|[txt t] l]; [inversion ET|]. cbn [app] in F. apply Forall_cons_iff in D. destruct D as [[Dt Et] D]. cbn in Dt, Et.
  assert (D' : Forall (fun x => delimited (snd x)) l) by (revert D; apply Forall_impl; now intros x []).
  inversion F as [|? ? ? ? m1 m2 ? X G F2]; subst.
  assert (m1 = MDone e0 ks0 /\ ws txt) as [-> W].
  { destruct X as [X|op m' X E]; inversion X; subst; [easy|discriminate]. }
  destruct G as [op m2 H E]. cbn [m_top] in H.
  destruct H as [c Hc|c Hc|t b a N1 N2 S C Ht Hb|t b c N1 N2 S C Ec Z|t b c N1 N2 S C Ec Z]; try discriminate.
  cbn in E. injection E as <-. cbn [map snd] in ET.
  destruct (run_root _ _ _ _ _ _ ET Z D' F2) as (ks & I & F3). apply inside_fresh in I. destruct I as (ks1 & -> & I).
  destruct (element_of_labelled _ _ _ _ (Et N1) N1 N2 S Ec) as (n & k & T & L).
  exists c, ks1. split; [|easy]. now apply one_root_reads with b n k.
Qed.
Lemma more_roots l : roots_tags l -> forall el, map snd el = l -> Forall (fun x => markup_or_element (snd x)) el ->
  forall e0 ks0 r ks, feeds (MDone e0 ks0) el (MDone r ks) ->
  exists ks1, ks = ks0 ++ ks1 /\ roots_read el r (map assemble ks1).
Proof.
  induction 1 as [l ET|l1 l2 ET H IH]; intros el El D e0 ks0 r ks F.
  - rewrite <- (app_nil_r el) in F. subst l. destruct (next_root _ _ _ _ _ ET D F) as (e & ks1 & R & F2). inversion F2; subst.
    exists ks1. split; [easy|now constructor].
  - apply map_snd_app in El. destruct El as (a & b & -> & <- & <-). apply Forall_app in D. destruct D as [D1 D2].
    destruct (next_root _ _ _ _ _ ET D1 F) as (e & ks1 & R & F2). destruct (IH _ eq_refl D2 _ _ _ _ F2) as (ks2 & -> & R2).
    exists (ks1 ++ ks2). split; [now rewrite app_assoc|]. rewrite map_app. now apply rs_more with e.
Qed.

(** Texts are not empty. *)
Lemma loose_nonempty txt a : loose_text txt a -> texts_nonempty a.
Proof.
  intros [t W|t v W U]; [intros []|]. intros [E|[]]. injection E as ->. apply (unescapes_nonempty _ _ U); [|easy].
  intros ->. apply W. constructor.
Qed.
Lemma nonempty_app a b : texts_nonempty a -> texts_nonempty b -> texts_nonempty (a ++ b).
Proof. intros H H' E. apply in_app_or in E. destruct E; [now apply H|now apply H']. Qed.
Lemma content_nonempty q toks ns : content q toks ns -> texts_nonempty ns.
Proof.
  induction 1 as [|txt a t n toks ns La T C IH|txt a t g is e toks ns La It E C IH]; [intros []| |];
    (apply nonempty_app; [now apply loose_nonempty in La|]; intros [E'|E']; [|now apply IH]).
  - subst n. inversion T; discriminate.
  - discriminate.
Qed.
Lemma roots_nonempty el q ns : roots_read el q ns -> texts_nonempty ns.
Proof.
  assert (K : forall el q ns, root_reads el q ns -> texts_nonempty ns).
  { intros el0 q0 ns0 []; [intros []|]. apply nonempty_app; [now apply content_nonempty with q1 body|now apply loose_nonempty in H4]. }
  induction 1 as [el q ns H|el p ns el' q ns' H R IH]; [now apply K in H|]. apply nonempty_app; [now apply K in H|easy].
Qed.
Lemma roots_childless el q ns : roots_read el q ns -> e_children q = [].
Proof.
  induction 1 as [el q ns H|el p ns el' q ns' H R IH]; [|easy].
  destruct H as [txt t n l q W T Z (_ & Hc & _)|txt t n l q body ns last a close W T Z (_ & Hc & _) C La Cl]; easy.
Qed.

Theorem accepts_stands_roots s d pr el : accepts s d -> some_roots s pr el -> stands_for_roots pr el d.
Proof.
  intros A ((tail & Sp) & P & RT & SE).
  assert (D : Forall (fun x => markup_or_element (snd x)) el).
  { destruct Sp as [L _]. apply lexed_tags in L. now apply Forall_app in L. }
  split; [exact (proj1 (accepts_declaration _ _ _ _ _ A Sp P SE))|]. split; [exact (accepts_dtds _ _ _ _ _ A Sp P SE)|].
  assert (K : exists l rest, el = l ++ rest /\ element_tags (map snd l) /\ (rest = [] \/ roots_tags (map snd rest))).
  { inversion RT as [l ET El|l1 l2 ET R El].
    - exists el, []. rewrite app_nil_r. split; [easy|]. split; [easy|now left].
    - symmetry in El. apply map_snd_app in El. destruct El as (a & b & -> & Ea & Eb). exists a, b. split; [easy|].
      split; [now rewrite Ea|]. right. now rewrite Eb. }
  destruct K as (l & rest & -> & ET & R).
  assert (SE' : starts_with_element l).
  { destruct SE as (txt & t & body & E & N). destruct l as [|[txt' t'] l]; [inversion ET|]. cbn in E. injection E as -> -> E.
    now exists txt, t, l. }
  destruct (accepts_root _ _ _ _ _ _ A Sp P ET SE') as (decl & dtds & txt & root & body & b & e & m & r & ks & -> & _ & W & Op & St & E & -> & -> & H).
  cbn [app] in D. apply Forall_cons_iff in D. destruct D as [[_ Et] D]. apply Forall_app in D. destruct D as [D1 D2]. cbn [snd] in Et.
  destruct Op as (N1 & N2 & _). destruct (element_of_labelled _ _ _ _ (Et N1) N1 N2 St E) as (n & k & T & L). cbn [d_root].
  assert (Q : roots_read (((txt, root) :: body) ++ rest) r (map assemble ks)).
  { destruct H as [(Z & -> & -> & -> & ->)|(Z & ks0 & I & F)].
    - cbn. apply rs_one. apply rr_single with n k; [easy|easy|easy|]. apply scope_head; [easy|now apply element_of_valid in E|].
      exact (element_of_scope None b e [] E eq_refl).
    - pose proof (one_root_reads _ _ _ _ _ _ _ _ W T L E Z I D1) as Q1. destruct R as [->|R].
      + rewrite app_nil_r. inversion F; subst. now apply rs_one.
      + destruct (more_roots _ R _ eq_refl D2 _ _ _ _ F) as (ks1 & -> & Q2). rewrite map_app. now apply rs_more with e. }
  exists r, (map assemble ks). split; [easy|]. apply build_gathered; [now apply roots_childless in Q|now apply roots_nonempty in Q].
Qed.

(** * Uniqueness *)

Definition same_table (a b : elem) : Prop := forall k, aget k (e_context a) = aget k (e_context b).
Inductive near : node -> node -> Prop :=
| nr_leaf n : (forall e, n <> NElem e) -> near n n
| nr_elem e e' : elem_same e e' -> same_table e e' -> near (NElem e) (NElem e').
Lemma loose_fun t a b : loose_text t a -> loose_text t b -> a = b.
Proof.
  intros [t' W|t' v W U] H; inversion H as [? W'|? v' W' U']; subst; try easy.
  pose proof (unescapes_fun _ _ _ U U') as E. now injection E as <-.
Qed.
Lemma loose_near t a : loose_text t a -> Forall2 near a a.
Proof. intros []; repeat constructor; discriminate. Qed.
Lemma tag_leaf t n : tag_item t [ILeaf n] -> forall e, n <> NElem e.
Proof. intro H. inversion H; subst; discriminate. Qed.
Lemma items_split a b i : items (a ++ b) i -> exists j k, i = j ++ k /\ items a j /\ items b k.
Proof.
  revert i. induction a as [|[txt t] a IH]; intros i H; [exists [], i; split; [easy|split; [constructor|easy]]|].
  cbn in H. inversion H as [|? ? ? x y l X G F]; subst. destruct (IH _ F) as (j & k & -> & J & K).
  exists (x ++ y ++ j), k. split; [now rewrite <- !app_assoc|]. split; [now constructor|easy].
Qed.
Lemma tag_item_nonempty t : ~ tag_item t [].
Proof. intro H. inversion H. Qed.
Lemma items_empty a : items a [] -> a = [].
Proof.
  intro H. remember ([] : list item) as i eqn:E. destruct H as [|txt t toks x y l X G F]; [easy|]. apply app_eq_nil in E. destruct E as [_ E]. apply app_eq_nil in E.
  destruct E as [-> _]. now apply tag_item_nonempty in G.
Qed.
(** The first tag of an element. *)
Lemma elem_first t g is anc e : items (([], t) :: g) is -> element_of_items anc e is ->
  exists n l b, tag_item t (IOpen n l :: b).
Proof.
  intros H E. inversion H as [|txt t' toks x y r X G F]; subst.
  assert (x = []) as -> by (apply (text_item_fun [] x []); [easy|apply empty_item]). inversion E as [? ? n l is0 L X0 C0 Ns Ea Eb Ei].
  destruct y as [|i y]; [now apply tag_item_nonempty in G|]. cbn in Ei. injection Ei as <- _. now exists n, l, y.
Qed.
Lemma alike1 q q' : alike_head q q' -> Forall2 alike_head [q] [q'].
Proof. intro H. constructor; [easy|constructor]. Qed.
Lemma elem_table q q' e e' is : alike_head q q' -> element_of_items [q] e is -> element_of_items [q'] e' is -> same_table e e'.
Proof.
  intros A H H' p. inversion H as [? ? n l is0 L X C Ns]; subst. inversion H' as [? ? n' l' is' L' X' C' Ns' Ei]; subst.
  destruct (labelled_fun _ _ _ _ L L') as (_ & Ep & _ & Ga). rewrite C, C'. apply nearest_alike.
  constructor; [|now apply alike1]. split; [easy|]. split; [|easy]. rewrite X, X'. apply rule_alike; [easy|easy|now apply alike1].
Qed.
Lemma content_fun q toks ns : content q toks ns -> forall q' toks' ns' lst t n r lst' t' n' r', content q' toks' ns' -> alike_head q q' ->
  closing t n -> closing t' n' -> toks ++ (lst, t) :: r = toks' ++ (lst', t') :: r' -> toks = toks' /\ Forall2 near ns ns'.
Proof.
  assert (K : forall t n x b, closing t n -> tag_item t (x :: b) -> x = IClose).
  { intros t n x b C T. pose proof (tag_item_fun _ _ _ T (gi_close _ _ C)) as E. now injection E as -> _. }
  induction 1 as [|txt a t0 m toks ns La T C IH|txt a t0 g is e toks ns La It Ei C IH];
    intros q' toks' ns' lst t n r lst' t' n' r' H' A Ct Ct' E.
  - destruct H' as [|txt' a' t1 m' toks' ns' La' T' C'|txt' a' t1 g' is' e' toks' ns' La' It' Ei' C'].
    + split; [easy|constructor].
    + cbn in E. injection E as -> -> _. now discriminate (K _ _ _ _ Ct T').
    + cbn in E. injection E as -> -> _. destruct (elem_first _ _ _ _ _ It' Ei') as (x & y & b & G). now discriminate (K _ _ _ _ Ct G).
  - destruct H' as [|txt' a' t1 m' toks' ns' La' T' C'|txt' a' t1 g' is' e' toks' ns' La' It' Ei' C'].
    + cbn in E. injection E as -> -> _. now discriminate (K _ _ _ _ Ct' T).
    + cbn in E. injection E as -> -> E. destruct (IH _ _ _ _ _ _ _ _ _ _ _ C' A Ct Ct' E) as [-> F].
      split; [easy|]. rewrite (loose_fun _ _ _ La La'). apply Forall2_app; [now apply loose_near in La'|].
      pose proof (tag_item_fun _ _ _ T T') as Em. injection Em as <-. constructor; [|easy]. apply nr_leaf. now apply tag_leaf with t1.
    + cbn in E. injection E as -> -> _. destruct (elem_first _ _ _ _ _ It' Ei') as (x & y & b & G).
      pose proof (tag_item_fun _ _ _ T G). discriminate.
  - destruct H' as [|txt' a' t1 m' toks' ns' La' T' C'|txt' a' t1 g' is' e' toks' ns' La' It' Ei' C'].
    + cbn in E. injection E as -> -> _. destruct (elem_first _ _ _ _ _ It Ei) as (x & y & b & G). now discriminate (K _ _ _ _ Ct' G).
    + cbn in E. injection E as -> -> _. destruct (elem_first _ _ _ _ _ It Ei) as (x & y & b & G).
      pose proof (tag_item_fun _ _ _ T' G). discriminate.
    + cbn in E. injection E as -> -> E. rewrite <- !app_assoc in E.
      assert (Q : g = g').
      { assert (Q : forall g h anc1 e1 i1 anc2 e2 i2, items (([], t1) :: g) i1 -> items (([], t1) :: g ++ h) i2 ->
          element_of_items anc1 e1 i1 -> element_of_items anc2 e2 i2 -> Forall2 alike_head anc1 anc2 -> h = []).
        { intros g1 h anc1 e1 i1 anc2 e2 i2 I1 I2 E1 E2 F2. change (([], t1) :: g1 ++ h) with ((([], t1) :: g1) ++ h) in I2.
          apply items_split in I2. destruct I2 as (j & k & -> & J & Hk). rewrite <- (items_fun _ _ I1 _ J) in *.
          destruct (proj1 items_unique _ _ _ E1 _ _ _ k [] E2 F2) as [Eq _]; [now rewrite app_nil_r|].
          rewrite <- (app_nil_r i1) in Eq at 1. apply app_inv_head in Eq. subst k. now apply items_empty. }
        assert (As : alike_head q' q). { destruct A as (A1 & A2 & A3). split; [easy|]. split; [easy|]. intro k. now rewrite A3. }
        destruct (app_eq_app _ _ _ _ E) as (h & [[-> _]|[-> _]]).
        - assert (h = []) as ->; [|now rewrite app_nil_r]. now apply (Q g' h [q'] e' is' [q] e is); [| | | |apply alike1].
        - assert (h = []) as ->; [|now rewrite app_nil_r]. now apply (Q g h [q] e is [q'] e' is'); [| | | |apply alike1]. }
      subst g'. apply app_inv_head in E. destruct (IH _ _ _ _ _ _ _ _ _ _ _ C' A Ct Ct' E) as [-> F].
      split; [easy|]. rewrite (loose_fun _ _ _ La La'). apply Forall2_app; [now apply loose_near in La'|].
      rewrite <- (items_fun _ _ It _ It') in Ei'. constructor; [|easy]. apply nr_elem.
      * exact (proj2 (proj1 items_unique _ _ _ Ei _ _ _ [] [] Ei' (alike1 _ _ A) eq_refl)).
      * now apply elem_table with q q' is.
Qed.
Definition same_root (q q' : elem) : Prop :=
  e_name q = e_name q' /\ e_xmlns q = e_xmlns q' /\ e_prefix q = e_prefix q' /\ Permutation (e_attributes q) (e_attributes q') /\
  alike_head q q' /\ same_table q q'.
Lemma root_head_fun n l q q' : root_head n l q -> root_head n l q' -> same_root q q'.
Proof.
  intros (L & _ & X & C) (L' & _ & X' & C'). destruct (labelled_fun _ _ _ _ L L') as (En & Ep & Pa & Ga).
  assert (Ex : e_xmlns q = e_xmlns q') by (rewrite X, X'; apply rule_alike; [easy|easy|constructor]).
  assert (A : alike_head q q') by easy. split; [easy|]. split; [easy|]. split; [easy|]. split; [easy|]. split; [easy|].
  intro k. rewrite C, C'. apply nearest_alike. now apply alike1.
Qed.
Lemma root_fun el q ns el' q' ns' r r' : root_reads el q ns -> root_reads el' q' ns' -> el ++ r = el' ++ r' ->
  el = el' /\ same_root q q' /\ Forall2 near ns ns'.
Proof.
  intros H H' E. destruct H as [txt t n l q W T Z R|txt t n l q body ns last a close W T Z R C La Cl];
    destruct H' as [txt' t' n' l' q' W' T' Z' R'|txt' t' n' l' q' body' ns' last' a' close' W' T' Z' R' C' La' Cl'];
    cbn in E; injection E as <- <- E; try easy; destruct (start_tag_fun _ _ _ _ _ T T') as [<- <-];
    pose proof (root_head_fun _ _ _ _ R R') as SR.
  - split; [easy|]. split; [easy|constructor].
  - rewrite <- !app_assoc in E. cbn [app] in E.
    destruct (content_fun _ _ _ C _ _ _ _ _ _ _ _ _ _ _ C' ltac:(apply SR) Cl Cl' E) as [<- F]. apply app_inv_head in E. injection E as <- <- _.
    split; [easy|]. split; [easy|]. rewrite (loose_fun _ _ _ La La'). apply Forall2_app; [easy|now apply loose_near in La'].
Qed.
Lemma root_nonempty el q ns : root_reads el q ns -> el <> [].
Proof. now intros []. Qed.
Lemma roots_tokens el q ns : roots_read el q ns -> el <> [].
Proof. intros [el' q' ns' H|el1 p n1 el2 q' n2 H _]; [now apply root_nonempty in H|]. apply root_nonempty in H. now destruct el1. Qed.
Lemma roots_fun el q ns : roots_read el q ns -> forall q' ns', roots_read el q' ns' -> same_root q q' /\ Forall2 near ns ns'.
Proof.
  induction 1 as [el q ns H|el p ns el' q ns' H R IH]; intros q0 ns0 H'.
  - inversion H' as [? ? ? G|e1 p1 n1 e2 q2 n2 G G2]; subst.
    + now destruct (root_fun _ _ _ _ _ _ [] [] H G eq_refl).
    + destruct (root_fun _ _ _ _ _ _ [] e2 H G ltac:(now rewrite app_nil_r)) as [E _]. apply roots_tokens in G2.
      rewrite <- (app_nil_r e1) in E at 2. now apply app_inv_head in E.
  - inversion H' as [? ? ? G|e1 p1 n1 e2 q2 n2 G G2]; subst.
    + destruct (root_fun _ _ _ _ _ _ el' [] H G ltac:(now rewrite app_nil_r)) as [E _]. apply roots_tokens in R.
      rewrite <- (app_nil_r el) in E at 1. apply app_inv_head in E. now subst el'.
    + destruct (root_fun _ _ _ _ _ _ _ _ H G ltac:(symmetry; eassumption)) as (<- & _ & F). apply app_inv_head in H0. subst e2.
      destruct (IH _ _ G2) as [S F2]. split; [easy|now apply Forall2_app].
Qed.
Lemma near_text s n : near (NText s) n -> n = NText s.
Proof. intro H. inversion H; subst; easy. Qed.
Lemma near_not_text n n' : near n n' -> (forall s, n <> NText s) -> forall s, n' <> NText s.
Proof. intros [m H|e e' H1 H2] N; [easy|discriminate]. Qed.
Lemma near_head l l' : Forall2 near l l' -> (forall t k, l <> NText t :: k) -> forall t k, l' <> NText t :: k.
Proof.
  intros [|n n' a b H F] N t k; [discriminate|]. intro E. injection E as -> _. inversion H; subst. now apply (N t a).
Qed.
Lemma knit_near ns l : knit ns l -> forall ns' l', Forall2 near ns ns' -> knit ns' l' -> Forall2 near l l'.
Proof.
  induction 1 as [|n ns l N H IH|s t ns l H IH|s ns l B N H IH|s ns l B N H IH]; intros ns' l' F K; inversion F as [|? n' ? ns1 Hn Fn]; subst.
  - inversion K; subst. constructor.
  - pose proof (near_not_text _ _ Hn N) as N'. inversion K as [|? ? l1 _ K1| | |]; subst; try now destruct (N' s). constructor; [easy|now apply (IH ns1)].
  - apply near_text in Hn. subst n'. inversion K as [|? ? l1 N1 K1|s1 t1 ? l1 K1|? ? l1 B1 N1 K1|? ? l1 B1 N1 K1]; subst.
    + now destruct (N1 s).
    + pose proof (IH _ _ Fn K1) as F1. inversion F1 as [|? ? ? ? T1 F2]; subst. apply near_text in T1. injection T1 as ->. constructor; [|easy].
      now apply nr_leaf.
    + pose proof (IH _ _ Fn K1) as F1. inversion F1 as [|? ? ? ? T1 F2]; subst. apply near_text in T1. subst. now destruct (N1 t l').
    + pose proof (IH _ _ Fn K1) as F1. inversion F1 as [|? ? ? ? T1 F2]; subst. apply near_text in T1. subst. now destruct (N1 t l'0).
  - apply near_text in Hn. subst n'. inversion K as [|? ? l1 N1 K1|s1 t1 ? l1 K1|? ? l1 B1 N1 K1|? ? l1 B1 N1 K1]; subst.
    + now destruct (N1 s).
    + pose proof (IH _ _ Fn K1) as F1. now destruct (near_head _ _ F1 N t1 l1).
    + constructor; [now apply nr_leaf|now apply (IH ns1)].
    + easy.
  - apply near_text in Hn. subst n'. inversion K as [|? ? l1 N1 K1|s1 t1 ? l1 K1|? ? l1 B1 N1 K1|? ? l1 B1 N1 K1]; subst.
    + now destruct (N1 s).
    + pose proof (IH _ _ Fn K1) as F1. now destruct (near_head _ _ F1 N t1 l1).
    + easy.
    + now apply (IH ns1).
Qed.
Lemma adopted_near q q' n n' m m' : same_root q q' -> near n n' -> adopted q n m -> adopted q' n' m' -> 
  forall l l', nodes_same l l' -> nodes_same (m :: l) (m' :: l').
Proof.
  intros (_ & Sx & Sp & _ & _ & St) N A A' l l' Hl. destruct N as [n Hn|c c' Sc Tc].
  - assert (m = n) as -> by (destruct n as [c|s|s|s]; [now destruct (Hn c)|destruct m; exact A..]).
    assert (m' = n) as -> by (destruct n as [c|s|s|s]; [now destruct (Hn c)|destruct m'; exact A'..]). now apply ns_leaf.
  - destruct m as [d|s|s|s]; try discriminate A. destruct m' as [d'|s|s|s]; try discriminate A'. cbn in A, A'.
    destruct A as (A1 & A2 & A3 & A4 & A5 & A6), A' as (B1 & B2 & B3 & B4 & B5 & B6).
    inversion Sc as [? ? C1 C2 C3 C4 C5]; subst. apply ns_elem; [|easy]. constructor; [congruence| |congruence|now rewrite A3, B3|now rewrite A2, B2].
    rewrite A6, B6, C2, C3. destruct (e_xmlns c'); [easy|]. destruct (e_prefix c') as [p|].
    + rewrite A5, B5, (Tc p), (St p). easy.
    + unfold inheritable. now rewrite Sp, Sx.
Qed.
Theorem stands_for_roots_fun pr el d d' : stands_for_roots pr el d -> stands_for_roots pr el d' -> doc_same d d'.
Proof.
  intros (H1 & H2 & q & ns & R & l & k & Kn & Ad & E) (H1' & H2' & q' & ns' & R' & l' & k' & Kn' & Ad' & E').
  split; [now apply declared_fun with pr|]. split; [now apply dtds_in_fun with pr|].
  destruct (roots_fun _ _ _ R _ _ R') as [S F]. pose proof (knit_near _ _ Kn _ _ F Kn') as Fl.
  rewrite E, E'. pose proof S as (S1 & S2 & S3 & S4 & _ & _). constructor; try easy. cbn [e_children set_children].
  clear Kn Kn' E E'. revert k k' Ad Ad'. induction Fl as [|n n' l l' Hn Fl IH]; intros k k' Ad Ad'; inversion Ad; inversion Ad'; subst; [constructor|].
  eapply (adopted_near q q'); [easy|exact Hn|easy|easy|now apply IH].
Qed.

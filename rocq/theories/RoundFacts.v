(** Writing a document and reading it back. *)
From Coq Require Import List NArith Arith Bool Ascii String Lia Permutation.
From Verif Require Import Base BaseFacts Escape Dom Spec EscapeFacts SpecDom DomFacts SpecApi ApiFacts SerFacts
  ParseTree SpecTree ParseTreeFacts Parse SpecLex SpecParse LexFacts ParseFacts DocFacts TagFacts AcceptFacts ParsedFacts
  NsFacts DocProps PosFacts PrologFacts RegexFacts SpecDoc PrintFacts PrintDoc FormFacts.
Import ListNotations.

(** * The source of an element written without any white space *)

Definition esc_attr (v : str) : str := flat_map (escape_char all_special) v.
Definition esc_text (v : str) : str := flat_map (escape_char text_special) v.
Definition attr_src (kv : str * str) : cattr := CAttr (lit " ") (fst kv) [] [] dquote (esc_attr (snd kv)).
Definition sorted_attrs (m : amap) : amap := sort_by attribute_order m.
Definition attrs_src (m : amap) : list cattr := map attr_src (sorted_attrs m).
Fixpoint item_src (e : elem) : citem :=
  match e with
  | mkElem _ ch at_ _ _ _ =>
      match ch with
      | [] => CEmpty (qualified e) (attrs_src at_) []
      | _ =>
          CElem (qualified e) (attrs_src at_) []
            ((fix go (t : str) (l : list node) {struct l} : cbody :=
                match l with
                | [] => BEnd t
                | NText s :: l' => go (t ++ esc_text s) l'
                | NElem c :: l' => BItem t (item_src c) (go [] l')
                | NComment c :: l' => BItem t (CComment c) (go [] l')
                | NCData c :: l' => BItem t (CCData c) (go [] l')
                end) [] ch) []
      end
  end.
Fixpoint body_src (t : str) (l : list node) : cbody :=
  match l with
  | [] => BEnd t
  | NText s :: l' => body_src (t ++ esc_text s) l'
  | NElem c :: l' => BItem t (item_src c) (body_src [] l')
  | NComment c :: l' => BItem t (CComment c) (body_src [] l')
  | NCData c :: l' => BItem t (CCData c) (body_src [] l')
  end.
Lemma item_src_eq e : item_src e =
  match e_children e with
  | [] => CEmpty (qualified e) (attrs_src (e_attributes e)) []
  | _ => CElem (qualified e) (attrs_src (e_attributes e)) [] (body_src [] (e_children e)) []
  end.
Proof.
  assert (G : forall l t, (fix go (t : str) (l : list node) {struct l} : cbody :=
                match l with
                | [] => BEnd t
                | NText s :: l' => go (t ++ esc_text s) l'
                | NElem c :: l' => BItem t (item_src c) (go [] l')
                | NComment c :: l' => BItem t (CComment c) (go [] l')
                | NCData c :: l' => BItem t (CCData c) (go [] l')
                end) t l = body_src t l).
  { induction l as [|[c|s|s|s] l IH]; intro t; cbn [body_src]; try rewrite IH; reflexivity. }
  destruct e as [nm ch at_ x p ctx]. cbn [item_src e_children e_attributes]. destruct ch; [easy|]. f_equal; try apply G.
Qed.

Lemma attr_src_text kv : attr_print (attr_src kv) = attr_text kv.
Proof. reflexivity. Qed.
Lemma attrs_src_text m : flat_map attr_print (attrs_src m) = flat_map attr_text (sorted_attrs m).
Proof. unfold attrs_src. induction (sorted_attrs m) as [|kv l IH]; [easy|]. cbn [map flat_map]. now rewrite IH, attr_src_text. Qed.
Lemma open_src e l close : attrs_in_order (e_attributes e) l ->
  SpecDom.opening e l close = lit "<" ++ head_print (qualified e) (attrs_src (e_attributes e)) ++ close.
Proof.
  intro H. apply attrs_in_order_unique in H. subst l. unfold SpecDom.opening, head_print. rewrite attrs_src_text, <- app_assoc. reflexivity.
Qed.

(** * Printing it *)

Lemma body_src_prefix : forall l t, body_print (body_src t l) = t ++ body_print (body_src [] l).
Proof.
  induction l as [|[c|s|s|s] l IH]; intro t; cbn [body_src body_print]; try easy.
  - now rewrite app_nil_r.
  - rewrite IH, (IH ([] ++ esc_text s)). cbn [app]. now rewrite app_assoc.
Qed.
Lemma inline_src :
  (forall e s, inline_elem e s -> s = item_print (item_src e)) /\
  (forall l s, inline_nodes l s -> s = body_print (body_src [] l)).
Proof.
  assert (H : (forall e s, inline_elem e s -> s = item_print (item_src e))).
  { apply (inline_elem_mut (fun e s => s = item_print (item_src e)) (fun l s => s = body_print (body_src [] l))).
    - intros e l Hl Hc. rewrite item_src_eq, Hc. cbn [item_print]. rewrite (open_src _ _ _ Hl). reflexivity.
    - intros e l s Hl Hc _ ->. rewrite item_src_eq. destruct (e_children e) as [|n ch] eqn:E; [easy|].
      rewrite (open_src _ _ _ Hl). cbn [item_print]. unfold SpecDom.closing. rewrite <- !app_assoc. reflexivity.
    - easy.
    - intros n s l r Hn _ ->. destruct n as [c|t|t|t]; cbn in Hn; subst; cbn [body_src body_print item_print app]; try easy.
      rewrite (body_src_prefix l (esc_text t)). easy.
    - intros e s l r _ -> _ ->. reflexivity. }
  split; [exact H|].
  intros l s Hl. induction Hl as [|n s l r Hn _ IH|e s l r He _ IH]; [easy| |].
  - rewrite IH. destruct n as [c|t|t|t]; cbn in Hn; subst; cbn [body_src body_print item_print app]; try easy.
    rewrite (body_src_prefix l (esc_text t)). easy.
  - rewrite IH, (H _ _ He). reflexivity.
Qed.

(** * It is well formed *)

Lemma ws_nil : ws [].
Proof. constructor. Qed.
Lemma sorted_in m kv : In kv (sorted_attrs m) <-> In kv m.
Proof. unfold sorted_attrs. split; intro H.
  - exact (Permutation_in _ (sort_by_perm _ _) H).
  - exact (Permutation_in _ (Permutation_sym (sort_by_perm _ _)) H). Qed.
(** Written and accepted again, if not read back the same. *)
Definition rereadable (set : list char) (t : str) : Prop := exists r, unescape (flat_map (escape_char set) t) = Ok r.
Lemma survives_rereadable set t : survives set t -> rereadable set t.
Proof. intro H. now exists t. Qed.
Inductive encodable : elem -> Prop :=
| en e :
    named (qualified e) (e_prefix e) (e_name e) ->
    (forall k v, In (k, v) (e_attributes e) -> plain_name k /\ rereadable all_special v) ->
    text_normal (e_children e) ->
    (forall t, In (NText t) (e_children e) -> t <> [] /\ rereadable text_special t) ->
    (forall c, In (NComment c) (e_children e) -> comment_wf c) ->
    (forall c, In (NCData c) (e_children e) -> cdata_wf c) ->
    (forall c, In (NElem c) (e_children e) -> encodable c) ->
    encodable e.
Lemma writable_encodable : forall e anc, writable anc e -> encodable e.
Proof.
  induction e as [e IH] using elem_ind'. intros anc W. inversion W as [? ? Hn Ha Hx Ht Htx Hc Hcd Hk]; subst. constructor; try easy.
  - intros k v H. split; [now apply (Ha k v)|]. apply survives_rereadable. now apply (Ha k v).
  - intros t H. split; [now apply Htx|]. apply survives_rereadable. now apply Htx.
  - intros c H. apply IH with (e :: anc); [easy|now apply Hk].
Qed.
Lemma attrs_src_wf m : (forall k v, In (k, v) m -> plain_name k /\ rereadable all_special v) -> attrs_wf (attrs_src m).
Proof.
  intro H. split.
  - apply Forall_forall. intros a Ha. unfold attrs_src in Ha. apply in_map_iff in Ha. destruct Ha as ([k v] & <- & Hi).
    apply (proj1 (sorted_in _ _)) in Hi. apply H in Hi. destruct Hi as [Hk Hv]. unfold attr_wf, attr_src. cbn [a_space a_key a_eq1 a_eq2 a_quote a_raw fst snd].
    split; [easy|]. split; [now repeat constructor|]. split; [easy|]. split; [apply ws_nil|]. split; [apply ws_nil|]. split; [now left|].
    split; [|exact Hv]. unfold esc_attr. apply esc_no_markup; [apply good_all|now do 4 right; left|discriminate].
  - unfold attrs_src. induction (sorted_attrs m) as [|kv l IH]; [constructor|]. cbn [map]. now apply gr_one.
Qed.
Lemma esc_text_wf s : rereadable text_special s -> text_wf (esc_text s).
Proof.
  intro H. split; [|right; exact H]. unfold no_tag, esc_text. apply esc_no_markup; [apply good_text|now right; left|discriminate].
Qed.
Lemma nil_text_wf : text_wf [].
Proof. split; [easy|left; apply ws_nil]. Qed.
Lemma no_adjacent_tail n l : no_adjacent_text (n :: l) -> no_adjacent_text l.
Proof. intros H a s t b ->. now apply (H (n :: a) s t b). Qed.
Lemma body_src_wf l : (forall c, In (NElem c) l -> item_wf (item_src c)) ->
  (forall t, In (NText t) l -> rereadable text_special t) ->
  (forall c, In (NComment c) l -> comment_wf c) -> (forall c, In (NCData c) l -> cdata_wf c) -> no_adjacent_text l ->
  forall t, text_wf t -> (starts_with_text l -> t = []) -> body_wf (body_src t l).
Proof.
  induction l as [|n l IH]; intros H1 H2 H3 H4 Ha t Ht Hs; [easy|].
  assert (R : forall t', text_wf t' -> (starts_with_text l -> t' = []) -> body_wf (body_src t' l)).
  { intros t' Ht' Hs'. apply IH; try easy; [intros c Hc; apply H1|intros c Hc; apply H2|intros c Hc; apply H3|intros c Hc; apply H4|]; try (now right).
    now apply no_adjacent_tail in Ha. }
  destruct n as [c|s|s|s]; cbn [body_src body_wf item_wf].
  - split; [easy|]. split; [apply H1; now left|]. now apply R; [apply nil_text_wf|].
  - rewrite Hs by now exists s, l. cbn [app]. apply R; [apply esc_text_wf, H2; now left|].
    intros (s' & r & ->). exfalso. now apply (Ha [] s s' r).
  - split; [easy|]. split; [apply H3; now left|]. now apply R; [apply nil_text_wf|].
  - split; [easy|]. split; [apply H4; now left|]. now apply R; [apply nil_text_wf|].
Qed.
Lemma item_src_wf : forall e, encodable e -> item_wf (item_src e).
Proof.
  induction e as [e IH] using elem_ind'. intros W. inversion W as [? Hn Ha Ht Htx Hc Hcd Hk]; subst.
  rewrite item_src_eq. pose proof (attrs_src_wf _ Ha) as Hw. destruct (e_children e) as [|n ch] eqn:E.
  - cbn. split; [eauto|]. split; [easy|apply ws_nil].
  - cbn [item_wf]. split; [eauto|]. split; [easy|]. split; [apply ws_nil|]. split; [|apply ws_nil].
    apply body_src_wf; try easy.
    + intros c Hi. apply IH; [easy|now apply Hk].
    + intros t Hi. now apply Htx.
    + now destruct Ht.
    + apply nil_text_wf.
Qed.

(** * Indented *)

Definition layout_only : freedom := Free false false true.
Lemma attrs_alike_refl f l : Forall2 (attr_alike f) l l.
Proof. induction l; constructor; [|easy]. repeat split; now right. Qed.
Lemma text_alike_refl f t : text_alike f t t.
Proof. now left. Qed.
Lemma alike_refl f : (forall i, item_alike f i i) /\ (forall b, body_alike f b b).
Proof.
  apply citem_ind2.
  - intros. apply al_empty; [apply attrs_alike_refl|now right].
  - intros. apply al_elem; [apply attrs_alike_refl|now right|easy|now right].
  - constructor.
  - constructor.
  - constructor. now left.
  - constructor; [now left|easy..].
Qed.
(** A text with the source it is the print of. *)
Definition laid (e : elem) (pre s : str) : Prop :=
  exists i, s = pre ++ item_print i /\ item_wf i /\ item_alike layout_only (item_src e) i.
Definition no_text (l : list node) : Prop := forall t, ~ In (NText t) l.
Lemma layout_src ind : ws ind -> forall pre e s, layout ind pre e s -> ws pre -> encodable e -> laid e pre s.
Proof.
  intro Hind.
  apply (layout_mut ind (fun pre e s => ws pre -> encodable e -> laid e pre s)
    (fun pre l s => ws pre -> no_text l -> (forall c, In (NElem c) l -> encodable c) ->
       (forall c, In (NComment c) l -> comment_wf c) -> (forall c, In (NCData c) l -> cdata_wf c) ->
       forall g z, ws g -> ws z -> exists b, g ++ s ++ z = body_print b /\ body_wf b /\ body_alike layout_only (body_src [] l) b)).
  - intros pre e s _ Hi Hp W. exists (item_src e). rewrite (proj1 inline_src _ _ Hi). split; [easy|].
    split; [now apply item_src_wf|apply alike_refl].
  - intros pre e l s Hi Hl _ IH Hp W. inversion W as [? Hn Ha Ht Htx Hc Hcd Hk]; subst.
    assert (Np : no_text (e_children e)) by (intros t Hin; apply Hi; right; left; now exists t).
    assert (Nc : e_children e <> []) by (intro E; apply Hi; now left).
    destruct (IH (proj2 (Forall_app _ _ _) (conj Hp Hind)) Np Hk Hc Hcd [10%N] pre) as (b & Eb & Wb & Ab).
    + now repeat constructor.
    + easy.
    + exists (CElem (qualified e) (attrs_src (e_attributes e)) [] b []). split; [|split].
      * rewrite (open_src _ _ _ Hl). cbn [item_print]. rewrite <- Eb. unfold SpecDom.closing. rewrite <- !app_assoc. reflexivity.
      * cbn [item_wf]. split; [eauto|]. split; [now apply attrs_src_wf|]. split; [apply ws_nil|]. split; [easy|apply ws_nil].
      * rewrite item_src_eq. destruct (e_children e) as [|n ch]; [easy|].
        apply al_elem; [apply attrs_alike_refl|now right|easy|now right].
  - intros pre Hp _ _ _ _ g z Hg Hz. exists (BEnd (g ++ z)). split; [easy|].
    assert (ws (g ++ z)) as Hw by now apply Forall_app. split.
    + split; [now apply ws_no_tag|now left].
    + constructor. right. split; [easy|]. split; [apply ws_nil|easy].
  - intros pre n s l r Hn _ IH Hp Np Hk Hc Hcd g z Hg Hz.
    destruct (IH Hp (fun t Hin => Np t (or_intror Hin)) (fun c Hin => Hk c (or_intror Hin)) (fun c Hin => Hc c (or_intror Hin))
      (fun c Hin => Hcd c (or_intror Hin)) [10%N] z) as (b & Eb & Wb & Ab); [now repeat constructor|easy|].
    assert (ws (g ++ pre)) as Hw by now apply Forall_app.
    assert (text_wf (g ++ pre)) as Hw' by (split; [now apply ws_no_tag|now left]).
    destruct n as [c|t|t|t]; cbn [leaf_text] in Hn; subst.
    + contradiction.
    + exfalso. apply (Np t). now left.
    + exists (BItem (g ++ pre) (CComment t) b). split; [|split].
      * cbn [body_print item_print]. rewrite <- Eb, <- !app_assoc. reflexivity.
      * cbn [body_wf item_wf]. split; [easy|]. split; [apply Hc; now left|easy].
      * cbn [body_src]. constructor; [right; now split; [|split; [apply ws_nil|]]|constructor|easy].
    + exists (BItem (g ++ pre) (CCData t) b). split; [|split].
      * cbn [body_print item_print]. rewrite <- Eb, <- !app_assoc. reflexivity.
      * cbn [body_wf item_wf]. split; [easy|]. split; [apply Hcd; now left|easy].
      * cbn [body_src]. constructor; [right; now split; [|split; [apply ws_nil|]]|constructor|easy].
  - intros pre e s l r _ IHe _ IH Hp Np Hk Hc Hcd g z Hg Hz.
    destruct (IH Hp (fun t Hin => Np t (or_intror Hin)) (fun c Hin => Hk c (or_intror Hin)) (fun c Hin => Hc c (or_intror Hin))
      (fun c Hin => Hcd c (or_intror Hin)) [10%N] z) as (b & Eb & Wb & Ab); [now repeat constructor|easy|].
    assert (ws (g ++ pre)) as Hw by now apply Forall_app.
    assert (text_wf (g ++ pre)) as Hw' by (split; [now apply ws_no_tag|now left]).
    destruct (IHe Hp (Hk e (or_introl eq_refl))) as (i & -> & Wi & Ai).
    exists (BItem (g ++ pre) i b). split; [|split].
    + cbn [body_print]. rewrite <- Eb, <- !app_assoc. reflexivity.
    + cbn [body_wf]. easy.
    + cbn [body_src]. constructor; [right; now split; [|split; [apply ws_nil|]]|easy|easy].
Qed.

(** * Reading it back *)

Definition head_like (a h : elem) : Prop :=
  e_prefix a = e_prefix h /\ e_xmlns a = e_xmlns h /\ forall k, get_attr a k = get_attr h k.
Lemma nearest_like k anc anc' : Forall2 head_like anc anc' -> nearest k anc = nearest k anc'.
Proof. induction 1 as [|a h anc anc' (_ & _ & H) _ IH]; [easy|]. cbn [nearest]. now rewrite H, IH. Qed.
Lemma parsed_scoped e h anc anc' : e_prefix e = e_prefix h -> (forall k, get_attr e k = get_attr h k) ->
  Forall2 head_like anc anc' -> parsed_ns h anc' = namespace_rule e anc.
Proof.
  intros Ep Ea L. unfold parsed_ns, namespace_rule. rewrite <- Ep. destruct (e_prefix e) as [p|].
  - rewrite <- !Ea, <- !(nearest_like _ _ _ L). easy.
  - rewrite <- Ea. destruct (get_attr e (lit "xmlns")) eqn:E; [easy|].
    destruct L as [|a q anc anc' (Lp & Lx & _) _]; [easy|]. now rewrite Lp, Lx.
Qed.
Lemma esc_text_not_ws s : s <> [] -> ~ blank s -> is_blank (esc_text s) = false.
Proof.
  intros H1 H2. apply is_blank_false. intro H. apply H2. split; [easy|]. unfold blank_or_empty in H.
  rewrite Forall_forall in *. intros c Hc.
  unfold esc_text in H. unfold escape_char in H.
  destruct (existsb (N.eqb c) text_special) eqn:E.
  - exfalso. assert (is_whitespace 38%N = true) as X; [|discriminate X]. apply H. apply in_flat_map. exists c. split; [easy|].
    rewrite E. apply existsb_exists in E. destruct E as (x & Hx & E). apply N.eqb_eq in E. subst x.
    cbn in Hx. repeat destruct Hx as [<-|Hx]; try contradiction; cbn; now left.
  - apply H. apply in_flat_map. exists c. split; [easy|]. rewrite E. now left.
Qed.
Lemma src_text s : s <> [] -> ~ blank s -> survives text_special s ->
  filter keep_node (map assemble (rt_text (esc_text s))) = [NText s].
Proof.
  intros H1 H2 H3. unfold rt_text. rewrite esc_text_not_ws by easy. cbn [map assemble filter keep_node].
  unfold value. change (unescape (esc_text s)) with (unescape (flat_map (escape_char text_special) s)). rewrite H3.
  apply not_blank in H2. now rewrite H2.
Qed.
Lemma src_bindings m : (forall k v, In (k, v) m -> plain_name k /\ survives all_special v) ->
  bindings (attrs_src m) = sorted_attrs m.
Proof.
  intro H. unfold attrs_src, bindings. rewrite map_map. rewrite <- (map_id (sorted_attrs m)) at 2. apply map_ext_in.
  intros [k v] Hi. apply (proj1 (sorted_in _ _)) in Hi. apply H in Hi. destruct Hi as [_ Hv].
  unfold attr_src. cbn [a_key a_raw fst snd]. unfold value, esc_attr. now rewrite Hv.
Qed.
Lemma aget_same m m' k : map_ok m -> Permutation m' m -> aget k m' = aget k m.
Proof.
  intros H P. assert (map_ok m') as H' by (unfold map_ok, akeys in *; eapply Permutation_NoDup; [apply Permutation_map, Permutation_sym, P|easy]).
  destruct (aget k m) as [v|] eqn:E.
  - apply in_aget; [easy|]. apply Permutation_in with m; [now apply Permutation_sym|]. now apply aget_in.
  - destruct (aget k m') as [v|] eqn:E'; [|easy]. exfalso. apply aget_in in E'.
    assert (In (k, v) m) as Hi by now apply Permutation_in with m'. apply in_aget in Hi; [congruence|easy].
Qed.

Definition above (top : option elem) (anc' : list elem) : Prop :=
  match top with None => anc' = [] | Some q => exists r, anc' = q :: r /\ scope_ok q r end.
Definition reads_back (top : option elem) (e : elem) : Prop :=
  exists e', assemble (rt_item top (item_src e)) = NElem e' /\ elem_same e' e.
Lemma nodes_back q l : (forall c, In (NElem c) l -> reads_back (Some q) c) ->
  (forall t, In (NText t) l -> t <> [] /\ survives text_special t) -> text_normal l ->
  nodes_same (filter keep_node (map assemble (rt_body (Some q) (body_src [] l)))) l /\
  (~ starts_with_text l -> forall s, s <> [] -> ~ blank s -> survives text_special s ->
   nodes_same (filter keep_node (map assemble (rt_body (Some q) (body_src (esc_text s) l)))) (NText s :: l)).
Proof.
  induction l as [|n l IH]; intros Hc Ht [Ha Hb].
  - cbn [body_src rt_body]. split; [constructor|]. intros _ s H1 H2 H3. rewrite src_text by easy. constructor; [easy|constructor].
  - destruct IH as [IH1 IH2].
    + intros c Hi. apply Hc. now right.
    + intros t Hi. apply Ht. now right.
    + split; [now apply no_adjacent_tail with n|]. intros s Hi. apply Hb. now right.
    + assert (K : forall i m, assemble (rt_item (Some q) i) = m -> (forall s, m <> NText s) -> forall t L r,
        nodes_same L r -> filter keep_node (map assemble (rt_body (Some q) (body_src [] l))) = L ->
        filter keep_node (map assemble (rt_body (Some q) (BItem t i (body_src [] l)))) =
        filter keep_node (map assemble (rt_text t)) ++ m :: L).
      { intros i m Em Nm t L r _ EL. cbn [rt_body]. rewrite !map_app, !filter_app. cbn [map filter]. rewrite Em, EL.
        destruct m as [c|s|s|s]; try easy. now destruct (Nm s). }
      destruct n as [c|s|s|s]; cbn [body_src].
      * destruct (Hc c (or_introl eq_refl)) as (e' & E & S). split.
        -- rewrite (K _ _ E ltac:(easy) [] _ _ IH1 eq_refl). cbn. now constructor.
        -- intros _ s H1 H2 H3. rewrite (K _ _ E ltac:(easy) (esc_text s) _ _ IH1 eq_refl), src_text by easy. cbn [app].
           constructor; [easy|]. now constructor.
      * destruct (Ht s (or_introl eq_refl)) as [N1 N2]. split.
        -- apply (IH2 ltac:(intros (s' & r & ->); now apply (Ha [] s s' r)) s N1 (Hb s (or_introl eq_refl)) N2).
        -- intro N. exfalso. apply N. now exists s, l.
      * split.
        -- rewrite (K (CComment s) (NComment s) eq_refl ltac:(easy) [] _ _ IH1 eq_refl). cbn. now constructor.
        -- intros _ s' H1 H2 H3. rewrite (K (CComment s) (NComment s) eq_refl ltac:(easy) (esc_text s') _ _ IH1 eq_refl), src_text by easy. cbn [app].
           constructor; [easy|]. now constructor.
      * split.
        -- rewrite (K (CCData s) (NCData s) eq_refl ltac:(easy) [] _ _ IH1 eq_refl). cbn. now constructor.
        -- intros _ s' H1 H2 H3. rewrite (K (CCData s) (NCData s) eq_refl ltac:(easy) (esc_text s') _ _ IH1 eq_refl), src_text by easy. cbn [app].
           constructor; [easy|]. now constructor.
Qed.
Lemma item_back : forall e, elem_ok e -> forall anc, writable anc e -> forall top anc', above top anc' ->
  Forall2 head_like anc anc' ->
  (top = None -> forall p, e_prefix e = Some p -> get_attr e (lit "xmlns:" ++ p) <> None) -> reads_back top e.
Proof.
  induction e as [e IH] using elem_ind'. intros Ho anc W top anc' Hab L Hr.
  pose proof (item_src_wf _ (writable_encodable _ _ W)) as Wi.
  inversion W as [? ? Hn Ha Hx Ht Htx Hc Hcd Hk]; subst.
  apply elem_ok_inv in Ho. destruct Ho as (Hm & _ & Hoc).
  set (l := attrs_src (e_attributes e)). set (h := head_elem top (qualified e) l).
  destruct (head_attrs top _ _ _ l Hn) as (Fa & Fp & Fn & Fc). fold h in Fa, Fp, Fn, Fc.
  assert (Pa : Permutation (e_attributes h) (e_attributes e)).
  { rewrite Fa. unfold l. rewrite src_bindings by easy. unfold set_all.
    rewrite fold_aset_id; [apply sort_by_perm|]. cbn [app]. unfold map_ok, akeys in Hm.
    eapply Permutation_NoDup; [apply Permutation_map, Permutation_sym, sort_by_perm|easy]. }
  assert (Ga : forall k, get_attr e k = get_attr h k).
  { intro k. unfold get_attr. symmetry. now apply aget_same. }
  assert (Hs : scope_ok h anc').
  { apply element_of_scope with top (head_print (qualified e) l).
    - unfold h. apply head_reads with (e_prefix e) (e_name e); [easy|apply attrs_src_wf; intros k v Hi; split; [now apply (Ha k v)|apply survives_rereadable; now apply (Ha k v)]|].
      intros -> p Ep. specialize (Hr eq_refl p Ep). rewrite Ga in Hr.
      rewrite <- bindings_keys. apply set_all_keys. rewrite <- Fa. unfold get_attr in Hr.
      destruct (aget (lit "xmlns:" ++ p) (e_attributes h)) eqn:E; [|easy]. apply aget_in in E. now apply (in_map fst) in E.
    - destruct top; exact Hab. }
  assert (Ex : e_xmlns h = e_xmlns e).
  { rewrite Hx. rewrite (proj1 (proj2 Hs)). now apply parsed_scoped. }
  assert (Hl : head_like e h) by (split; [easy|split; easy]).
  assert (S : forall cs, nodes_same cs (e_children e) -> elem_same (set_children h cs) e).
  { intros cs Hcs. constructor; cbn [set_children e_name e_xmlns e_prefix e_attributes e_children]; easy. }
  unfold reads_back. rewrite item_src_eq in *. fold l in Wi |- *.
  destruct (e_children e) as [|n ch] eqn:E.
  - cbn [rt_item assemble map]. fold h. eexists. split; [reflexivity|].
    rewrite build_sep; [|easy|intros a s t b Ea; destruct a; discriminate]. cbn [filter map]. apply S. constructor.
  - cbn [rt_item assemble]. fold h. eexists. split; [reflexivity|].
    rewrite build_sep; [|easy|apply spaced_no_adjacent, body_spaced].
    destruct Wi as (_ & _ & _ & Wb & _). destruct (proj2 items_meant _ Wb h) as [_ I]. rewrite filter_fixed by easy.
    apply S. rewrite <- E in *. apply nodes_back; [|easy..].
    intros c Hi. apply IH with (e :: anc) (h :: anc'); [easy|now apply Hoc|now apply Hk| |now constructor|easy].
    cbn [above]. eauto.
Qed.

(** * Documents *)

Definition doc_src (d : document) (i : citem) : source :=
  Source (option_map (fun x => ([], x)) (declaration d)) []
    (match declaration d with None => [] | Some _ => [10%N] end) i [10%N].
Lemma src_root_wf e i : named (qualified e) (e_prefix e) (e_name e) ->
  (forall p, e_prefix e = Some p -> get_attr e (lit "xmlns:" ++ p) <> None) ->
  item_alike layout_only (item_src e) i -> root_wf i.
Proof.
  intros Hn Hr A. rewrite item_src_eq in A. exists (qualified e).
  assert (K : forall l', Forall2 (attr_alike layout_only) (attrs_src (e_attributes e)) l' ->
    forall p n, named (qualified e) (Some p) n -> In (lit "xmlns:" ++ p) (map a_key l')).
  { intros l' Al p n Hp. destruct (named_fun _ _ _ _ _ Hn Hp) as [Ep _]. specialize (Hr p Ep).
    rewrite <- (alike_keys _ _ _ Al). unfold attrs_src. rewrite map_map. cbn [attr_src a_key].
    unfold get_attr in Hr. destruct (aget (lit "xmlns:" ++ p) (e_attributes e)) as [v|] eqn:E; [|easy]. apply aget_in in E.
    apply (proj2 (sorted_in _ _)) in E. apply in_map_iff. now exists (lit "xmlns:" ++ p, v). }
  destruct (e_children e); inversion A; subst; eexists; (split; [|apply K; eassumption]);
    first [left; eexists; reflexivity | right; do 3 eexists; reflexivity].
Qed.
Lemma good_indent_ws ind : good_indent ind -> ws ind.
Proof. intros [->|H]; [now repeat constructor|]. unfold ws. rewrite Forall_forall in *. intros c Hc. now rewrite (H c Hc). Qed.
Definition encodable_doc (d : document) : Prop :=
  elem_ok (root_element d) /\ doctype_defs d = [] /\
  (forall decl, declaration d = Some decl -> decl_wf decl) /\
  encodable (root_element d) /\
  (forall p, e_prefix (root_element d) = Some p -> get_attr (root_element d) (lit "xmlns:" ++ p) <> None).
Lemma writable_doc_encodable d : writable_doc d -> encodable_doc d.
Proof. intros (H1 & H2 & H3 & H4 & H5). do 3 (split; [easy|]). split; [now apply writable_encodable with []|easy]. Qed.
Lemma doc_printed d ind : encodable_doc d -> good_indent ind -> exists i,
  doc_to_string_with_indent d ind = source_print (doc_src d i) /\ source_wf (doc_src d i) /\
  item_alike layout_only (item_src (root_element d)) i.
Proof.
  intros (Ho & Hd & Hdecl & W & Hr) Hi. destruct (doc_layout d ind Ho Hi) as (s & Ls & E).
  destruct (layout_src ind (good_indent_ws _ Hi) _ _ _ Ls ws_nil W) as (i & Es & Wi & Ai). cbn [app] in Es. subst s.
  exists i. split; [|split; [|easy]].
  - rewrite E, Hd. unfold doc_src, source_print. cbn [x_decl x_prolog x_gap x_root x_after flat_map app].
    destruct (declaration d) as [x|]; cbn [option_map]; repeat (rewrite <- !app_assoc; cbn [app]); reflexivity.
  - unfold doc_src, source_wf. cbn [x_decl x_prolog x_gap x_root x_after].
    assert (named (qualified (root_element d)) (e_prefix (root_element d)) (e_name (root_element d))) as Hn by now inversion W.
    split; [|split; [constructor|split; [easy|split; [|split; [easy|split; [now apply src_root_wf with (root_element d)|]]]]]].
    + intros w x Ex. destruct (declaration d) as [y|]; [|discriminate]. injection Ex as <- <-. split; [apply ws_nil|now apply Hdecl].
    + destruct (declaration d); [now repeat constructor|apply ws_nil].
    + apply ws_no_tag. now repeat constructor.
Qed.
(** The document that is read back, the same for every indent. *)
Definition back (d : document) : document := document_of (doc_src d (item_src (root_element d))).
Theorem doc_read_back d ind : encodable_doc d -> parse_str (doc_to_string_with_indent d ind) = Ok (back d).
Proof.
  intro W. assert (G : forall ind, good_indent ind -> parse_str (doc_to_string_with_indent d ind) = Ok (back d)).
  { intros i Hi. destruct (doc_printed d i W Hi) as (x & -> & Wx & A). rewrite source_parsed by easy. f_equal.
    unfold back. symmetry. unfold document_of, doc_src, root_of. cbn [x_decl x_prolog x_root].
    now rewrite (proj1 (alike_items _) _ _ A). }
  destruct (validate_indent ind) eqn:V; [apply G; now apply validate_indent_spec|].
  apply validate_indent_false in V. rewrite doc_bad_indent by easy. apply G. right. now repeat constructor.
Qed.
Theorem back_same d : writable_doc d -> doc_same (back d) d.
Proof.
  intros (Ho & Hd & Hdecl & W & Hr). unfold back, document_of, doc_src, doc_same, root_of. cbn [d_declaration d_dtds d_root x_decl x_prolog x_root doctypes].
  split; [|split].
  - unfold declaration. now destruct (d_declaration d).
  - now rewrite <- Hd.
  - destruct (item_back _ Ho [] W None [] eq_refl (Forall2_nil _) (fun _ => Hr)) as (e' & E & S). now rewrite E.
Qed.

(** Proofs about trees with texts side by side, empty texts and blank texts. *)
From Coq Require Import List NArith Arith Bool Ascii String Lia Permutation.
From Verif Require Import Base BaseFacts Escape Dom Spec EscapeFacts SpecDom DomFacts SpecApi ApiFacts SerFacts
  ParseTree SpecTree ParseTreeFacts Parse SpecLex SpecParse LexFacts ParseFacts DocFacts TagFacts AcceptFacts ParsedFacts
  NsFacts DocProps PosFacts PrologFacts RegexFacts SpecDoc PrintFacts PrintDoc FormFacts RoundFacts TripFacts SpecMade MadeFacts MadeDoc P_Parse SpecWhite SpecSettle.
Import ListNotations.

Fixpoint row (t : str) (l : list node) {struct l} : list node :=
  match l with
  | [] => said t
  | NText s :: l' => row (t ++ s) l'
  | NElem c :: l' => said t ++ NElem (settled c) :: row [] l'
  | n :: l' => said t ++ n :: row [] l'
  end.
Lemma settled_eq e : settled e = mkElem (e_name e) (row [] (e_children e)) (e_attributes e) (e_xmlns e) (e_prefix e) (e_context e).
Proof.
  now destruct e.
Qed.
Lemma white_true t : white t = true <-> ws t.
Proof. unfold white, ws. rewrite forallb_forall, Forall_forall. reflexivity. Qed.
Lemma esc_text_app a b : esc_text (a ++ b) = esc_text a ++ esc_text b.
Proof. apply flat_map_app. Qed.
Lemma esc_text_ws t : ws t -> ws (esc_text t).
Proof.
  intro H. unfold ws in *. rewrite Forall_forall in *. intros c Hc. unfold esc_text in Hc. apply in_flat_map in Hc as (x & Hx & Hc).
  specialize (H x Hx). unfold escape_char in Hc. destruct (existsb (N.eqb x) text_special) eqn:E.
  - exfalso. apply existsb_exists in E as (y & Hy & E). apply N.eqb_eq in E. subst y.
    cbn in Hy. repeat destruct Hy as [<-|Hy]; try contradiction; discriminate H.
  - destruct Hc as [<-|[]]. exact H.
Qed.
Lemma row_cases t l : body_src [] (said t ++ l) = body_src (if white t then [] else esc_text t) l.
Proof. unfold said. destruct (white t); reflexivity. Qed.
Lemma settled_text t t' : esc_text t = t' \/ ws (esc_text t) /\ ws t' ->
  text_alike layout_only (if white t then [] else esc_text t) t' /\ (text_wf (if white t then [] else esc_text t) -> text_wf t').
Proof.
  intro H. destruct (white t) eqn:W.
  - apply white_true, esc_text_ws in W. assert (ws t') as W' by (destruct H as [<-|[_ H]]; assumption).
    split; [right; split; [reflexivity|split; [apply ws_nil|exact W']]|]. intros _. split; [now apply ws_no_tag|now left].
  - destruct H as [<-|[H H']]; [split; [now left|easy]|]. split; [right; now repeat split|]. intros _. split; [now apply ws_no_tag|now left].
Qed.
Definition settles (i i' : citem) : Prop := item_alike layout_only i i' /\ (item_wf i -> item_wf i').
Lemma settled_body l : (forall c, In (NElem c) l -> forall i, indents (item_src c) i -> settles (item_src (settled c)) i) ->
  forall t b, indents_body (body_src (esc_text t) l) b ->
  body_alike layout_only (body_src [] (row t l)) b /\ (body_wf (body_src [] (row t l)) -> body_wf b).
Proof.
  induction l as [|n l IH]; intros H t b I; cbn [row body_src] in *.
  - inversion I as [? t' T|]; subst. apply settled_text in T as [T1 T2]. rewrite <- (app_nil_r (said t)), row_cases. cbn [body_src body_wf].
    split; [now constructor|exact T2].
  - assert (H' : forall c, In (NElem c) l -> forall i, indents (item_src c) i -> settles (item_src (settled c)) i).
    { intros c Hc. apply H. now right. }
    specialize (IH H').
    assert (K : forall i i', indents_body (BItem (esc_text t) i (body_src [] l)) b ->
      (forall j, indents i j -> settles i' j) ->
      body_alike layout_only (BItem (if white t then [] else esc_text t) i' (body_src [] (row [] l))) b /\
      (body_wf (BItem (if white t then [] else esc_text t) i' (body_src [] (row [] l))) -> body_wf b)).
    { intros i i' J S. inversion J as [|? t' ? j ? b' T Ji Jb]; subst. apply settled_text in T as [T1 T2]. apply S in Ji as [A1 A2].
      destruct (IH [] b' Jb) as [B1 B2]. split; [now constructor|]. cbn [body_wf]. tauto. }
    destruct n as [c|s|s|s].
    + rewrite row_cases. cbn [body_src]. apply (K (item_src c)); [exact I|]. apply H. now left.
    + rewrite <- esc_text_app in I. now apply IH.
    + rewrite row_cases. cbn [body_src]. apply (K (CComment s)); [exact I|]. intros j J. inversion J; subst. split; [constructor|easy].
    + rewrite row_cases. cbn [body_src]. apply (K (CCData s)); [exact I|]. intros j J. inversion J; subst. split; [constructor|easy].
Qed.
Lemma settled_item : forall e i, indents (item_src e) i -> settles (item_src (settled e)) i.
Proof.
  induction e as [e IH] using elem_ind'. intros i I. rewrite (item_src_eq (settled e)). rewrite settled_eq.
  change (qualified {| e_name := e_name e; e_children := row [] (e_children e); e_attributes := e_attributes e; e_xmlns := e_xmlns e; e_prefix := e_prefix e; e_context := e_context e |}) with (qualified e).
  cbn [e_children e_attributes]. rewrite item_src_eq in I. destruct (e_children e) as [|n ch] eqn:E.
  - cbn [row said white forallb]. inversion I; subst. split; [apply alike_refl|easy].
  - inversion I as [|? ? ? ? b ? J| |]; subst. apply (settled_body (n :: ch) IH []) in J as [B1 B2].
    destruct (row [] (n :: ch)) as [|m r] eqn:R.
    + cbn [body_src] in B1, B2. inversion B1 as [? t' T|]; subst. split.
      * apply al_close; [reflexivity|apply attrs_alike_refl|]. destruct T as [<-|(_ & _ & T)]; [apply ws_nil|exact T].
      * cbn [item_wf]. intros (H1 & H2 & H3). split; [exact H1|]. split; [exact H2|]. split; [exact H3|]. split; [|apply ws_nil]. apply B2, nil_text_wf.
    + split.
      * apply al_elem; [apply attrs_alike_refl|now right|exact B1|now right].
      * cbn [item_wf]. tauto.
Qed.

(** * Documents *)

Theorem settled_read d ind : elem_ok (root_element d) -> encodable_doc (settled_doc d) ->
  parse_str (doc_to_string_with_indent d ind) = Ok (back (settled_doc d)).
Proof.
  intros Ho (_ & Hd & Hdecl & W & Hr). destruct (doc_written d ind Ho) as (i & I & E).
  destruct (settled_item _ _ I) as [A Wf]. change (declaration (settled_doc d)) with (declaration d) in *.
  change (doctype_defs (settled_doc d)) with (doctype_defs d) in Hd. change (root_element (settled_doc d)) with (settled (root_element d)) in *.
  assert (Ep : doc_to_string_with_indent d ind = source_print (doc_src d i)).
  { rewrite E, Hd. unfold doc_src, source_print. cbn [x_decl x_prolog x_gap x_root x_after flat_map app].
    destruct (declaration d) as [x|]; cbn [option_map decl_text]; repeat (rewrite <- !app_assoc; cbn [app]); reflexivity. }
  assert (Ws : source_wf (doc_src d i)).
  { unfold doc_src, source_wf. cbn [x_decl x_prolog x_gap x_root x_after].
    assert (named (qualified (settled (root_element d))) (e_prefix (settled (root_element d))) (e_name (settled (root_element d)))) as Hn by now inversion W.
    split; [|split; [constructor|split; [easy|split; [|split; [now apply Wf, item_src_wf|split; [now apply src_root_wf with (settled (root_element d))|]]]]]].
    + intros w x Ex. destruct (declaration d) as [y|]; [|discriminate]. injection Ex as <- <-. split; [apply ws_nil|now apply Hdecl].
    + destruct (declaration d); [now repeat constructor|apply ws_nil].
    + apply ws_no_tag. now repeat constructor. }
  rewrite Ep, source_parsed by easy. f_equal. unfold back, document_of, doc_src, root_of. cbn [x_decl x_prolog x_root].
  change (root_element (settled_doc d)) with (settled (root_element d)). now rewrite (proj1 (alike_items _) _ _ A).
Qed.
Lemma settled_attr e k : get_attr (settled e) k = get_attr e k.
Proof. now rewrite settled_eq. Qed.
(** What is in a settled row, and in what order. *)
Lemma said_in t n : In n (said t) -> n = NText t /\ white t = false.
Proof. unfold said. destruct (white t) eqn:W; [easy|]. intros [<-|[]]. easy. Qed.
Lemma row_in l : forall t n, In n (row t l) ->
  match n with
  | NElem c => exists c', In (NElem c') l /\ c = settled c'
  | NText s => white s = false
  | _ => In n l
  end.
Proof.
  induction l as [|m l IH]; intros t n Hn; cbn [row] in Hn.
  - apply said_in in Hn as [-> W]. exact W.
  - assert (L : forall m', In n (said t ++ m' :: row [] l) -> n = m' \/ (exists s, n = NText s /\ white s = false) \/ In n (row [] l)).
    { intros m' H. apply in_app_iff in H as [H|[<-|H]]; [|tauto|tauto]. apply said_in in H as [-> W]. right. left. eauto. }
    assert (R : In n (row [] l) -> match n with NElem c => exists c', In (NElem c') (m :: l) /\ c = settled c' | NText s => white s = false | _ => In n (m :: l) end).
    { intro H. apply IH in H. destruct n; [destruct H as (c' & H1 & H2); exists c'; split; [now right|easy]|easy|now right|now right]. }
    destruct m as [c|s|s|s].
    + apply L in Hn as [->|[(s & -> & W)|H]]; [exists c; split; [now left|easy]|easy|now apply R].
    + apply IH in Hn. destruct n; [destruct Hn as (c' & H1 & H2); exists c'; split; [now right|easy]|easy|now right|now right].
    + apply L in Hn as [->|[(x & -> & W)|H]]; [now left|easy|now apply R].
    + apply L in Hn as [->|[(x & -> & W)|H]]; [now left|easy|now apply R].
Qed.
Lemma nat_cons n l : no_adjacent_text l -> (forall s, n = NText s -> ~ starts_with_text l) -> no_adjacent_text (n :: l).
Proof.
  intros H1 H2 a s t b E. destruct a as [|m a]; cbn [app] in E; injection E as E1 E2.
  - apply (H2 s); [easy|]. rewrite E2. now exists t, b.
  - now apply (H1 a s t b).
Qed.
Lemma nat_said t l : no_adjacent_text l -> ~ starts_with_text l -> no_adjacent_text (said t ++ l).
Proof. intros H1 H2. unfold said. destruct (white t); [easy|]. cbn [app]. apply nat_cons; [easy|]. now intros. Qed.
Lemma row_apart l : forall t, no_adjacent_text (row t l).
Proof.
  assert (K : forall n r, (forall s, n <> NText s) -> no_adjacent_text r -> forall t, no_adjacent_text (said t ++ n :: r)).
  { intros n r Hn H t. apply nat_said; [apply nat_cons; [easy|]; intros s ->; now destruct (Hn s)|]. intros (s & x & E). injection E as E _. now destruct (Hn s). }
  induction l as [|n l IH]; intro t; cbn [row].
  - rewrite <- (app_nil_r (said t)). apply nat_said; [intros [|? [|? ?]] ? ? ?; discriminate|intros (? & ? & ?); discriminate].
  - destruct n; first [apply IH|apply K; [discriminate|apply IH]].
Qed.
Theorem settled_rest : forall e, at_rest (settled e).
Proof.
  induction e as [e IH] using elem_ind'. rewrite settled_eq. constructor; cbn [e_children].
  - apply row_apart.
  - intros t H. now apply row_in in H.
  - intros c H. apply row_in in H as (c' & H & ->). now apply IH.
Qed.
Lemma row_still l : (forall c, In (NElem c) l -> settled c = c) -> (forall t, In (NText t) l -> white t = false) -> no_adjacent_text l ->
  row [] l = l /\ forall t, white t = false -> ~ starts_with_text l -> row t l = NText t :: l.
Proof.
  induction l as [|n l IH]; intros H1 H2 H3.
  - split; [easy|]. intros t W _. cbn [row]. unfold said. now rewrite W.
  - destruct IH as [A B]; [intros c Hc; apply H1; now right|intros c Hc; apply H2; now right|now apply no_adjacent_tail in H3|].
    assert (S : forall t, white t = false -> said t = [NText t]) by (intros t W; unfold said; now rewrite W).
    destruct n as [c|s|s|s]; cbn [row].
    + rewrite H1 by now left. rewrite A. split; [easy|]. intros t W _. now rewrite S.
    + split; [|intros t _ N; destruct N; now exists s, l]. cbn [app]. apply B; [apply H2; now left|]. intros (s' & r & ->). now apply (H3 [] s s' r).
    + rewrite A. split; [easy|]. intros t W _. now rewrite S.
    + rewrite A. split; [easy|]. intros t W _. now rewrite S.
Qed.
Lemma rest_still : forall e, at_rest e -> settled e = e.
Proof.
  induction e as [e IH] using elem_ind'. intro R. inversion R as [x H1 H2 H3]; subst x. rewrite settled_eq.
  destruct (row_still (e_children e)) as [A _]; [intros c Hc; apply IH; auto|easy|easy|]. rewrite A. now destruct e.
Qed.
Theorem settled_still e : settled e = e <-> at_rest e.
Proof. split; [intros <-; apply settled_rest|apply rest_still]. Qed.
Lemma settled_ok : forall e, elem_ok e -> elem_ok (settled e).
Proof.
  induction e as [e IH] using elem_ind'. intro O. apply elem_ok_inv in O as (H1 & H2 & H3). rewrite settled_eq. constructor; cbn [e_attributes e_context e_children]; try easy.
  intros c H. apply row_in in H as (c' & H & ->). apply IH; auto.
Qed.
Lemma rest_normal : forall e, at_rest e -> tree_normal e.
Proof.
  induction e as [e IH] using elem_ind'. intro R. inversion R as [x H1 H2 H3]; subst x. constructor; [|intros c Hc; apply IH; auto].
  split; [easy|]. intros t Ht [_ B]. apply white_true in B. rewrite H2 in B; easy.
Qed.
Theorem settled_back d ind : elem_ok (root_element d) -> writable_doc (settled_doc d) ->
  exists d', parse_str (doc_to_string_with_indent d ind) = Ok d' /\ doc_eqb d' (settled_doc d) = true.
Proof.
  intros O W. exists (back (settled_doc d)). pose proof (settled_read d ind O (writable_doc_encodable _ W)) as P. split; [exact P|].
  apply doc_eqb_same; [|now destruct W|now apply back_same].
  apply elem_valid_ok. now apply (C48_parsed_valid _ _ P).
Qed.
(** Trees that compare equal are at rest together. *)
Lemma same_texts : forall e1 e2, elem_same e1 e2 -> at_rest e1 -> at_rest e2.
Proof.
  apply (elem_same_mut (fun e1 e2 => at_rest e1 -> at_rest e2)
    (fun l1 l2 => (starts_with_text l2 -> starts_with_text l1) /\ (no_adjacent_text l1 -> no_adjacent_text l2) /\
       ((forall c, In (NElem c) l1 -> at_rest c) -> forall c, In (NElem c) l2 -> at_rest c) /\
       forall t, In (NText t) l2 -> In (NText t) l1)).
  - intros e1 e2 _ _ _ _ _ (_ & A & B & C) R. inversion R as [x H1 H2 H3]; subst x. constructor; auto.
  - easy.
  - intros n l1 l2 Hn _ (S & A & B & C). split; [|split; [|split]].
    + intros (s & r & E). injection E as -> _. now exists s, l1.
    + intro N. apply nat_cons; [apply A; now apply no_adjacent_tail in N|]. intros s -> H. apply S in H as (t & r & ->). now apply (N [] s t r).
    + intros H c [Hc|Hc]; [now destruct (Hn c)|]. apply B; [intros y Hy; apply H; now right|easy].
    + intros t [->|Ht]; [now left|right; auto].
  - intros e1 e2 l1 l2 _ IH _ (S & A & B & C). split; [|split; [|split]].
    + intros (s & r & E). discriminate E.
    + intro N. apply nat_cons; [apply A; now apply no_adjacent_tail in N|]. discriminate.
    + intros H c [[= <-]|Hc]; [apply IH, H; now left|]. apply B; [intros y Hy; apply H; now right|easy].
    + intros t [E|Ht]; [discriminate|right; auto].
Qed.
Theorem settled_exact d ind d' : elem_ok (root_element d) -> writable_doc (settled_doc d) ->
  parse_str (doc_to_string_with_indent d ind) = Ok d' -> (doc_eqb d' d = true <-> at_rest (root_element d)).
Proof.
  intros O W P. destruct (settled_back d ind O W) as (d2 & P2 & E). rewrite P in P2. injection P2 as <-.
  pose proof (elem_valid_ok _ (proj1 (C48_parsed_valid _ _ P))) as O'. split.
  - intro Q. apply doc_eqb_same in Q; [|easy..]. apply doc_eqb_same in E; [|easy|now destruct W].
    destruct Q as (_ & _ & Q). destruct E as (_ & _ & E). apply (same_texts (d_root d')); [exact Q|].
    apply (same_texts (settled (d_root d))); [now apply elem_same_sym|apply settled_rest].
  - intro R. apply settled_still in R. unfold settled_doc in E. change (d_root d) with (root_element d) in E. rewrite R in E. now destruct d.
Qed.

(** * Programs *)

Lemma filled_joinable K : joinable (filled K) -> joinable K.
Proof.
  intros J s t Hs Ht. destruct s as [|a s]; [easy|]. destruct t as [|b t]; [now rewrite app_nil_r|]. now apply (J (a :: s) (b :: t)).
Qed.
Lemma settled_uses K : joinable (filled K) -> forall e, uses K e -> uses (filled K) (settled e).
Proof.
  intro J. pose proof (filled_joinable K J) as J'. induction e as [e IH] using elem_ind'. intro U. inversion U as [x U1 U2 U3 U4 U5 U6 U7]; subst x.
  rewrite settled_eq. constructor; cbn [e_name e_prefix e_xmlns e_attributes e_children]; try easy.
  - assert (G : forall l t, (forall s, In (NText s) l -> k_text K s) -> t = [] \/ k_text K t -> forall s, In (NText s) (row t l) -> k_text K s).
    { clear - J'. intro l. assert (Z : forall t s, t = [] \/ k_text K t -> In (NText s) (said t) -> k_text K s).
      { intros t s T Hs. apply said_in in Hs as [E W]. injection E as ->. destruct T as [->|T]; [discriminate W|exact T]. }
      induction l as [|n l IH]; intros t H T s Hs; cbn [row] in Hs; [now apply (Z t)|].
      assert (H' : forall s, In (NText s) l -> k_text K s) by (intros x Hx; apply H; now right).
      destruct n as [c|x|x|x].
      - apply in_app_iff in Hs as [Hs|[Hs|Hs]]; [now apply (Z t)|discriminate|]. apply (IH []); auto.
      - apply (IH (t ++ x)); [easy| |easy]. assert (k_text K x) as Hx by (apply H; now left). right. destruct T as [->|T]; [easy|now apply J'].
      - apply in_app_iff in Hs as [Hs|[Hs|Hs]]; [now apply (Z t)|discriminate|]. apply (IH []); auto.
      - apply in_app_iff in Hs as [Hs|[Hs|Hs]]; [now apply (Z t)|discriminate|]. apply (IH []); auto. }
    intros t Ht. split; [apply row_in in Ht; intros ->; discriminate Ht|]. apply (G (e_children e) []); auto.
  - intros c Hc. apply row_in in Hc. now apply U5.
  - intros c Hc. apply row_in in Hc. now apply U6.
  - intros c Hc. apply row_in in Hc as (c' & Hc & ->). apply IH; auto.
Qed.
Theorem settled_made K any d ind : ordinary (filled K) -> made K any (root_element d) -> declares_all K (root_element d) ->
  doctype_defs d = [] -> (forall decl, declaration d = Some decl -> decl_wf decl) ->
  exists d', parse_str (doc_to_string_with_indent d ind) = Ok d' /\ doc_eqb d' (settled_doc d) = true.
Proof.
  intros HK M D Dt Dc. pose proof (filled_joinable K (proj1 HK)) as J.
  apply is_made in M as (U & O & _); [|exact J|exact (ordinary_keys (filled K) HK)].
  apply settled_back; [easy|]. apply settled_uses in U; [|apply HK]. split; [now apply settled_ok|]. split; [easy|]. split; [easy|].
  change (root_element (settled_doc d)) with (settled (root_element d)).
  assert (D' : declares_all (filled K) (settled (root_element d))) by (intros q v H; rewrite settled_attr; now apply D).
  split.
  - apply (uses_writable (filled K) HK); [intros x [<-|[]]; exact U|exists (settled (root_element d)); split; [now left|exact D']|apply rest_normal, settled_rest].
  - intros p Hp. inversion U as [x _ [Hx Hp'] _ _ _ _ _]; subst x. rewrite Hp in *. destruct (e_xmlns (settled (root_element d))) as [v|]; [|now destruct Hp'].
    symmetry in Hx. apply D' in Hx. unfold declares in Hx. now rewrite Hx.
Qed.

(** * What is lost *)

Lemma said_other t l : filter (fun n => negb (Dom.is_text n)) (said t ++ l) = filter (fun n => negb (Dom.is_text n)) l.
Proof. unfold said. now destruct (white t). Qed.
Theorem settled_others e : filter (fun n => negb (Dom.is_text n)) (children (settled e)) = map settled_node (filter (fun n => negb (Dom.is_text n)) (children e)).
Proof.
  rewrite settled_eq. unfold children. cbn [e_children]. generalize (@nil char). induction (e_children e) as [|n l IH]; intro t; cbn [row].
  - rewrite <- (app_nil_r (said t)). now rewrite said_other.
  - destruct n as [c|s|s|s]; cbn [filter Dom.is_text negb]; rewrite ?said_other; cbn [filter Dom.is_text negb map settled_node]; rewrite ?IH; reflexivity.
Qed.
Lemma inked_app a b : inked (a ++ b) = inked a ++ inked b.
Proof. apply filter_app. Qed.
Lemma inked_ws t : white t = true -> inked t = [].
Proof. unfold white, inked. induction t as [|c t IH]; [easy|]. cbn [forallb filter]. intro H. apply andb_true_iff in H as [-> H]. now apply IH. Qed.
Lemma inked_said t : inked (flat_map text_of (said t)) = inked t.
Proof. unfold said. destruct (white t) eqn:W; [now rewrite (inked_ws t W)|]. cbn [flat_map text_of]. now rewrite app_nil_r. Qed.
Theorem settled_ink e : inked (flat_map text_of (children (settled e))) = inked (flat_map text_of (children e)).
Proof.
  rewrite settled_eq. unfold children. cbn [e_children]. enough (G : forall l t, inked (flat_map text_of (row t l)) = inked (t ++ flat_map text_of l)) by apply G.
  induction l as [|n l IH]; intro t; cbn [row flat_map].
  - rewrite app_nil_r. apply inked_said.
  - destruct n as [c|s|s|s]; cbn [text_of app]; try (rewrite flat_map_app, !inked_app, inked_said; f_equal; apply (IH [])).
    rewrite IH. now rewrite <- app_assoc.
Qed.

(** Characters of a parsed document: they come from the source or from its
    character references. *)
From Coq Require Import List NArith Arith Bool Ascii String Lia.
From Verif Require Import Base BaseFacts Escape Dom Spec EscapeFacts SpecDom DomFacts SpecApi ApiFacts
  ParseTree SpecTree ParseTreeFacts Parse SpecLex SpecParse LexFacts ParseFacts DocFacts TagFacts AcceptFacts ParsedFacts
  P_Parse SpecEsc UnescFacts Files SpecFiles SpecMore.
Import ListNotations.

Section Chars.
Variable P : char -> Prop.
Hypothesis refs : forall nm c, entity nm c -> chars P nm -> P c.
Notation C := (chars P).
Notation CM := (chars_map P).

Lemma replaced_chars t r : refs_replaced t r -> C t -> C r.
Proof.
  unfold chars. induction 1 as [t|a nm c b r H1 H2 IH]; [easy|]. intro H. apply IH.
  rewrite !Forall_app in H. destruct H as (A & _ & N & _ & B). rewrite !Forall_app. split; [easy|]. split; [|easy].
  constructor; [|constructor]. now apply refs in H1.
Qed.
Lemma unescape_chars t r : unescape t = Ok r -> C t -> C r.
Proof. intro H. apply replaced_chars. now apply unescape_replaced. Qed.

Lemma chars_app a b : C (a ++ b) <-> C a /\ C b.
Proof. apply Forall_app. Qed.
Lemma trim_chars s : C s -> C (trim s).
Proof.
  intro H. destruct (trim_spec s) as (w1 & w2 & E & _). rewrite E, !chars_app in H. apply H.
Qed.
Lemma slice_from_chars s i r : slice_from s i = Ok r -> C s -> C r.
Proof.
  unfold slice_from. destruct (bskip i s) as [x|] eqn:E; [|discriminate]. cbn. intro H. injection H as <-.
  apply bskip_inv in E. destruct E as (a & -> & _). now rewrite chars_app.
Qed.
Lemma slice_to_chars s i r : slice_to s i = Ok r -> C s -> C r.
Proof.
  unfold slice_to. destruct (btake i s) as [x|] eqn:E; [|discriminate]. cbn. intro H. injection H as <-.
  apply btake_inv in E. destruct E as (b & -> & _). now rewrite chars_app.
Qed.
Lemma strip_tag_chars t b : strip_tag t = Ok b -> C t -> C b.
Proof.
  unfold strip_tag. intros H Ht.
  apply bind_ok in H. destruct H as (x1 & E1 & H). assert (C x1) as H1.
  { destruct (starts_with _ t); [now apply slice_from_chars in E1|now injection E1 as <-]. }
  apply bind_ok in H. destruct H as (x2 & E2 & H). assert (C x2) as H2.
  { destruct (starts_with _ x1); [now apply slice_from_chars in E2|now injection E2 as <-]. }
  apply bind_ok in H. destruct H as (x3 & E3 & H). assert (C x3) as H3.
  { destruct (ends_with _ x2); [now apply slice_to_chars in E3|now injection E3 as <-]. }
  apply bind_ok in H. destruct H as (x4 & E4 & H). assert (C x4) as H4.
  { destruct (ends_with _ x3); [now apply slice_to_chars in E4|now injection E4 as <-]. }
  injection H as <-. now apply trim_chars.
Qed.
Lemma declaration_chars t d : declaration_from_str t = Ok d -> C t -> C d.
Proof.
  unfold declaration_from_str. intros H Ht. apply trim_chars in Ht. destruct (_ && _); [|discriminate].
  apply bind_ok in H. destruct H as (a & E & H). unfold unwrap in *.
  destruct (strip_prefix _ _) eqn:E1 in E; [|discriminate]. injection E as <-. apply strip_prefix_spec in E1.
  destruct (strip_suffix _ _) eqn:E2 in H; [|discriminate]. injection H as <-. apply strip_suffix_spec in E2.
  rewrite E1, E2, !chars_app in Ht. apply Ht.
Qed.
Lemma dtd_chars t d : dtd_from_string t = Ok d -> C t -> C d.
Proof.
  unfold dtd_from_string. intros H Ht. apply trim_chars in Ht. destruct (_ && _); [|discriminate].
  apply bind_ok in H. destruct H as (a & E & H). unfold unwrap in *.
  destruct (strip_prefix _ _) eqn:E1 in E; [|discriminate]. injection E as <-. apply strip_prefix_spec in E1.
  destruct (strip_suffix _ _) eqn:E2 in H; [|discriminate]. injection H as <-. apply strip_suffix_spec in E2.
  rewrite E1, E2, !chars_app in Ht. apply Ht.
Qed.

(** * Maps *)

Lemma in_aset k v a b m : In (k, v) (aset a b m) -> (k = a /\ v = b) \/ In (k, v) m.
Proof.
  induction m as [|[k0 v0] m IH]; cbn.
  - intros [E|[]]. injection E as <- <-. now left.
  - destruct (str_eqb a k0) eqn:E.
    + apply str_eqb_eq in E. subst k0. intros [E|H]; [injection E as <- <-; now left|]. right. now right.
    + intros [E'|H]; [right; now left|]. destruct (IH H); [now left|]. right. now right.
Qed.
Lemma aset_chars a b m : C a -> C b -> CM m -> CM (aset a b m).
Proof. intros Ha Hb Hm k v H. apply in_aset in H. destruct H as [[-> ->]|H]; [easy|now apply Hm]. Qed.
Lemma set_all_chars l : forall acc, (forall k v, In (k, v) l -> C k /\ C v) -> CM acc -> CM (set_all l acc).
Proof.
  induction l as [|[k v] l IH]; intros acc H Ha; [easy|]. cbn. apply IH.
  - intros k' v' Hi. apply H. now right.
  - destruct (H k v); [now left|]. now apply aset_chars.
Qed.
Lemma context_chars m : CM m -> CM (xmlns_context_from_attributes m).
Proof.
  unfold xmlns_context_from_attributes. intro H.
  assert (G : forall l acc, (forall k v, In (k, v) l -> C k /\ C v) -> CM acc -> CM (fold_left xmlns_context_step l acc)).
  { induction l as [|[k v] l IH]; intros acc Hl Ha; [easy|]. cbn [fold_left]. apply IH; [intros k' v' Hi; apply Hl; now right|].
    unfold xmlns_context_step. cbn [fst snd]. destruct (starts_with _ k); [|easy].
    destruct (split_once cColon k) as [[a b]|] eqn:E; [|easy]. apply split_once_some in E. destruct E as [E _].
    destruct (Hl k v) as [Hk Hv]; [now left|]. rewrite E in Hk. apply chars_app in Hk. destruct Hk as [_ Hk].
    apply Forall_cons_iff in Hk. now apply aset_chars. }
  apply G; [exact H|easy].
Qed.
Lemma inherit_chars p : forall c, CM c -> CM p -> CM (inherit_context c p).
Proof.
  unfold inherit_context. induction p as [|[k v] p IH]; intros c Hc Hp; [easy|]. cbn [fold_left]. apply IH.
  - unfold inherit_step. cbn [fst snd]. destruct (ahas k c); [easy|]. destruct (Hp k v); [now left|]. now apply aset_chars.
  - intros k' v' H. apply Hp. now right.
Qed.
Lemma aget_chars k m : CM m -> chars_opt P (aget k m).
Proof. intros H v E. apply aget_in in E. now apply H in E. Qed.

(** * Elements *)

Lemma join_chars_n (n : nat) : forall comps, (List.length comps <= n)%nat -> Forall C comps -> Forall C (join_loop comps).
Proof.
  induction n as [|n IH]; intros comps L H; [now destruct comps|].
  destruct comps as [|c1 [|c2 r2]]; [easy|easy|].
  cbn [join_loop]. apply Forall_cons_iff in H. destruct H as [H1 H]. pose proof H as H'.
  apply Forall_cons_iff in H. destruct H as [H2 H].
  assert (C (c1 ++ c2)) as H12 by now rewrite chars_app.
  destruct (should_join c1 c2).
  - destruct r2 as [|c3 r3]; [now constructor|]. pose proof H as H''. apply Forall_cons_iff in H. destruct H as [H3 H].
    destruct (should_join (c1 ++ c2) c3).
    + constructor; [rewrite !chars_app; easy|]. apply IH; [cbn in L; lia|easy].
    + constructor; [easy|]. apply (IH (c3 :: r3)); [cbn in *; lia|easy].
  - constructor; [easy|]. apply (IH (c2 :: r2)); [cbn in *; lia|easy].
Qed.
Lemma words_chars b l : words b l -> C b -> Forall C l.
Proof.
  induction 1 as [w Hw|w c Hw Hc Hs|w c x s l Hw Hc Hs Hq Hx W IH]; intro H; [constructor| |].
  - constructor; [|constructor]. now rewrite chars_app in H.
  - rewrite !chars_app in H. destruct H as (_ & H1 & H2). constructor; [easy|now apply IH].
Qed.
Lemma reads_chars comps l : reads_attrs comps l -> Forall C comps -> forall k v, In (k, v) l -> C k /\ C v.
Proof.
  induction 1 as [|k q u v comps l Hk Hq U R IH]; intros H k' v' Hi; [easy|].
  apply Forall_cons_iff in H. destruct H as [H1 H2]. destruct Hi as [E|Hi]; [|now apply IH].
  injection E as <- <-. rewrite !chars_app in H1. destruct H1 as (H0 & _ & _ & Hu & _). split; [easy|].
  now apply unescape_chars in U.
Qed.
Lemma none_chars : chars_opt P None.
Proof. easy. Qed.
Lemma some_chars s : C s -> chars_opt P (Some s).
Proof. intros H x E. now injection E as <-. Qed.
Lemma head_chars nm ch at_ x p ctx : chars_elem P (mkElem nm ch at_ x p ctx) ->
  C nm /\ chars_opt P p /\ chars_opt P x /\ CM at_ /\ CM ctx.
Proof. intro H. inversion H; subst. cbn in *. easy. Qed.
Lemma adopt_chars top e : (forall t, top = Some t -> chars_elem P t) -> chars_elem P e -> chars_elem P (adopt_opt top e).
Proof.
  destruct top as [t|]; [|easy]. intros Ht He. specialize (Ht t eq_refl). cbn.
  destruct t as [nm0 ch0 at0 x0 p0 ctx0]. apply head_chars in Ht. destruct Ht as (T1 & T2 & T3 & T4 & T5).
  unfold default_namespace, set_namespace_context. cbn.
  assert (D : chars_opt P (match p0 with None => x0 | Some _ => None end)) by now destruct p0.
  generalize dependent (match p0 with None => x0 | Some _ => None end). intros df D.
  destruct e as [nm ch at_ x p ctx]. inversion He as [? E1 E2 E3 E4 E5 E6 E7]; subst. cbn in *.
  assert (I : CM (inherit_context ctx ctx0)) by now apply inherit_chars.
  assert (G : forall x', chars_opt P x' -> chars_elem P (mkElem nm ch at_ x' p (inherit_context ctx ctx0))).
  { intros x' Hx'. now constructor. }
  destruct p as [p|]; cbn.
  - destruct x as [x|]; cbn; [now apply G|]. apply G. now apply aget_chars.
  - destruct x as [x|]; cbn; [now apply G|]. destruct df as [df|]; cbn; now apply G.
Qed.
Lemma element_of_chars top b e : element_of top b = Ok e -> C b -> (forall t, top = Some t -> chars_elem P t) -> chars_elem P e.
Proof.
  intros H Hb Ht. apply element_of_spec in H. destruct H as (nm & comps & l & prefix & local & W & R & Q & _ & _ & _ & ->).
  apply adopt_chars; [easy|].
  apply words_chars in W; [|easy]. apply Forall_cons_iff in W. destruct W as [Wn Wc].
  assert (Hl : forall k v, In (k, v) l -> C k /\ C v).
  { apply (reads_chars _ _ R). apply (join_chars_n (List.length comps)); [lia|easy]. }
  assert (Hm : CM (set_all l [])) by (apply set_all_chars; easy).
  assert (Hq : C local /\ chars_opt P prefix).
  { destruct Q as [n H|p n H]; [split; [easy|apply none_chars]|]. rewrite !chars_app in Wn. split; [easy|now apply some_chars]. }
  destruct Hq as [Hlo Hp].
  assert (Hx : chars_opt P (explicit_ns top (set_all l []) prefix)).
  { unfold explicit_ns. destruct prefix as [p|]; [|easy].
    destruct (aget _ (set_all l [])) eqn:G; [rewrite <- G; now apply aget_chars|].
    destruct top as [t|]; [|easy]. apply aget_chars. now destruct (Ht t eq_refl). }
  unfold bare. constructor; cbn; try easy.
  - unfold new_xmlns. destruct (explicit_ns _ _ _); [easy|]. destruct prefix; now apply aget_chars.
  - now apply context_chars.
  - intros t [[]|[[]|[]]].
Qed.

(** * Trees *)

Definition chars_node (n : node) : Prop :=
  match n with NElem e => chars_elem P e | NText s | NComment s | NCData s => C s end.
Lemma chars_children e : chars_elem P e -> forall n, In n (e_children e) -> chars_node n.
Proof. intros H n Hi. inversion H; subst. destruct n; cbn; auto. Qed.
Lemma chars_set_children e l : chars_elem P e -> (forall n, In n l -> chars_node n) -> chars_elem P (set_children e l).
Proof.
  intros H Hl. inversion H; subst. constructor; cbn; try easy.
  - intros t [Hi|[Hi|Hi]]; now apply Hl in Hi.
  - intros c Hi. now apply Hl in Hi.
Qed.
Lemma merge_chars l : (forall n, In n l -> chars_node n) -> forall n, In n (merge_text l) -> chars_node n.
Proof.
  induction l as [|m l IH]; intros H n Hi; [easy|].
  assert (H1 : chars_node m) by (apply H; now left).
  assert (H2 : forall x, In x (merge_text l) -> chars_node x) by (apply IH; intros x Hx; apply H; now right).
  clear IH H. cbn in Hi. fold (merge_text l) in Hi. unfold merge1 in Hi.
  destruct m as [c|s|s|s]; try (destruct Hi as [<-|Hi]; [easy|now apply H2]).
  destruct (merge_text l) as [|[c|s'|s'|s'] r]; try (destruct Hi as [<-|Hi]; [easy|now apply H2]).
  destruct Hi as [<-|Hi]; [|apply H2; now right]. cbn. apply chars_app. split; [easy|]. apply (H2 (NText s')). now left.
Qed.
Lemma clean_chars l : (forall n, In n l -> chars_node n) -> forall n, In n (clean l) -> chars_node n.
Proof. intros H n Hi. apply filter_In in Hi. now apply (merge_chars l). Qed.
Lemma inherited_chars e n : chars_elem P e -> chars_node n -> chars_node (inherited e n).
Proof.
  intros He Hn. destruct n as [c|s|s|s]; try easy. rewrite <- adopt_opt_inherited. cbn [chars_node].
  apply adopt_chars; [|easy]. intros t E. now injection E as <-.
Qed.
Lemma build_chars e ns : chars_elem P e -> (forall n, In n ns -> chars_node n) -> chars_elem P (build e ns).
Proof.
  intros He Hn. unfold build, gather.
  assert (G : forall ms e, chars_elem P e -> (forall n, In n ms -> chars_node n) -> chars_elem P (fold_left adopt1 ms e)).
  { induction ms as [|m ms IH]; intros a Ha Hm; [easy|]. cbn [fold_left]. apply IH; [|intros x Hx; apply Hm; now right].
    unfold adopt1. apply chars_set_children; [easy|]. apply clean_chars. intros n Hi. apply in_app_or in Hi.
    destruct Hi as [Hi|[<-|[]]]; [now apply (chars_children a)|]. apply inherited_chars; [easy|]. apply Hm. now left. }
  assert (H : chars_elem P (fold_left adopt1 (rev ns) e)) by (apply G; [easy|intros n Hi; apply Hn; now apply in_rev]).
  unfold reverse_children. apply chars_set_children; [easy|]. intros n Hi. apply in_rev in Hi. now apply (chars_children _ H).
Qed.
Inductive rt_chars : rtree -> Prop :=
| rtc v ks : chars_node v -> (forall k, In k ks -> rt_chars k) -> rt_chars (RT v ks).
Lemma assemble_chars : forall k, rt_chars k -> chars_node (assemble k).
Proof.
  induction k as [v ks IH] using rtree_ind'. intro H. inversion H as [v' ks' Hv Hk]; subst.
  destruct v as [e|s|s|s]; try exact Hv. cbn. apply build_chars; [exact Hv|]. intros n Hi. apply in_map_iff in Hi.
  destruct Hi as (k & <- & Hi). apply IH; [easy|now apply Hk].
Qed.

(** * Parsing *)

Definition frame_chars (x : elem * list rtree) : Prop := chars_elem P (fst x) /\ forall k, In k (snd x) -> rt_chars k.
Definition m_chars (m : machine) : Prop :=
  match m with
  | MNew => True
  | MOpen e ks outer => frame_chars (e, ks) /\ Forall frame_chars outer
  | MDone e ks => frame_chars (e, ks)
  end.
Definition op_chars (op : pt_op) : Prop :=
  match op with OpAppend n => chars_node n | OpPush e => chars_elem P e | OpPop => True end.
Lemma do_chars m op m' : m_chars m -> op_chars op -> m_do m op = Some m' -> m_chars m'.
Proof.
  intros V O D.
  assert (App : forall e ks outer k, m_chars (MOpen e ks outer) -> rt_chars k -> m_chars (MOpen e (ks ++ [k]) outer)).
  { intros e ks outer k [[V1 V2] V3] Hk. split; [|easy]. split; [easy|]. cbn. intros k' Hk'. apply in_app_or in Hk'.
    destruct Hk' as [Hk'|[<-|[]]]; [now apply V2|easy]. }
  destruct op as [e|n|]; cbn in O.
  - destruct m as [|a ks outer|a ks]; cbn in D; injection D as <-.
    + split; [split; [easy|easy]|constructor].
    + destruct V as [V1 V2]. split; [split; [easy|easy]|now constructor].
    + split; [|constructor]. split; [easy|apply V].
  - destruct m as [|a ks outer|a ks]; try discriminate. cbn in D. injection D as <-. apply App; [easy|]. now constructor.
  - destruct m as [|a' ks [|[a1 ks1] outer]|a' ks]; try discriminate; cbn in D; injection D as <-.
    + apply V.
    + destruct V as [V1 V2]. apply Forall_cons_iff in V2. destruct V2 as [V2 V3].
      apply App; [split; [exact V2|exact V3]|]. destruct V1. now constructor.
Qed.
Lemma top_chars m : m_chars m -> forall t, m_top m = Some t -> chars_elem P t.
Proof.
  destruct m as [|e ks outer|e ks]; cbn; intros H t E; try discriminate; injection E as <-; apply H.
Qed.
Lemma feeds_chars m toks m' : feeds m toks m' -> Forall (fun x => C (fst x) /\ C (snd x)) toks -> m_chars m -> m_chars m'.
Proof.
  induction 1 as [m|m txt t toks m1 m2 m' X G F IH]; intros H V; [easy|].
  apply Forall_cons_iff in H. destruct H as [[H1 H2] H]. cbn in H1, H2. apply IH; [easy|].
  assert (V1 : m_chars m1).
  { destruct X as [T|op m0 T D]; [easy|]. apply (do_chars m op); [easy| |easy]. inversion T as [|x v B U]; subst. cbn.
    now apply unescape_chars in U. }
  destruct G as [op m0 T D]. apply (do_chars m1 op); [easy| |easy].
  destruct T as [c Hc|c Hc|t b a N1 N2 S K Ht Hb|t b e N1 N2 S K E Z|t b e N1 N2 S K E Z]; cbn.
  - rewrite !chars_app in H2. apply H2.
  - rewrite !chars_app in H2. apply H2.
  - easy.
  - apply (element_of_chars (m_top m1) b); [easy|now apply strip_tag_chars in S|now apply top_chars].
  - apply (element_of_chars (m_top m1) b); [easy|now apply strip_tag_chars in S|now apply top_chars].
Qed.
Lemma lexed_chars s toks tail : lexed s toks tail -> C s -> Forall (fun x => C (fst x) /\ C (snd x)) toks /\ C tail.
Proof.
  intros L H. apply lexed_flatten in L. subst s. apply chars_app in H. destruct H as [H Ht]. split; [|easy].
  apply Forall_forall. intros [a b] Hi. apply in_split in Hi. destruct Hi as (l1 & l2 & ->).
  unfold flatten in H. rewrite flat_map_app in H. cbn in H. rewrite !chars_app in H. cbn. easy.
Qed.
Lemma prolog_chars st p n decl dtds toks decl' dtds' : prolog st p n decl dtds toks decl' dtds' ->
  Forall (fun x => C (fst x) /\ C (snd x)) toks -> chars_opt P decl -> Forall C dtds ->
  chars_opt P decl' /\ Forall C dtds'.
Proof.
  intro H. induction H as [| ? ? ? ? ? t ? d ? ? B1 B2 B3 Q IH | ? ? ? ? ? ? ? ? ? ? B1 B2 B3 Q IH | ? ? ? ? ? ? t ? d ? ? B1 B2 B3 Q IH | ? ? ? ? ? ? ? ? ? ? B1 B2 B3 B4 Q IH];
    intros F H1 H2; [easy|..]; apply Forall_cons_iff in F; destruct F as [[F1 F2] F]; cbn in F1, F2; apply IH; try easy.
  - apply some_chars. now apply declaration_chars in B3.
  - apply Forall_app. split; [easy|]. constructor; [|constructor]. now apply dtd_chars in B3.
Qed.

Theorem parsed_chars s d : C s -> parse_str s = Ok d -> chars_doc P d.
Proof.
  intros Hs H. apply parsed_accepts in H.
  destruct H as [toks txt root rest decl dtds b e body tail m r ks L Pr B R S E Sp H1 H2 Hm].
  apply lexed_chars in L; [|easy]. destruct L as [L Lr]. apply Forall_app in L. destruct L as [L Ll].
  apply Forall_cons_iff in Ll. destruct Ll as [[Lt Lroot] _]. cbn in Lt, Lroot.
  destruct (prolog_chars _ _ _ _ _ _ _ _ Pr L) as [D1 D2]; [easy|constructor|].
  assert (Hb : C b) by now apply strip_tag_chars in S.
  assert (He : chars_elem P e) by now apply (element_of_chars None b).
  assert (V : m_chars (MDone r ks)).
  { destruct (ends_with (lit "/>") root) eqn:Ez.
    - apply ends_spec in Ez. destruct (H1 Ez) as [_ Em]. rewrite Hm in Em. injection Em as -> ->. now split.
    - assert (Z : ~ ends (lit "/>") root).
      { intros [y Hy]. now apply (proj1 (ends_with_false _ _) Ez y). }
      specialize (H2 Z). subst m. destruct Sp as [Lb _]. apply lexed_chars in Lb; [|easy].
      apply (feeds_chars _ _ _ H2); [apply Lb|]. split; [split; [easy|easy]|constructor]. }
  destruct V as [V1 V2]. split; [exact D1|]. split; [exact D2|]. cbn.
  apply build_chars; [exact V1|]. intros n Hi. apply in_map_iff in Hi. destruct Hi as (k & <- & Hi).
  apply assemble_chars. now apply V2.
Qed.
End Chars.

(** Written documents are XML. *)
From Coq Require Import List NArith Arith Bool Ascii String Lia Permutation.
From Verif Require Import Base BaseFacts Escape Dom Spec EscapeFacts SpecDom DomFacts SerFacts SpecLex SpecParse SpecDoc RoundFacts SpecXml XmlFacts.
Import ListNotations.

(** * Escaped text *)

Definition escaped (set : list char) (c : char) : piece :=
  if existsb (N.eqb c) set
  then match find (fun nc => (snd nc =? c)%N) predefined with
       | Some (nm, _) => Ent nm
       | None => Chr c
       end
  else Chr c.
Definition escapes (set : list char) (s : str) : list piece := map (escaped set) s.
Lemma escapes_text set s : pieces_text (escapes set s) = flat_map (escape_char set) s.
Proof.
  induction s as [|c s IH]; [easy|]. cbn [escapes map pieces_text flat_map]. fold (escapes set s). unfold pieces_text in IH. rewrite IH. f_equal.
  unfold escaped, escape_char. destruct (existsb (N.eqb c) set); [|easy]. now destruct (find (fun nc => (snd nc =? c)%N) predefined) as [[nm x]|].
Qed.
Lemma escaped_said set c : said (escaped set c) = [c].
Proof.
  unfold escaped. destruct (existsb (N.eqb c) set); [|easy]. destruct (find (fun nc => (snd nc =? c)%N) predefined) as [[nm x]|] eqn:E; [|easy].
  apply find_some in E. destruct E as [I E]. cbn [snd] in E. apply N.eqb_eq in E. subst x. cbn in I.
  destruct I as [I|[I|[I|[I|[I|[]]]]]]; injection I as <- <-; reflexivity.
Qed.
Lemma escapes_said set s : flat_map said (escapes set s) = s.
Proof.
  induction s as [|c s IH]; [easy|]. cbn [escapes map flat_map]. fold (escapes set s). now rewrite escaped_said, IH.
Qed.
Lemma escaped_chr set c x : escaped set c = Chr x -> x = c.
Proof.
  unfold escaped. destruct (existsb (N.eqb c) set); [|congruence]. destruct (find (fun nc => (snd nc =? c)%N) predefined) as [[nm y]|]; [easy|congruence].
Qed.
Lemma escapes_chr set s x : In (Chr x) (escapes set s) -> In x s.
Proof. intro I. apply in_map_iff in I. destruct I as (c & E & I). apply escaped_chr in E. now subst x. Qed.
Lemma escaped_special set c : In c set -> (exists nm, In (nm, c) predefined) -> forall x, escaped set c <> Chr x.
Proof.
  intros I (nm & P) x. unfold escaped.
  replace (existsb (N.eqb c) set) with true by (symmetry; apply existsb_exists; exists c; now rewrite N.eqb_refl).
  destruct (find (fun nc => (snd nc =? c)%N) predefined) as [[nm' y]|] eqn:E; [easy|]. exfalso.
  apply find_none with (x := (nm, c)) in E; [|easy]. cbn in E. now rewrite N.eqb_refl in E.
Qed.
Definition all_predefined (set : list char) : Prop := forall c, In c set -> exists nm, In (nm, c) predefined.
Lemma text_predefined : all_predefined text_special.
Proof. intros c [<-|[<-|[<-|[]]]]; eexists; cbn; eauto 6. Qed.
Lemma all_predefined_all : all_predefined all_special.
Proof. intros c [<-|[<-|[<-|[<-|[<-|[]]]]]]; eexists; cbn; eauto 8. Qed.
Lemma escapes_special set s c : all_predefined set -> In c set -> ~ In (Chr c) (escapes set s).
Proof.
  intros P H I. apply in_map_iff in I. destruct I as (d & E & I). pose proof (escaped_chr _ _ _ E). subst d.
  now apply (escaped_special set c H (P c H) c).
Qed.
Lemma escaped_ref set c : reference_ok (escaped set c).
Proof.
  unfold escaped. destruct (existsb (N.eqb c) set); [|easy]. destruct (find (fun nc => (snd nc =? c)%N) predefined) as [[nm x]|] eqn:E; [|easy].
  apply find_some in E. destruct E as [I _]. cbn in I.
  assert (X : forall c, (32 <= c <= 55295)%N -> xml_char c) by apply small_char.
  destruct I as [I|[I|[I|[I|[I|[]]]]]]; injection I as <- <-; (eexists; split; [vm_compute; reflexivity|apply X; lia]).
Qed.
Lemma escapes_ok set bad s : all_predefined set -> incl bad set -> Forall xml_char s ->
  Forall (fun p => reference_ok p /\ forall c, p = Chr c -> xml_char c /\ ~ In c bad) (escapes set s).
Proof.
  intros P B H. rewrite Forall_forall in *. intros p I. pose proof I as J. apply in_map_iff in J. destruct J as (c & <- & J).
  split; [apply escaped_ref|]. intros x E. split; [rewrite (escaped_chr _ _ _ E); now apply H|].
  intro K. apply B in K. apply (escapes_special set s x P K). rewrite <- E. exact I.
Qed.
Lemma escapes_no_char set s x : all_predefined set -> In x set -> ~ In x (flat_map (fun nc => lit "&" ++ fst nc ++ lit ";") predefined) ->
  ~ In x (pieces_text (escapes set s)).
Proof.
  intros P H K I. unfold pieces_text in I. apply in_flat_map in I. destruct I as (p & Ip & I). pose proof Ip as J. apply in_map_iff in J.
  destruct J as (c & E & J). destruct p as [y|nm|ds|ds].
  - cbn in I. destruct I as [->|[]]. now apply (escapes_special set s x P H).
  - apply K. unfold escaped in E. destruct (existsb (N.eqb c) set); [|discriminate]. destruct (find (fun nc => (snd nc =? c)%N) predefined) as [[nm' z]|] eqn:F; [|discriminate].
    injection E as ->. apply find_some in F. apply in_flat_map. exists (nm, z). split; [now destruct F|exact I].
  - unfold escaped in E. destruct (existsb (N.eqb c) set); [|discriminate]. destruct (find (fun nc => (snd nc =? c)%N) predefined) as [[nm' z]|]; discriminate.
  - unfold escaped in E. destruct (existsb (N.eqb c) set); [|discriminate]. destruct (find (fun nc => (snd nc =? c)%N) predefined) as [[nm' z]|]; discriminate.
Qed.
Lemma text_pieces s : Forall xml_char s -> ~ In 13%N s -> chardata_ok (escapes text_special s) /\ text_said (escapes text_special s) = s.
Proof.
  intros H N. split; [split|].
  - apply escapes_ok; [apply text_predefined| |easy]. intros c Hc. cbn in *. tauto.
  - intros (a & b & E). apply (escapes_no_char text_special s 62%N); [apply text_predefined|cbn; tauto| |].
    + intro I. vm_compute in I. repeat destruct I as [I|I]; discriminate || contradiction.
    + rewrite E. apply in_or_app. right. cbn. tauto.
  - rewrite text_said_none, escapes_said; [easy|]. intro I. now apply escapes_chr in I.
Qed.
Lemma text_says_of s : Forall xml_char s -> ~ In 13%N s -> ~ spaces s -> text_says (escapes text_special s) = [NText s].
Proof.
  intros H N S. unfold text_says. rewrite (proj2 (text_pieces s H N)). match goal with |- context [forallb ?f s] => destruct (forallb f s) eqn:E end; [|easy]. exfalso. apply S.
  rewrite forallb_forall in E. apply Forall_forall. intros c Hc. apply E in Hc. apply existsb_exists in Hc. destruct Hc as (x & Hx & Ec).
  apply N.eqb_eq in Ec. now subst x.
Qed.
Lemma chars_spaces w : spaces w -> chardata_ok (map Chr w) /\ text_says (map Chr w) = [].
Proof.
  intro H. split; [split|].
  - apply Forall_forall. intros p I. apply in_map_iff in I. destruct I as (c & <- & I). split; [easy|]. intros x E. injection E as <-.
    pose proof (spaces_chars _ H) as X. unfold all_xml, spaces in *. rewrite Forall_forall in *. split; [now apply X|].
    apply H in I. cbn in I. intro J. cbn in J. destruct I as [<-|[<-|[<-|[<-|[]]]]]; destruct J as [J|[J|[]]]; discriminate.
  - rewrite text_chars. intros (a & b & ->). unfold spaces in H. rewrite Forall_forall in H.
    specialize (H 93%N). cbn in H. destruct H as [H|[H|[H|[H|[]]]]]; try discriminate. apply in_or_app. right. now left.
  - unfold text_says. replace (forallb _ _) with true; [easy|]. symmetry. apply forallb_forall.
    assert (K : forall l, spaces l -> forall c, In c (flat_map said (line_ends (map Chr l))) -> xml_space c).
    { clear. induction l as [|c l IH]; intros H x I; [easy|]. inversion H as [|? ? H1 H2]; subst. cbn [map line_ends] in I.
      assert (J : In x (flat_map said (line_ends (map Chr l))) -> xml_space x) by now apply IH.
      destruct (is_chr 13 (Chr c)).
      - destruct (match map Chr l with [] => false | q :: _ => is_chr 10 q end); [now apply J|].
        cbn [flat_map said app] in I. destruct I as [<-|I]; [right; right; right; now left|now apply J].
      - cbn [flat_map said app] in I. destruct I as [<-|I]; [easy|now apply J]. }
    intros c I. apply K in I; [|easy]. apply existsb_exists. exists c. split; [easy|apply N.eqb_refl].
Qed.
Lemma value_pieces v : Forall xml_char v -> (forall c, In c [9; 10; 13]%N -> ~ In c v) ->
  value_ok dquote (escapes all_special v) /\ value_said (escapes all_special v) = v.
Proof.
  intros H N. split.
  - apply escapes_ok; [apply all_predefined_all| |easy]. intros c Hc. unfold dquote in Hc. cbn in *. tauto.
  - rewrite value_said_none, escapes_said; [easy|]. apply Forall_forall. intros p I J. apply in_map_iff in J. destruct J as (c & <- & J).
    apply (N c J). now apply escapes_chr in I.
Qed.

(** * Trees *)

Definition out_attr (kv : str * str) : attribute := Attribute (lit " ") (fst kv) [] [] dquote (escapes all_special (snd kv)).
Definition out_attrs (m : amap) : list attribute := map out_attr (sorted_attrs m).
Lemma out_attr_text kv : attribute_text (out_attr kv) = attr_text kv.
Proof. unfold attribute_text, out_attr, attr_text. cbn [at_space at_name at_eq1 at_eq2 at_quote at_value]. now rewrite escapes_text. Qed.
Lemma out_attrs_text m : flat_map attribute_text (out_attrs m) = flat_map attr_text (sorted_attrs m).
Proof. unfold out_attrs. induction (sorted_attrs m) as [|kv l IH]; [easy|]. cbn [map flat_map]. now rewrite IH, out_attr_text. Qed.
Lemma opening_text e l close : attrs_in_order (e_attributes e) l ->
  SpecDom.opening e l close = lit "<" ++ qualified e ++ flat_map attribute_text (out_attrs (e_attributes e)) ++ close.
Proof. intro H. apply attrs_in_order_unique in H. subst l. unfold SpecDom.opening. now rewrite out_attrs_text. Qed.
Lemma out_the k m : map_ok m -> option_map (fun a => at_value a) (the_attribute k (out_attrs m)) = option_map (escapes all_special) (aget k m).
Proof.
  intro M.
  assert (N : NoDup (map at_name (out_attrs m))).
  { unfold out_attrs. rewrite map_map. cbn [out_attr at_name]. unfold map_ok, akeys in M.
    eapply Permutation_NoDup; [apply Permutation_map, Permutation_sym, sort_by_perm|exact M]. }
  destruct (aget k m) as [v|] eqn:E.
  - apply aget_in in E. apply (proj2 (sorted_in _ _)) in E.
    rewrite (the_attribute_some k _ (out_attr (k, v)) N); [easy| |easy]. now apply in_map.
  - destruct (the_attribute k (out_attrs m)) as [a|] eqn:T; [|easy]. exfalso. apply the_attribute_in in T. destruct T as [I T].
    apply in_map_iff in I. destruct I as ([k' v] & <- & I). cbn in T. subst k'. apply (proj1 (sorted_in _ _)) in I.
    apply in_aget in I; [congruence|easy].
Qed.
Lemma out_attributes_ok e sc : elem_ok e -> xml_elem sc e -> attributes_ok (out_attrs (e_attributes e)) /\
  (forall q, declare (out_attrs (e_attributes e)) sc q = declared e sc q) /\ tag_says sc (qualified e) (out_attrs (e_attributes e)) e /\
  names_ok (declare (out_attrs (e_attributes e)) sc) (written_attributes (out_attrs (e_attributes e))).
Proof.
  intros O X. inversion X as [sc' e' Q E P A NO Z1 Z2 Z3 Z4 Z5]; subst sc' e'. apply elem_ok_inv in O. destruct O as (M & _ & _).
  assert (N : NoDup (map at_name (out_attrs (e_attributes e)))).
  { unfold out_attrs. rewrite map_map. cbn [out_attr at_name]. unfold map_ok, akeys in M.
    eapply Permutation_NoDup; [apply Permutation_map, Permutation_sym, sort_by_perm|exact M]. }
  assert (V : forall k v, In (k, v) (e_attributes e) -> value_said (escapes all_special v) = v).
  { intros k v I. destruct (A k v I) as (_ & A2 & A3 & _). now apply value_pieces. }
  assert (D : forall q, declare (out_attrs (e_attributes e)) sc q = declared e sc q).
  { intro q. unfold declare, declared, get_attr. pose proof (out_the (declaring q) (e_attributes e) M) as T.
    destruct (aget (declaring q) (e_attributes e)) as [v|] eqn:G; destruct (the_attribute (declaring q) (out_attrs (e_attributes e))) as [a|]; try discriminate; [|easy].
    injection T as T. rewrite T, (V (declaring q)) by now apply aget_in. now destruct v. }
  split; [split; [|split]|split; [|split]].
  - apply Forall_forall. intros a I. apply in_map_iff in I. destruct I as ([k v] & <- & I). apply (proj1 (sorted_in _ _)) in I.
    destruct (A k v I) as (A1 & A2 & A3 & _). split; [easy|]. split; [now constructor; [left|constructor]|]. split; [easy|].
    split; [constructor|]. split; [constructor|]. split; [now left|]. now apply value_pieces.
  - exact N.
  - intros a p I K. apply in_map_iff in I. destruct I as ([k v] & <- & I). cbn in K. subst k. apply (proj1 (sorted_in _ _)) in I.
    cbn [out_attr at_value fst snd]. rewrite (V _ _ I). destruct (A _ _ I) as (_ & _ & _ & A4). now apply (A4 p).
  - exact D.
  - split; [easy|]. split; [now rewrite D|]. intros k v. unfold get_attr. split.
    + intro G. apply aget_in in G. exists (out_attr (k, v)). split; [apply in_map; now apply (proj2 (sorted_in _ _))|]. split; [easy|].
      cbn [out_attr at_value snd]. symmetry. now apply (V k).
    + intros (a & I & K & ->). apply in_map_iff in I. destruct I as ([k' v'] & <- & I). cbn in K. subst k'. apply (proj1 (sorted_in _ _)) in I.
      cbn [out_attr at_value snd]. rewrite (V _ _ I). now apply in_aget.
  - assert (W : forall k v, In (k, v) (written_attributes (out_attrs (e_attributes e))) -> In (k, v) (e_attributes e)).
    { intros k v I. apply in_map_iff in I. destruct I as (a & Ea & I). apply in_map_iff in I. destruct I as ([k' v'] & <- & I).
      apply (proj1 (sorted_in _ _)) in I. cbn [out_attr at_name at_value fst snd] in Ea. rewrite (V _ _ I) in Ea. now injection Ea as -> ->. }
    destruct NO as (N1 & N2 & N3 & N4). split; [|split; [|split]].
    + intros k v q n I Qk Nq. rewrite D. now apply (N1 k v q n); [apply W| |].
    + intros k v q k' v' q' n I I' Qk Qk' Nq Nq'. rewrite !D. now apply (N2 k v q k' v' q' n); [apply W|apply W| | | |].
    + intros p v I. now apply N3, W.
    + intros v I. now apply N4, W.
Qed.
Lemma out_tag_ok e sc : elem_ok e -> xml_elem sc e -> tag_ok sc (qualified e) (out_attrs (e_attributes e)) [].
Proof.
  intros O X. destruct (out_attributes_ok e sc O X) as (A & D & _ & _). inversion X as [sc' e' Q E P Z0 NO Z1 Z2 Z3 Z4 Z5]; subst sc' e'.
  split; [|split; [easy|constructor]]. exists (e_prefix e), (e_name e). split; [easy|]. intros q Eq. rewrite D, <- E. apply P. congruence.
Qed.

(** * Inline *)

Definition fine (sc : scope) (m : markup) : Prop := markup_ok sc m /\ markup_names sc m.
Definition fine_in (sc : scope) (b : content) : Prop := content_ok sc b /\ content_names sc b.
Definition out (sc : scope) (e : elem) (s : str) : Prop :=
  exists m, s = markup_text m /\ fine sc m /\ says sc m [NElem e] /\ SpecXml.is_element m.
(** Contents after the text [t]. *)
Definition out_in (sc : scope) (t : list piece) (l : list node) (s : str) : Prop :=
  chardata_ok t -> (starts_with_text l -> t = []) ->
  exists b, pieces_text t ++ s = content_text b /\ fine_in sc b /\ says_in sc b (text_says t ++ l).
Lemma nil_chardata : chardata_ok [].
Proof. split; [constructor|]. intros (a & b & E). destruct a; discriminate. Qed.
Definition kids_ok (sc : scope) (l : list node) : Prop :=
  no_adjacent_text l /\
  (forall t, In (NText t) l -> Forall xml_char t /\ ~ In 13%N t /\ ~ spaces t) /\
  (forall c, In (NComment c) l -> comment_ok c /\ ~ In 13%N c) /\
  (forall c, In (NCData c) l -> cdata_ok c /\ ~ In 13%N c) /\
  (forall c, In (NElem c) l -> xml_elem sc c /\ elem_ok c).
Lemma kids_tail sc n l : kids_ok sc (n :: l) -> kids_ok sc l.
Proof.
  intros (H1 & H2 & H3 & H4 & H5). split; [now apply no_adjacent_tail in H1|].
  split; [intros; apply H2; now right|]. split; [intros; apply H3; now right|]. split; [intros; apply H4; now right|intros; apply H5; now right].
Qed.
Lemma xml_kids sc e : xml_elem sc e -> elem_ok e -> kids_ok (declared e sc) (e_children e).
Proof.
  intros X O. inversion X; subst. apply elem_ok_inv in O. destruct O as (_ & _ & O). split; [easy|]. split; [easy|]. split; [easy|]. split; [easy|]. auto.
Qed.
Lemma text_says_nil : text_says [] = [].
Proof. reflexivity. Qed.
Lemma out_more sc t m b n l : chardata_ok t -> fine sc m -> says sc m [n] -> fine_in sc b -> says_in sc b l ->
  fine_in sc (CMore t m b) /\ says_in sc (CMore t m b) (text_says t ++ n :: l).
Proof. intros H1 [H2 H2'] H3 [H4 H4'] H5. split; [easy|]. change (n :: l) with ([n] ++ l). now constructor. Qed.
Lemma declare_ext l sc sc' : (forall q, sc q = sc' q) -> forall q, declare l sc q = declare l sc' q.
Proof. intros H q. unfold declare. now rewrite H. Qed.
Lemma names_ext sc sc' l : (forall q, sc q = sc' q) -> names_ok sc l -> names_ok sc' l.
Proof.
  intros H (N1 & N2 & N3 & N4). split; [|split; [|easy]].
  - intros k v q n. rewrite <- H. apply N1.
  - intros k v q k' v' q' n. rewrite <- !H. apply N2.
Qed.
Lemma scope_ext : (forall m sc sc', (forall q, sc q = sc' q) -> fine sc m -> fine sc' m) /\
  (forall b sc sc', (forall q, sc q = sc' q) -> fine_in sc b -> fine_in sc' b).
Proof.
  assert (T : forall sc sc' nm l w, (forall q, sc q = sc' q) -> tag_ok sc nm l w -> tag_ok sc' nm l w).
  { intros sc sc' nm l w H ((p & n & Q & P) & A & W). split; [|easy]. exists p, n. split; [easy|]. intros q Eq. rewrite <- (declare_ext l sc sc' H). now apply (P q). }
  apply markup_ind2; unfold fine, fine_in; cbn [markup_ok content_ok markup_names content_names]; try easy.
  - intros nm l w sc sc' H (A & B). split; [now apply (T sc)|]. apply (names_ext (declare l sc)); [now apply declare_ext|easy].
  - intros nm l w b IH w' sc sc' H ((A & B & C) & D & E).
    destruct (IH (declare l sc) (declare l sc') (declare_ext l sc sc' H) (conj B E)) as [B' E'].
    split; [split; [now apply (T sc)|now split]|]. split; [|easy]. apply (names_ext (declare l sc)); [now apply declare_ext|easy].
  - intros t m IHm b IHb sc sc' H ((A & B & C) & D & E). destruct (IHm sc sc' H (conj B D)). destruct (IHb sc sc' H (conj C E)). easy.
Qed.
Lemma says_ext : (forall m sc sc' l, (forall q, sc q = sc' q) -> says sc m l -> says sc' m l) /\
  (forall b sc sc' l, (forall q, sc q = sc' q) -> says_in sc b l -> says_in sc' b l).
Proof.
  assert (D : forall l sc sc', (forall q, sc q = sc' q) -> forall q, declare l sc q = declare l sc' q).
  { intros l sc sc' H q. unfold declare. now rewrite H. }
  assert (T : forall sc sc' nm l e, (forall q, sc q = sc' q) -> tag_says sc nm l e -> tag_says sc' nm l e).
  { intros sc sc' nm l e H (A & B & C). split; [easy|]. split; [|easy]. now rewrite <- (D l sc sc' H). }
  apply markup_ind2.
  - intros nm l w sc sc' k H S. inversion S; subst. apply sy_empty; [now apply (T sc)|easy].
  - intros nm l w b IH w' sc sc' k H S. inversion S; subst. apply sy_elem; [now apply (T sc)|]. apply (IH (declare l sc)); [now apply D|easy].
  - intros c sc sc' k H S. inversion S; subst. constructor.
  - intros c sc sc' k H S. inversion S; subst. constructor.
  - intros p sc sc' k H S. inversion S; subst. constructor.
  - intros t sc sc' k H S. inversion S; subst. constructor.
  - intros t m IHm b IHb sc sc' k H S. inversion S; subst. constructor; [now apply (IHm sc)|now apply (IHb sc)].
Qed.
Lemma leaf_out sc n s : leaf_text n s -> (forall t, n <> NText t) -> kids_ok sc [n] ->
  exists m, s = markup_text m /\ fine sc m /\ says sc m [n].
Proof.
  intros L N K. destruct n as [c|t|c|c]; cbn in L; [contradiction|now destruct (N t)| |]; subst s.
  - destruct K as (_ & _ & K & _). destruct (K c (or_introl eq_refl)) as [K1 K2]. exists (MComment c). split; [easy|]. split; [easy|].
    pose proof (sy_comment sc c) as S. now rewrite (plain_said_none c K2) in S.
  - destruct K as (_ & _ & _ & K & _). destruct (K c (or_introl eq_refl)) as [K1 K2]. exists (MCData c). split; [easy|]. split; [easy|].
    pose proof (sy_cdata sc c) as S. now rewrite (plain_said_none c K2) in S.
Qed.
Lemma kids_head sc n l : kids_ok sc (n :: l) -> kids_ok sc [n].
Proof.
  intros (H1 & H2 & H3 & H4 & H5). split; [intros a s t b E; destruct a as [|? [|? a]]; discriminate|].
  split; [intros t [E|[]]; apply H2; now left|]. split; [intros t [E|[]]; apply H3; now left|].
  split; [intros t [E|[]]; apply H4; now left|intros t [E|[]]; apply H5; now left].
Qed.
Lemma elem_out sc e w b : elem_ok e -> xml_elem sc e -> fine_in (declared e sc) b -> says_in (declared e sc) b (e_children e) ->
  spaces w ->
  out sc e (lit "<" ++ qualified e ++ flat_map attribute_text (out_attrs (e_attributes e)) ++ lit ">" ++ content_text b ++ lit "</" ++ qualified e ++ w ++ lit ">").
Proof.
  intros O X Cb Sb W. destruct (out_attributes_ok e sc O X) as (_ & D & S & NO). exists (MElem (qualified e) (out_attrs (e_attributes e)) [] b w).
  split; [easy|]. split; [|split; [|easy]].
  - destruct (proj2 scope_ext b (declared e sc) (declare (out_attrs (e_attributes e)) sc)) as [Cb' Nb]; [easy|easy|].
    split; [|easy]. cbn [markup_ok]. split; [now apply out_tag_ok|]. easy.
  - apply sy_elem; [easy|]. now apply (proj2 says_ext b (declared e sc)).
Qed.
Lemma empty_out sc e : elem_ok e -> xml_elem sc e -> e_children e = [] ->
  out sc e (lit "<" ++ qualified e ++ flat_map attribute_text (out_attrs (e_attributes e)) ++ lit "/>").
Proof.
  intros O X C. destruct (out_attributes_ok e sc O X) as (_ & D & S & NO). exists (MEmpty (qualified e) (out_attrs (e_attributes e)) []).
  split; [easy|]. split; [split; [now apply out_tag_ok|easy]|]. split; [now apply sy_empty|easy].
Qed.
Lemma inline_out : forall e s, inline_elem e s -> forall sc, xml_elem sc e -> elem_ok e -> out sc e s.
Proof.
  apply (inline_elem_mut (fun e s => forall sc, xml_elem sc e -> elem_ok e -> out sc e s)
    (fun l s => forall sc, kids_ok sc l -> forall t, out_in sc t l s)).
  - intros e l A C sc X O. rewrite (opening_text _ _ _ A). now apply empty_out.
  - intros e l s A C _ IH sc X O. rewrite (opening_text _ _ _ A).
    destruct (IH _ (xml_kids _ _ X O) [] nil_chardata ltac:(easy)) as (b & Eb & Cb & Sb).
    cbn [pieces_text flat_map app] in Eb. rewrite text_says_nil in Sb. cbn [app] in Sb.
    pose proof (elem_out sc e [] b O X Cb Sb ltac:(constructor)) as R. rewrite <- Eb in R. unfold SpecDom.closing.
    cbn [app] in R. rewrite <- !app_assoc. exact R.
  - intros sc _ t Ht _. exists (CText t). rewrite !app_nil_r. split; [easy|]. split; [easy|constructor].
  - intros n s l r L _ IH sc K t Ht Hs.
    assert (D : (exists x, n = NText x) \/ forall x, n <> NText x) by (destruct n; [right; easy|left; eauto|right; easy|right; easy]).
    destruct D as [[x ->]|D].
    + cbn in L. subst s. rewrite Hs by (now exists x, l). cbn [pieces_text flat_map app].
      pose proof K as K'. destruct K' as (Ka & Kt & _). destruct (Kt x (or_introl eq_refl)) as (T1 & T2 & T3).
      destruct (IH _ (kids_tail _ _ _ K) (escapes text_special x)) as (b & Eb & Cb & Sb).
      * now apply text_pieces.
      * intros (s' & r' & ->). exfalso. now apply (Ka [] x s' r').
      * exists b. rewrite escapes_text in Eb. split; [exact Eb|]. split; [easy|]. rewrite text_says_of in Sb by easy. exact Sb.
    + destruct (leaf_out sc n s L D (kids_head _ _ _ K)) as (m & -> & Om & Sm).
      destruct (IH _ (kids_tail _ _ _ K) [] nil_chardata ltac:(easy)) as (b & Eb & Cb & Sb).
      exists (CMore t m b). cbn [content_text]. rewrite <- Eb. split; [easy|]. now apply out_more.
  - intros e s l r _ IHe _ IH sc K t Ht Hs. destruct K as (K1 & K2 & K3 & K4 & K5) eqn:EK.
    destruct (K5 e (or_introl eq_refl)) as [X O]. destruct (IHe _ X O) as (m & -> & Om & Sm & _).
    destruct (IH _ (kids_tail _ _ _ K) [] nil_chardata ltac:(easy)) as (b & Eb & Cb & Sb).
    exists (CMore t m b). cbn [content_text]. rewrite <- Eb. split; [easy|]. now apply out_more.
Qed.

(** * Indented *)

Lemma layout_out ind : spaces ind -> forall pre e s, layout ind pre e s -> spaces pre -> forall sc, xml_elem sc e -> elem_ok e ->
  exists s', s = pre ++ s' /\ out sc e s'.
Proof.
  intro Hind.
  apply (layout_mut ind (fun pre e s => spaces pre -> forall sc, xml_elem sc e -> elem_ok e -> exists s', s = pre ++ s' /\ out sc e s')
    (fun pre l s => spaces pre -> no_text l -> forall sc, kids_ok sc l -> forall g z, spaces g -> spaces z ->
       exists b, g ++ s ++ z = content_text b /\ fine_in sc b /\ says_in sc b l)).
  - intros pre e s _ Hi Hp sc X O. exists s. split; [easy|]. now apply inline_out.
  - intros pre e l s Hi Hl _ IH Hp sc X O.
    assert (Np : no_text (e_children e)) by (intros t Hin; apply Hi; right; left; now exists t).
    destruct (IH (proj2 (Forall_app _ _ _) (conj Hp Hind)) Np _ (xml_kids _ _ X O) [10%N] pre) as (b & Eb & Cb & Sb).
    + constructor; [|constructor]. cbn. tauto.
    + easy.
    + eexists. split; [reflexivity|]. rewrite (opening_text _ _ _ Hl).
      pose proof (elem_out sc e [] b O X Cb Sb ltac:(constructor)) as R. rewrite <- Eb in R. unfold SpecDom.closing.
      cbn [app] in R. rewrite <- !app_assoc in *. cbn [app] in *. exact R.
  - intros pre Hp _ sc _ g z Hg Hz. destruct (chars_spaces (g ++ z)) as [C S]; [now apply Forall_app|].
    exists (CText (map Chr (g ++ z))). cbn [content_text app]. rewrite text_chars. split; [easy|]. split; [easy|]. rewrite <- S. constructor.
  - intros pre n s l r L _ IH Hp Np sc K g z Hg Hz.
    destruct (IH Hp (fun t Hin => Np t (or_intror Hin)) sc (kids_tail _ _ _ K) [10%N] z) as (b & Eb & Cb & Sb); [constructor; [cbn; tauto|constructor]|easy|].
    destruct (leaf_out sc n s L) as (m & -> & Om & Sm); [intros t ->; apply (Np t); now left|now apply kids_head in K|].
    destruct (chars_spaces (g ++ pre)) as [C S]; [now apply Forall_app|].
    exists (CMore (map Chr (g ++ pre)) m b). cbn [content_text]. rewrite text_chars, <- Eb, <- !app_assoc. split; [easy|].
    destruct (out_more sc (map Chr (g ++ pre)) m b n l C Om Sm Cb Sb) as [R1 R2]. rewrite S in R2. now split.
  - intros pre e s l r _ IHe _ IH Hp Np sc K g z Hg Hz.
    destruct (IH Hp (fun t Hin => Np t (or_intror Hin)) sc (kids_tail _ _ _ K) [10%N] z) as (b & Eb & Cb & Sb); [constructor; [cbn; tauto|constructor]|easy|].
    pose proof K as (_ & _ & _ & _ & K5). destruct (K5 e (or_introl eq_refl)) as [X O].
    destruct (IHe Hp _ X O) as (s' & -> & m & -> & Om & Sm & _).
    destruct (chars_spaces (g ++ pre)) as [C S]; [now apply Forall_app|].
    exists (CMore (map Chr (g ++ pre)) m b). cbn [content_text]. rewrite text_chars, <- Eb, <- !app_assoc. split; [easy|].
    destruct (out_more sc (map Chr (g ++ pre)) m b (NElem e) l C Om Sm Cb Sb) as [R1 R2]. rewrite S in R2. now split.
Qed.
Lemma good_indent_spaces ind : good_indent ind -> spaces ind.
Proof.
  intros [->|H]; [constructor; [cbn; tauto|constructor]|]. eapply Forall_impl; [|exact H]. intros c ->. now left.
Qed.
Lemma completed_nothings : (forall m, completed [] m = m) /\ (forall b, completed_in [] b = b).
Proof.
  assert (A : forall nm l, complete_attributes [] nm l = l).
  { intros nm l. unfold complete_attributes. change (defaults [] nm l) with (@nil attribute). rewrite app_nil_r. induction l as [|a l IH]; [easy|]. cbn [map]. now rewrite IH. }
  apply markup_ind2; intros; cbn [completed completed_in]; rewrite ?A; congruence.
Qed.
Lemma completed_nothing m : completed [] m = m.
Proof. apply completed_nothings. Qed.
Lemma declared_more : (forall m sc, markup_ok sc m -> forall sc', (forall q, sc' (Some q) <> None) -> markup_ok sc' m) /\
  (forall b sc, content_ok sc b -> forall sc', (forall q, sc' (Some q) <> None) -> content_ok sc' b).
Proof.
  assert (D : forall l sc', attributes_ok l -> (forall q, sc' (Some q) <> None) -> forall q, declare l sc' (Some q) <> None).
  { intros l sc' (_ & _ & A) H q. unfold declare. cbn [declaring]. destruct (the_attribute (lit "xmlns:" ++ q) l) as [a|] eqn:E; [|apply H].
    unfold the_attribute in E. apply find_some in E. destruct E as [I E]. apply str_eqb_eq in E. specialize (A a q I E). now destruct (value_said (at_value a)). }
  assert (T : forall nm l w sc sc', tag_ok sc nm l w -> (forall q, sc' (Some q) <> None) -> tag_ok sc' nm l w).
  { intros nm l w sc sc' ((p & n & Q & _) & A & W) H. split; [|easy]. exists p, n. split; [easy|]. intros q ->. now apply D. }
  apply markup_ind2; cbn [markup_ok content_ok]; try easy.
  - intros nm l w sc H sc' K. now apply (T _ _ _ sc).
  - intros nm l w b IH w' sc (H & B & W) sc' K. split; [now apply (T _ _ _ sc)|]. split; [|easy]. apply (IH _ B). apply D; [apply H|easy].
  - intros t m IHm b IHb sc (H & M & B) sc' K. split; [easy|]. split; [now apply (IHm sc)|now apply (IHb sc)].
Qed.
Theorem written_xml d ind : xml_document d -> exists x, xml_ok x /\ namespaces_ok x /\ xml_text x = doc_to_string_with_indent d ind /\ xml_says x d.
Proof.
  intros (O & T & D & X).
  assert (G : forall i, good_indent i -> exists x, xml_ok x /\ namespaces_ok x /\ xml_text x = doc_to_string_with_indent d i /\ xml_says x d).
  { intros i Hi. destruct (doc_layout d i O Hi) as (s & Ls & E).
    destruct (layout_out i (good_indent_spaces _ Hi) _ _ _ Ls ltac:(constructor) _ X O) as (s' & Es & m & -> & [Om Nm] & Sm & Em). cbn [app] in Es. subst s.
    assert (Dx : exists o, d_declaration d = option_map decl_inside o /\ forall x, o = Some x -> xmldecl_ok x).
    { destruct (d_declaration d) as [y|]; [|now exists None]. destruct (D y eq_refl) as (x & Ox & ->). exists (Some x). split; [easy|]. now intros ? [= <-]. }
    destruct Dx as (o & Eo & Oo).
    exists (XDocument o [] (match o with Some _ => [10%N] | None => [] end) m [] [10%N]).
    assert (Wr : whole_root (XDocument o [] (match o with Some _ => [10%N] | None => [] end) m [] [10%N]) = m) by apply completed_nothing.
    split; [|split; [unfold namespaces_ok; rewrite Wr; exact Nm|split]].
    - split; [exact Oo|]. split; [constructor|]. split; [cbn; lia|].
      split; [|split; [easy|split; [now apply (proj1 declared_more _ no_declarations)|split; [rewrite Wr; easy|split; [constructor|split; [reflexivity|]]]]]].
      + cbn. destruct o; [constructor; [cbn; tauto|constructor]|constructor].
      + cbn. constructor; [cbn; tauto|constructor].
    - rewrite E. unfold xml_text, declaration, doctype_defs. rewrite T, Eo. cbn [xd_decl xd_prolog xd_gap xd_root xd_epilog xd_end miscs_text flat_map app].
      destruct o as [x|]; cbn [option_map]; repeat (rewrite <- !app_assoc; cbn [app]); reflexivity.
    - split; [exact Eo|]. split; [exact T|]. rewrite Wr. exact Sm. }
  destruct (validate_indent ind) eqn:V; [apply G; now apply validate_indent_spec|].
  apply validate_indent_false in V. rewrite doc_bad_indent by easy. apply G. right. repeat constructor.
Qed.

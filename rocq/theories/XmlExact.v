(** Which documents are written as XML saying them. *)
From Coq Require Import List NArith Arith Bool Ascii String Lia Permutation.
From Verif Require Import Base BaseFacts Escape Dom Spec EscapeFacts SpecDom DomFacts SerFacts SpecLex SpecParse SpecDoc RoundFacts SpecXml XmlFacts XmlUnique XmlOut.
Import ListNotations.

(** * Line ends *)

Lemma plain_cons c r : plain_said (c :: r) =
  if (c =? 13)%N then if match r with d :: _ => (d =? 10)%N | [] => false end then plain_said r else 10%N :: plain_said r else c :: plain_said r.
Proof.
  unfold plain_said, text_said. cbn [map line_ends is_chr]. destruct (c =? 13)%N; [|reflexivity].
  destruct r as [|d r]; [reflexivity|]. cbn [map is_chr]. now destruct (d =? 10)%N.
Qed.
Lemma plain_nil s : plain_said s = [] -> s = [].
Proof.
  induction s as [|c r IH]; [easy|]. rewrite plain_cons. destruct (c =? 13)%N; [|easy]. destruct r as [|d r]; [easy|].
  destruct (d =? 10)%N; [|easy]. intro E. apply IH in E. discriminate.
Qed.
Lemma plain_begins : forall u b s, ~ In 10%N u -> plain_said s = u ++ b -> exists b', s = u ++ b' /\ plain_said b' = b.
Proof.
  induction u as [|c u IH]; intros b s N E; [now exists s|]. destruct s as [|d s]; [discriminate|]. rewrite plain_cons in E.
  destruct (N.eqb_spec d 13) as [->|D].
  - exfalso. destruct s as [|x s]; [cbn in E; injection E as <- _; apply N; now left|]. destruct (N.eqb_spec x 10) as [->|X].
    + rewrite plain_cons in E. cbn in E. injection E as <- _. apply N. now left.
    + cbn [app] in E. injection E as <- _. apply N. now left.
  - cbn [app] in E. injection E as <- E. destruct (IH b s) as (b' & -> & Eb); [intro I; apply N; now right|easy|]. now exists b'.
Qed.
Lemma plain_inside : forall s a u b, ~ In 10%N u -> plain_said s = a ++ u ++ b -> exists a' b', s = a' ++ u ++ b' /\ plain_said b' = b.
Proof.
  induction s as [|d s IH]; intros a u b N E.
  - destruct a; [|discriminate]. destruct u; [|discriminate]. exists [], []. now split.
  - destruct a as [|c a]; [apply (plain_begins u b) in E; [|easy]; destruct E as (b' & E & Eb); now exists [], b'|].
    rewrite plain_cons in E.
    assert (K : plain_said s = (c :: a) ++ u ++ b \/ plain_said s = a ++ u ++ b).
    { destruct (d =? 13)%N; [|right; now injection E]. destruct s as [|x s]; [right; now injection E|]. destruct (x =? 10)%N; [now left|right; now injection E]. }
    destruct K as [K|K]; apply IH in K; try easy; destruct K as (a' & b' & -> & Eb); now exists (d :: a'), b'.
Qed.
Lemma plain_in x s : In x (plain_said s) -> x = 10%N \/ (In x s /\ x <> 13%N).
Proof.
  induction s as [|d s IH]; [easy|]. rewrite plain_cons.
  assert (R : x = 10%N \/ (In x s /\ x <> 13%N) -> x = 10%N \/ (In x (d :: s) /\ x <> 13%N)).
  { intros [H|[H H']]; [now left|right]. split; [now right|easy]. }
  destruct (N.eqb_spec d 13) as [->|D].
  - destruct (match s with x :: _ => (x =? 10)%N | [] => false end); [now intro I; apply R, IH|]. intros [<-|I]; [now left|now apply R, IH].
  - intros [<-|I]; [right; split; [now left|easy]|now apply R, IH].
Qed.
Lemma char_10 : xml_char 10%N.
Proof. unfold xml_char, in_ranges. apply Exists_exists. exists (9, 10)%N. split; [cbn; tauto|cbn; lia]. Qed.
Lemma plain_chars s : Forall xml_char s -> Forall xml_char (plain_said s) /\ ~ In 13%N (plain_said s).
Proof.
  intro H. rewrite Forall_forall in H. split.
  - apply Forall_forall. intros x I. apply plain_in in I. destruct I as [->|[I _]]; [apply char_10|now apply H].
  - intro I. apply plain_in in I. destruct I as [I|[_ I]]; [discriminate|easy].
Qed.
Lemma plain_comment c : comment_ok c -> comment_ok (plain_said c) /\ ~ In 13%N (plain_said c).
Proof.
  intros (X & A & B). destruct (plain_chars c X) as [X' N]. split; [|easy]. split; [easy|]. split.
  - intros (a & b & E). apply plain_inside in E; [|cbn; intros [I|[I|[]]]; discriminate]. destruct E as (a' & b' & -> & _). apply A. now exists a', b'.
  - intros (a & E). rewrite <- (app_nil_r (lit "-")) in E. apply plain_inside in E; [|cbn; intros [I|[]]; discriminate]. destruct E as (a' & b' & -> & Eb).
    apply plain_nil in Eb. subst b'. apply B. exists a'. now rewrite app_nil_r.
Qed.
Lemma plain_cdata c : cdata_ok c -> cdata_ok (plain_said c) /\ ~ In 13%N (plain_said c).
Proof.
  intros (X & A). destruct (plain_chars c X) as [X' N]. split; [|easy]. split; [easy|].
  intros (a & b & E). apply plain_inside in E; [|cbn; intros [I|[I|[I|[]]]]; discriminate]. destruct E as (a' & b' & -> & _). apply A. now exists a', b'.
Qed.
Lemma ends_in p t : In p (line_ends t) -> p = Chr 10%N \/ (In p t /\ p <> Chr 13%N).
Proof.
  induction t as [|q t IH]; [easy|]. cbn [line_ends].
  assert (R : p = Chr 10%N \/ (In p t /\ p <> Chr 13%N) -> p = Chr 10%N \/ (In p (q :: t) /\ p <> Chr 13%N)).
  { intros [H|[H H']]; [now left|right]. split; [now right|easy]. }
  destruct (is_chr 13 q) eqn:E.
  - destruct (match t with q :: _ => is_chr 10 q | [] => false end); [now intro I; apply R, IH|]. intros [<-|I]; [now left|now apply R, IH].
  - intros [<-|I]; [right; split; [now left|]|now apply R, IH]. intros ->. cbn in E. discriminate.
Qed.
Lemma said_in p x : reference_ok p -> In x (said p) -> (p = Chr x) \/ (xml_char x /\ refers p = Some x).
Proof.
  intros R I. destruct p as [c|nm|ds|ds]; [cbn in I; destruct I as [->|[]]; now left|right..]; cbn [said] in I.
  - destruct R as (c & R & X). rewrite R in *. now destruct I as [<-|[]].
  - destruct R as (c & R & X). rewrite R in *. now destruct I as [<-|[]].
  - destruct R as (c & R & X). rewrite R in *. now destruct I as [<-|[]].
Qed.
Definition plain_pieces (t : list piece) : Prop := Forall (fun p => ~ numeric p) t.
Lemma ent_not_space nm x : refers (Ent nm) = Some x -> ~ In x [9; 10; 13]%N.
Proof. intros R I. apply refers_ent in R. cbn in R. destruct R as [R|[R|[R|[R|[R|[]]]]]]; injection R as _ <-; cbn in I; repeat (destruct I as [I|I]; [discriminate|]); easy. Qed.
Lemma text_out t : chardata_ok t -> Forall xml_char (text_said t) /\ (plain_pieces t -> ~ In 13%N (text_said t)).
Proof.
  intros (H & _). rewrite Forall_forall in H. split.
  - apply Forall_forall. intros x I. unfold text_said in I. apply in_flat_map in I. destruct I as (p & Ip & I). apply ends_in in Ip.
    destruct Ip as [->|[Ip _]]; [cbn in I; destruct I as [<-|[]]; apply char_10|]. destruct (H p Ip) as [R C].
    destruct (said_in p x R I) as [->|[X _]]; [now apply C|easy].
  - intros P I. unfold plain_pieces in P. rewrite Forall_forall in P. unfold text_said in I. apply in_flat_map in I. destruct I as (p & Ip & I). apply ends_in in Ip.
    destruct Ip as [->|[Ip N]]; [cbn in I; destruct I as [I|[]]; discriminate|]. destruct (H p Ip) as [R C].
    destruct (said_in p _ R I) as [->|[X Rf]]; [easy|]. pose proof (P p Ip) as Np. destruct p as [c|nm|ds|ds]; [easy| |now destruct Np; exact Logic.I|now destruct Np; exact Logic.I].
    apply ent_not_space in Rf. apply Rf. cbn. tauto.
Qed.
Lemma value_out q t : value_ok q t -> Forall xml_char (value_said t) /\ (plain_pieces t -> forall c, In c [9; 10; 13]%N -> ~ In c (value_said t)).
Proof.
  intro H. unfold value_ok in H. rewrite Forall_forall in H.
  assert (S : xml_char 32%N) by (apply small_char; lia).
  assert (K : forall x, In x (value_said t) -> x = 32%N \/ (exists p, In p t /\ reference_ok p /\ ((p = Chr x /\ xml_char x /\ ~ xml_space x) \/ (xml_char x /\ refers p = Some x)))).
  { intros x I. unfold value_said in I. apply in_flat_map in I. destruct I as (p & Ip & I). apply ends_in in Ip.
    destruct Ip as [->|[Ip N]]; [cbn in I; destruct I as [<-|[]]; now left|]. destruct (H p Ip) as [R C].
    destruct p as [c|nm|ds|ds]; cbn [value_char] in I.
    - destruct (existsb (N.eqb c) [32; 9; 13; 10]%N) eqn:E; destruct I as [<-|[]]; [now left|right]. exists (Chr c). split; [easy|]. split; [easy|]. left.
      split; [easy|]. split; [now apply C|now apply not_space_dec].
    - destruct (said_in _ x R I) as [E|E]; [discriminate|]. right. eauto 6.
    - destruct (said_in _ x R I) as [E|E]; [discriminate|]. right. eauto 6.
    - destruct (said_in _ x R I) as [E|E]; [discriminate|]. right. eauto 6. }
  split.
  - apply Forall_forall. intros x I. apply K in I. destruct I as [->|(p & _ & _ & [(_ & X & _)|(X & _)])]; easy.
  - intros P c Ic I. unfold plain_pieces in P. rewrite Forall_forall in P. apply K in I. destruct I as [->|(p & Ip & R & [(_ & _ & X)|(_ & Rf)])].
    + cbn in Ic. repeat (destruct Ic as [Ic|Ic]; [discriminate|]). easy.
    + apply X. unfold xml_space. cbn in *. tauto.
    + pose proof (P p Ip) as Np. destruct p as [d|nm|ds|ds]; [discriminate| |now destruct Np; exact Logic.I|now destruct Np; exact Logic.I].
      now apply ent_not_space in Rf.
Qed.

(** * Trees that documents say *)

(** Without numeric references and processing instructions *)
Fixpoint plain_markup (m : markup) : Prop :=
  match m with
  | MEmpty nm attrs w => Forall (fun a => plain_pieces (at_value a)) attrs
  | MElem nm attrs w b w' => Forall (fun a => plain_pieces (at_value a)) attrs /\ plain_content b
  | MPI p => False
  | _ => True
  end
with plain_content (b : content) : Prop :=
  match b with
  | CText t => plain_pieces t
  | CMore t m b => plain_pieces t /\ plain_markup m /\ plain_content b
  end.
(** [xml_elem], with the conditions that numeric references could help with only
    if [st]. *)
Inductive tree_xml (st : Prop) : scope -> elem -> Prop :=
| tx_elem sc e :
    qname (qualified e) (e_prefix e) (e_name e) ->
    e_xmlns e = declared e sc (e_prefix e) ->
    (e_prefix e <> None -> e_xmlns e <> None) ->
    (forall k v, In (k, v) (e_attributes e) ->
       (exists p n, qname k p n) /\ Forall xml_char v /\ (st -> forall c, In c [9; 10; 13]%N -> ~ In c v) /\
       (forall p, k = lit "xmlns:" ++ p -> v <> [])) ->
    names_ok (declared e sc) (e_attributes e) ->
    list_xml st (declared e sc) (e_children e) ->
    tree_xml st sc e
with list_xml (st : Prop) : scope -> list node -> Prop :=
| lx sc l :
    (st -> no_adjacent_text l) ->
    (forall t, In (NText t) l -> Forall xml_char t /\ (st -> ~ In 13%N t) /\ ~ spaces t) ->
    (forall c, In (NComment c) l -> comment_ok c /\ ~ In 13%N c) ->
    (forall c, In (NCData c) l -> cdata_ok c /\ ~ In 13%N c) ->
    (forall c, In (NElem c) l -> tree_xml st sc c) ->
    list_xml st sc l.
Lemma list_inv (st : Prop) sc l : list_xml st sc l ->
    (st -> no_adjacent_text l) /\
    (forall t, In (NText t) l -> Forall xml_char t /\ (st -> ~ In 13%N t) /\ ~ spaces t) /\
    (forall c, In (NComment c) l -> comment_ok c /\ ~ In 13%N c) /\
    (forall c, In (NCData c) l -> cdata_ok c /\ ~ In 13%N c) /\
    (forall c, In (NElem c) l -> tree_xml st sc c).
Proof. intro H. now inversion H. Qed.
Lemma tree_inv (st : Prop) sc e : tree_xml st sc e -> list_xml st (declared e sc) (e_children e).
Proof. intro H. now inversion H. Qed.
Lemma tree_strict : forall e sc, tree_xml True sc e -> xml_elem sc e.
Proof.
  intro e. induction e as [e IH] using elem_ind'. intros sc H. inversion H as [sc' e' Q E P A NO L]; subst sc' e'. apply list_inv in L.
  destruct L as (L1 & L2 & L3 & L4 & L5). constructor; [easy|easy|easy| |easy|now apply L1| |easy|easy|].
  - intros k v I. destruct (A k v I) as (A1 & A2 & A3 & A4). split; [easy|]. split; [easy|]. split; [now apply A3|easy].
  - intros t I. destruct (L2 t I) as (T1 & T2 & T3). split; [easy|]. split; [now apply T2|easy].
  - intros c I. apply IH; [easy|]. now apply L5.
Qed.
Definition nodes_ok (l : list node) : Prop := forall c, In (NElem c) l -> elem_ok c.
Lemma qualified_name nm e : qname nm (e_prefix e) (e_name e) -> nm = qualified e.
Proof. intro H. unfold qualified. now inversion H. Qed.
Lemma tag_tree (st : Prop) sc nm attrs w e : tag_ok sc nm attrs w -> names_ok (declare attrs sc) (written_attributes attrs) -> tag_says sc nm attrs e -> elem_ok e ->
  (st -> Forall (fun a => plain_pieces (at_value a)) attrs) ->
  (list_xml st (declare attrs sc) (e_children e) -> list_xml st (declared e sc) (e_children e)) ->
  list_xml st (declare attrs sc) (e_children e) -> tree_xml st sc e.
Proof.
  intros ((p & n & Q & P) & (A & N & X) & W) NO (Q' & E & G) O Pl Ext L. pose proof (qualified_name _ _ Q'). subst nm.
  apply elem_ok_inv in O. destruct O as (M & _ & _).
  assert (D : forall q, declare attrs sc q = declared e sc q).
  { intro q. unfold declare, declared. destruct (the_attribute (declaring q) attrs) as [a|] eqn:T.
    - apply the_attribute_in in T. destruct T as [I T]. assert (Gq : get_attr e (declaring q) = Some (value_said (at_value a))) by (apply G; eauto).
      rewrite Gq. now destruct (value_said (at_value a)).
    - destruct (get_attr e (declaring q)) as [v|] eqn:Gq; [|easy]. exfalso. apply G in Gq. destruct Gq as (a & I & K & _).
      rewrite (the_attribute_some _ _ a N I K) in T. discriminate. }
  assert (AV : forall k v, In (k, v) (e_attributes e) -> exists a, In a attrs /\ at_name a = k /\ v = value_said (at_value a)).
  { intros k v I. apply G. unfold get_attr. now apply in_aget. }
  destruct (qname_fun _ _ _ _ _ Q Q') as [-> ->].
  constructor.
  - easy.
  - now rewrite <- D.
  - intro Np. rewrite E. destruct (e_prefix e) as [q|]; [|easy]. now apply (P q).
  - intros k v I. destruct (AV k v I) as (a & Ia & <- & ->). rewrite Forall_forall in A. destruct (A a Ia) as (_ & _ & A1 & _ & _ & _ & A2).
    destruct (value_out _ _ A2) as [V1 V2]. split; [easy|]. split; [easy|]. split; [|intros p' Ep; now apply (X a p')].
    intro s. apply V2. specialize (Pl s). rewrite Forall_forall in Pl. now apply Pl.
  - assert (WA : forall k v, In (k, v) (e_attributes e) -> In (k, v) (written_attributes attrs)).
    { intros k v I. destruct (AV k v I) as (a & Ia & <- & ->). unfold written_attributes. now apply in_map_iff; exists a. }
    destruct NO as (N1 & N2 & N3 & N4). split; [|split; [|split]].
    + intros k v q m I Qk Nq. rewrite <- D. now apply (N1 k v q m); [apply WA| |].
    + intros k v q k' v' q' m I I' Qk Qk' Nq Nq'. rewrite <- !D. now apply (N2 k v q k' v' q' m); [apply WA|apply WA| | | |].
    + intros p' v I. now apply N3, WA.
    + intros v I. now apply N4, WA.
  - now apply Ext.
Qed.
Lemma tree_ext (st : Prop) : forall e sc sc', (forall q, sc q = sc' q) -> tree_xml st sc e -> tree_xml st sc' e.
Proof.
  intro e. induction e as [e IH] using elem_ind'. intros sc sc' H T. inversion T as [s1 e1 Q E P A NO L]; subst s1 e1.
  assert (D : forall q, declared e sc q = declared e sc' q) by (intro q; unfold declared; now rewrite H).
  constructor; [easy|now rewrite <- D|easy|easy|now apply (names_ext (declared e sc))|].
  apply list_inv in L. destruct L as (L1 & L2 & L3 & L4 & L5). constructor; [easy|easy|easy|easy|]. intros c I. apply (IH c I (declared e sc)); [easy|now apply L5].
Qed.
Lemma list_ext (st : Prop) sc sc' l : (forall q, sc q = sc' q) -> list_xml st sc l -> list_xml st sc' l.
Proof.
  intros H L. apply list_inv in L. destruct L as (L1 & L2 & L3 & L4 & L5). constructor; [easy|easy|easy|easy|]. intros c I. apply (tree_ext st c sc); [easy|now apply L5].
Qed.
Lemma tag_declares sc nm attrs w e : tag_ok sc nm attrs w -> tag_says sc nm attrs e -> forall q, declare attrs sc q = declared e sc q.
Proof.
  intros (_ & (_ & N & _) & _) (_ & _ & G) q. unfold declare, declared. destruct (the_attribute (declaring q) attrs) as [a|] eqn:T.
  - apply the_attribute_in in T. destruct T as [I T]. assert (Gq : get_attr e (declaring q) = Some (value_said (at_value a))) by (apply G; eauto).
    rewrite Gq. now destruct (value_said (at_value a)).
  - destruct (get_attr e (declaring q)) as [v|] eqn:Gq; [|easy]. exfalso. apply G in Gq. destruct Gq as (a & I & K & _).
    rewrite (the_attribute_some _ _ a N I K) in T. discriminate.
Qed.
Lemma tag_tree' (st : Prop) sc nm attrs w e : tag_ok sc nm attrs w -> names_ok (declare attrs sc) (written_attributes attrs) -> tag_says sc nm attrs e -> elem_ok e ->
  (st -> Forall (fun a => plain_pieces (at_value a)) attrs) -> list_xml st (declare attrs sc) (e_children e) -> tree_xml st sc e.
Proof. intros T N S O P. apply (tag_tree st sc nm attrs w); try easy. apply list_ext. now apply (tag_declares sc nm attrs w). Qed.
Lemma one_elem (st : Prop) sc e : tree_xml st sc e -> list_xml st sc [NElem e].
Proof.
  intro T. constructor; [intros _ [|? [|? ?]] ? ? ? E; discriminate|intros t [I|[]]; discriminate|intros t [I|[]]; discriminate|intros t [I|[]]; discriminate|].
  intros c [I|[]]. now injection I as <-.
Qed.
Lemma no_elems (st : Prop) sc : list_xml st sc [].
Proof. constructor; [intros _ [|? ?] ? ? ? E; discriminate|easy..]. Qed.
Lemma text_list (st : Prop) sc t : chardata_ok t -> (st -> plain_pieces t) -> list_xml st sc (text_says t).
Proof.
  intros C P. unfold text_says. destruct (forallb (fun c => existsb (N.eqb c) [32; 9; 13; 10]%N) (text_said t)) eqn:E; [apply no_elems|].
  destruct (text_out t C) as [T1 T2].
  constructor; [intros _ [|? [|? ?]] ? ? ? E'; discriminate| |intros c [I|[]]; discriminate|intros c [I|[]]; discriminate|intros c [I|[]]; discriminate].
  intros s [I|[]]. injection I as <-. split; [easy|]. split; [intro s; now apply T2, P|]. intro S. apply not_true_iff_false in E. apply E.
  apply forallb_forall. intros c Hc. unfold spaces in S. rewrite Forall_forall in S. apply S in Hc. apply existsb_exists. exists c. split; [easy|apply N.eqb_refl].
Qed.
Lemma list_app (st : Prop) sc a b : list_xml st sc a -> list_xml st sc b -> (st -> no_adjacent_text (a ++ b)) -> list_xml st sc (a ++ b).
Proof.
  intros A B N. apply list_inv in A, B. destruct A as (_ & A2 & A3 & A4 & A5), B as (_ & B2 & B3 & B4 & B5).
  constructor; [easy|..]; intros t I; apply in_app_or in I; destruct I as [I|I]; auto.
Qed.
Lemma adjacent_cons n l : (forall t, n <> NText t) -> no_adjacent_text l -> no_adjacent_text (n :: l).
Proof.
  intros N A a s t b E. destruct a as [|x a].
  - injection E as -> _. now apply (N s).
  - injection E as -> E. now apply (A a s t b).
Qed.
Lemma adjacent_text t n l : (forall t, n <> NText t) -> no_adjacent_text l -> no_adjacent_text (text_says t ++ n :: l).
Proof.
  intros N A. apply (adjacent_cons n l N) in A. unfold text_says. destruct (forallb (fun c => existsb (N.eqb c) [32; 9; 13; 10]%N) (text_said t)); [exact A|].
  intros a s t' b E. destruct a as [|x a].
  - cbn [app] in E. injection E as _ E _. now apply (N t').
  - cbn [app] in E. injection E as _ E. now apply (A a s t' b).
Qed.
Lemma nodes_app a b : nodes_ok (a ++ b) -> nodes_ok a /\ nodes_ok b.
Proof. intro H. split; intros c I; apply H; apply in_or_app; [now left|now right]. Qed.
Lemma said_node sc m l : says sc m l -> plain_markup m -> exists n, l = [n] /\ forall t, n <> NText t.
Proof. intros S P. inversion S; subst; try (eexists; split; [reflexivity|easy]). easy. Qed.
Lemma said_tree (st : Prop) : (forall m sc l, markup_ok sc m -> markup_names sc m -> (st -> plain_markup m) -> says sc m l -> nodes_ok l -> list_xml st sc l) /\
  (forall b sc l, content_ok sc b -> content_names sc b -> (st -> plain_content b) -> says_in sc b l -> nodes_ok l -> list_xml st sc l).
Proof.
  apply markup_ind2; cbn [markup_ok content_ok markup_names content_names plain_markup plain_content].
  - intros nm attrs w sc l T N P S O. inversion S as [sc' nm' attrs' w' e TS C| | | |]; subst. apply one_elem.
    apply (tag_tree' st sc nm attrs w); [easy|easy|easy|apply O; now left|easy|]. rewrite C. apply no_elems.
  - intros nm attrs w b IH w' sc l (T & Cb & W) (N & Nb) P S O. inversion S as [|sc' nm' attrs' w0 b' w0' e TS SI| | |]; subst. apply one_elem.
    assert (Oe : elem_ok e) by (apply O; now left).
    apply (tag_tree' st sc nm attrs w); [easy|easy|easy|easy|intro s; now apply P|]. apply IH; [easy|easy|intro s; now apply P|easy|].
    apply elem_ok_inv in Oe. now destruct Oe as (_ & _ & Oe).
  - intros c sc l C _ _ S O. inversion S; subst. constructor; [intros _ [|? [|? ?]] ? ? ? E; discriminate|intros t [I|[]]; discriminate| |intros t [I|[]]; discriminate|intros t [I|[]]; discriminate].
    intros t [I|[]]. injection I as <-. now apply plain_comment.
  - intros c sc l C _ _ S O. inversion S; subst. constructor; [intros _ [|? [|? ?]] ? ? ? E; discriminate|intros t [I|[]]; discriminate|intros t [I|[]]; discriminate| |intros t [I|[]]; discriminate].
    intros t [I|[]]. injection I as <-. now apply plain_cdata.
  - intros p sc l C _ _ S O. inversion S; subst. apply no_elems.
  - intros t sc l C _ P S O. inversion S; subst. now apply text_list.
  - intros t m IHm b IHb sc l (C & Cm & Cb) (Nm & Nb) P S O. inversion S as [|sc' t' m' b' l1 l2 S1 S2]; subst.
    apply nodes_app in O. destruct O as [_ O]. apply nodes_app in O. destruct O as [O1 O2].
    assert (L1 : list_xml st sc l1) by (apply (IHm sc l1); try easy; intro s; now apply P).
    assert (L2 : list_xml st sc l2) by (apply (IHb sc l2); try easy; intro s; now apply P).
    apply list_app; [apply text_list; [easy|intro s; now apply P]|apply list_app; [easy|easy|]|]; intro s.
    + destruct (said_node _ _ _ S1 (proj1 (proj2 (P s)))) as (n & -> & N). apply adjacent_cons; [easy|]. apply list_inv in L2. now apply L2.
    + destruct (said_node _ _ _ S1 (proj1 (proj2 (P s)))) as (n & -> & N). apply adjacent_text; [easy|]. apply list_inv in L2. now apply L2.
Qed.

(** * Written text *)

Definition raw (s : str) : Prop := exists m, s = markup_text m /\ markup_shaped m /\ plain_markup m /\ SpecXml.is_element m.
Lemma escapes_plain set s : plain_pieces (escapes set s).
Proof.
  apply Forall_forall. intros p I. apply in_map_iff in I. destruct I as (c & <- & _). unfold escaped.
  destruct (existsb (N.eqb c) set); [|easy]. now destruct (find (fun nc => (snd nc =? c)%N) predefined) as [[nm x]|].
Qed.
Lemma escapes_shaped set bad s : all_predefined set -> incl bad set -> Forall (shaped bad) (escapes set s).
Proof.
  intros P B. apply Forall_forall. intros p I. apply ok_shaped.
  - apply in_map_iff in I. destruct I as (c & <- & _). apply escaped_ref.
  - intros c -> Ic. apply B in Ic. now apply (escapes_special set s c P Ic).
Qed.
Lemma chars_shaped w : spaces w -> Forall (shaped [60; 38]%N) (map Chr w) /\ plain_pieces (map Chr w).
Proof.
  intro H. unfold spaces in H. rewrite Forall_forall in H. split; apply Forall_forall; intros p I; apply in_map_iff in I; destruct I as (c & <- & I); [|easy].
  cbn [shaped]. intro J. apply H in I. unfold xml_space in I. cbn in I, J. destruct I as [<-|[<-|[<-|[<-|[]]]]]; destruct J as [J|[J|[]]]; discriminate.
Qed.
Lemma out_shaped sc e : tree_xml False sc e -> tag_shaped (qualified e) (out_attrs (e_attributes e)) [] /\
  Forall (fun a => plain_pieces (at_value a)) (out_attrs (e_attributes e)).
Proof.
  intro T. inversion T as [s1 e1 Q E P A NO L]; subst s1 e1. split.
  - split; [now apply qname_name in Q|]. split; [|constructor]. apply Forall_forall. intros a I. apply in_map_iff in I. destruct I as ([k v] & <- & I).
    apply (proj1 (sorted_in _ _)) in I. destruct (A k v I) as ((p & n & Qk) & _). split; [easy|]. split; [constructor; [now left|constructor]|].
    split; [now apply qname_name in Qk|]. split; [constructor|]. split; [constructor|]. split; [now left|].
    apply escapes_shaped; [apply all_predefined_all|]. intros c Hc. cbn in *. unfold dquote in Hc. tauto.
  - apply Forall_forall. intros a I. apply in_map_iff in I. destruct I as ([k v] & <- & I). apply escapes_plain.
Qed.
Lemma raw_elem sc e b : tree_xml False sc e -> content_shaped b -> plain_content b ->
  raw (lit "<" ++ qualified e ++ flat_map attribute_text (out_attrs (e_attributes e)) ++ lit ">" ++ content_text b ++ lit "</" ++ qualified e ++ lit ">").
Proof.
  intros T S P. destruct (out_shaped sc e T) as [T1 T2]. exists (MElem (qualified e) (out_attrs (e_attributes e)) [] b []).
  split; [easy|]. split; [|split; [|easy]].
  - cbn [markup_shaped]. split; [easy|]. split; [easy|constructor].
  - cbn [plain_markup]. now split.
Qed.
Lemma raw_empty sc e : tree_xml False sc e -> raw (lit "<" ++ qualified e ++ flat_map attribute_text (out_attrs (e_attributes e)) ++ lit "/>").
Proof.
  intros T. destruct (out_shaped sc e T) as [T1 T2]. exists (MEmpty (qualified e) (out_attrs (e_attributes e)) []). easy.
Qed.
Lemma list_tail (st : Prop) sc n l : ~ st -> list_xml st sc (n :: l) -> list_xml st sc l.
Proof.
  intros F H. apply list_inv in H. destruct H as (_ & H2 & H3 & H4 & H5).
  constructor; [tauto|intros; apply H2; now right|intros; apply H3; now right|intros; apply H4; now right|intros; apply H5; now right].
Qed.
Lemma raw_leaf (st : Prop) sc n l s : leaf_text n s -> (forall t, n <> NText t) -> list_xml st sc (n :: l) ->
  exists m, s = markup_text m /\ markup_shaped m /\ plain_markup m.
Proof.
  intros L N K. apply list_inv in K. destruct K as (_ & _ & K3 & K4 & _). destruct n as [c|t|c|c]; cbn in L; [contradiction|now destruct (N t)| |]; subst s.
  - destruct (K3 c (or_introl eq_refl)) as [(_ & K) _]. now exists (MComment c).
  - destruct (K4 c (or_introl eq_refl)) as [(_ & K) _]. now exists (MCData c).
Qed.
Definition raw_in (t : list piece) (s : str) : Prop :=
  Forall (shaped [60; 38]%N) t -> plain_pieces t -> exists b, pieces_text t ++ s = content_text b /\ content_shaped b /\ plain_content b.
Lemma inline_raw : forall e s, inline_elem e s -> forall sc, tree_xml False sc e -> raw s.
Proof.
  apply (inline_elem_mut (fun e s => forall sc, tree_xml False sc e -> raw s)
    (fun l s => forall sc, list_xml False sc l -> forall t, raw_in t s)).
  - intros e l A C sc X. rewrite (opening_text _ _ _ A). now apply (raw_empty sc).
  - intros e l s A C _ IH sc X. rewrite (opening_text _ _ _ A).
    destruct (IH _ (tree_inv _ _ _ X) []) as (b & Eb & Sb & Pb); [constructor|constructor|]. cbn [pieces_text flat_map app] in Eb.
    pose proof (raw_elem sc e b X Sb Pb) as R. rewrite <- Eb in R. unfold SpecDom.closing. rewrite <- !app_assoc. exact R.
  - intros sc _ t Ht Hp. exists (CText t). rewrite app_nil_r. easy.
  - intros n s l r L _ IH sc K t Ht Hp.
    assert (D : (exists x, n = NText x) \/ forall x, n <> NText x) by (destruct n; [right; easy|left; eauto|right; easy|right; easy]).
    destruct D as [[x ->]|D].
    + cbn in L. subst s. destruct (IH sc (list_tail _ _ _ _ (fun F : False => F) K) (t ++ escapes text_special x)) as (b & Eb & Sb & Pb).
      * apply Forall_app. split; [easy|]. apply escapes_shaped; [apply text_predefined|]. intros c Hc. cbn in *. tauto.
      * apply Forall_app. split; [easy|apply escapes_plain].
      * exists b. rewrite text_app, escapes_text, <- app_assoc in Eb. easy.
    + destruct (raw_leaf _ _ _ _ _ L D K) as (m & -> & Sm & Pm).
      destruct (IH sc (list_tail _ _ _ _ (fun F : False => F) K) []) as (b & Eb & Sb & Pb); [constructor|constructor|].
      exists (CMore t m b). cbn [content_text]. rewrite <- Eb. easy.
  - intros e s l r _ IHe _ IH sc K t Ht Hp. pose proof K as K'. apply list_inv in K'. destruct K' as (_ & _ & _ & _ & K5).
    destruct (IHe _ (K5 e (or_introl eq_refl))) as (m & -> & Sm & Pm & _).
    destruct (IH sc (list_tail _ _ _ _ (fun F : False => F) K) []) as (b & Eb & Sb & Pb); [constructor|constructor|].
    exists (CMore t m b). cbn [content_text]. rewrite <- Eb. easy.
Qed.
Lemma layout_raw ind : spaces ind -> forall pre e s, layout ind pre e s -> spaces pre -> forall sc, tree_xml False sc e -> exists s', s = pre ++ s' /\ raw s'.
Proof.
  intro Hind.
  apply (layout_mut ind (fun pre e s => spaces pre -> forall sc, tree_xml False sc e -> exists s', s = pre ++ s' /\ raw s')
    (fun pre l s => spaces pre -> no_text l -> forall sc, list_xml False sc l -> forall g z, spaces g -> spaces z ->
       exists b, g ++ s ++ z = content_text b /\ content_shaped b /\ plain_content b)).
  - intros pre e s _ Hi Hp sc X. exists s. split; [easy|]. now apply (inline_raw e s Hi sc).
  - intros pre e l s Hi Hl _ IH Hp sc X.
    assert (Np : no_text (e_children e)) by (intros t Hin; apply Hi; right; left; now exists t).
    destruct (IH (proj2 (Forall_app _ _ _) (conj Hp Hind)) Np _ (tree_inv _ _ _ X) [10%N] pre) as (b & Eb & Sb & Pb).
    + constructor; [|constructor]. cbn. tauto.
    + easy.
    + eexists. split; [reflexivity|]. rewrite (opening_text _ _ _ Hl).
      pose proof (raw_elem sc e b X Sb Pb) as R. rewrite <- Eb in R. unfold SpecDom.closing.
      cbn [app] in R. rewrite <- !app_assoc in *. cbn [app] in *. exact R.
  - intros pre Hp _ sc _ g z Hg Hz. destruct (chars_shaped (g ++ z)) as [C S]; [now apply Forall_app|].
    exists (CText (map Chr (g ++ z))). cbn [content_text app]. rewrite text_chars. easy.
  - intros pre n s l r L _ IH Hp Np sc K g z Hg Hz.
    destruct (IH Hp (fun t Hin => Np t (or_intror Hin)) sc (list_tail _ _ _ _ (fun F : False => F) K) [10%N] z) as (b & Eb & Sb & Pb); [constructor; [cbn; tauto|constructor]|easy|].
    destruct (raw_leaf _ _ _ _ _ L ltac:(intros t ->; apply (Np t); now left) K) as (m & -> & Sm & Pm).
    destruct (chars_shaped (g ++ pre)) as [C S]; [now apply Forall_app|].
    exists (CMore (map Chr (g ++ pre)) m b). cbn [content_text]. rewrite text_chars, <- Eb, <- !app_assoc. easy.
  - intros pre e s l r _ IHe _ IH Hp Np sc K g z Hg Hz.
    destruct (IH Hp (fun t Hin => Np t (or_intror Hin)) sc (list_tail _ _ _ _ (fun F : False => F) K) [10%N] z) as (b & Eb & Sb & Pb); [constructor; [cbn; tauto|constructor]|easy|].
    pose proof K as K'. apply list_inv in K'. destruct K' as (_ & _ & _ & _ & K5).
    destruct (IHe Hp _ (K5 e (or_introl eq_refl))) as (s' & -> & m & -> & Sm & Pm & _).
    destruct (chars_shaped (g ++ pre)) as [C S]; [now apply Forall_app|].
    exists (CMore (map Chr (g ++ pre)) m b). cbn [content_text]. rewrite text_chars, <- Eb, <- !app_assoc. easy.
Qed.
Lemma no_doctype_written l dt r w z z' : miscs_ok l -> doctype_decls l = dt :: r -> spaces w -> miscs_text l ++ z = w ++ doctype_inside dt ++ z' -> False.
Proof.
  intros O D W E. assert (Dt : doctype_ok dt).
  { unfold miscs_ok in O. rewrite Forall_forall in O. assert (I : In dt (doctype_decls l)) by (rewrite D; now left).
    unfold doctype_decls in I. apply in_flat_map in I. destruct I as ([v m] & I & J). apply O in I. destruct I as [_ I]. cbn [snd] in *.
    destruct m; cbn in J; try contradiction. destruct J as [<-|[]]. exact I. }
  destruct l as [|[v m] l]; [discriminate D|]. inversion O as [|? ? [V _] _]; subst. cbn [miscs_text flat_map fst snd] in *. rewrite <- !app_assoc in E.
  destruct Dt as ((_ & S) & N & _). unfold doctype_inside in E. rewrite <- !app_assoc in E. rewrite (app_assoc w) in E.
  apply spaces_split in E; [|easy|now apply Forall_app|apply misc_stop|now apply name_no_space]. destruct E as [_ E].
  destruct (misc_start m (flat_map (fun p => fst p ++ misc_text (snd p)) l ++ z)) as (c & y & Em & _). rewrite Em in E. symmetry in E.
  apply name_not in E; [easy|easy|unfold name_stop; cbn; tauto].
Qed.
Theorem only_xml x d ind : elem_ok (d_root d) -> xml_ok x -> namespaces_ok x -> xml_text x = doc_to_string_with_indent d ind -> xml_says x d -> xml_document d.
Proof.
  intros O Ox Nx E S.
  assert (G : forall i, good_indent i -> xml_text x = doc_to_string_with_indent d i -> xml_document d).
  { clear E. intros i Hi E. pose proof S as (Sd & St & Sr). pose proof Ox as (Od & Op & _ & Og & Oe & _ & Om & Ol & _ & Oend).
    assert (On : nodes_ok [NElem (d_root d)]) by (intros c [I|[]]; now injection I as <-).
    assert (T : tree_xml False no_declarations (d_root d)).
    { assert (L : list_xml False no_declarations [NElem (d_root d)]) by now apply (proj1 (said_tree False) (whole_root x)).
      apply list_inv in L. destruct L as (_ & _ & _ & _ & L). apply L. now left. }
    destruct (doc_layout d i O Hi) as (s & Ls & Es).
    assert (Nd : doctype_decls (xd_prolog x) = []).
    { destruct (doctype_decls (xd_prolog x)) as [|dt r] eqn:Ed; [easy|]. exfalso. rewrite <- E in Es. clear T Ls.
      unfold declaration, doctype_defs in Es. rewrite St, Sd in Es. unfold xml_text in Es.
      apply (no_doctype_written (xd_prolog x) dt r (match xd_decl x with Some _ => [10%N] | None => [] end)
        (xd_gap x ++ markup_text (xd_root x) ++ miscs_text (xd_epilog x) ++ xd_end x) (10%N :: flat_map (fun t => t ++ [10%N]) (map doctype_inside r) ++ s ++ [10%N])); [easy|easy|destruct (xd_decl x); [constructor; [cbn; tauto|constructor]|constructor]|].
      destruct (xd_decl x) as [y|]; cbn [option_map map flat_map app] in Es; rewrite <- ?app_assoc in Es; cbn [app] in Es |- *.
      - do 2 apply app_inv_head in Es. cbn [lit app] in Es. injection Es as Es. exact Es.
      - exact Es. }
    assert (Wr : whole_root x = xd_root x) by (unfold whole_root, attdefs; rewrite Nd; apply completed_nothing).
    rewrite Nd in St. cbn [map] in St.
    destruct (layout_raw i (good_indent_spaces _ Hi) _ _ _ Ls ltac:(constructor) _ T) as (s' & Ess & m & -> & Sm & Pm & Em). cbn [app] in Ess. subst s.
    assert (Eq : x = XDocument (xd_decl x) [] (match xd_decl x with Some _ => [10%N] | None => [] end) m [] [10%N]).
    { apply xml_unique; [now apply xml_ok_shaped| |].
      - split; [intros y Ey; apply decl_ok_shaped; now apply Od|]. split; [constructor|]. split; [|split; [easy|split; [easy|split; [constructor|]]]].
        + cbn. destruct (xd_decl x); [constructor; [cbn; tauto|constructor]|constructor].
        + cbn. constructor; [cbn; tauto|constructor].
      - rewrite E, Es. unfold xml_text, declaration, doctype_defs. rewrite St, Sd. cbn [xd_decl xd_prolog xd_gap xd_root xd_epilog xd_end miscs_text flat_map app].
        destruct (xd_decl x) as [y|]; cbn [option_map]; repeat (rewrite <- !app_assoc; cbn [app]); reflexivity. }
    assert (Er : xd_root x = m) by (rewrite Eq; reflexivity).
    split; [easy|]. split; [easy|]. split.
    - intros y Ey. rewrite Sd in Ey. destruct (xd_decl x) as [z|]; [|discriminate]. injection Ey as <-. exists z. split; [now apply Od|easy].
    - apply tree_strict. assert (L : list_xml True no_declarations [NElem (d_root d)]).
      { apply (proj1 (said_tree True) (whole_root x)); try easy. rewrite Wr, Er. easy. }
      apply list_inv in L. destruct L as (_ & _ & _ & _ & L). apply L. now left. }
  destruct (validate_indent ind) eqn:V; [apply (G ind); [now apply validate_indent_spec|easy]|].
  apply validate_indent_false in V. rewrite doc_bad_indent in E by easy. apply (G (lit "  ")); [right; repeat constructor|]. exact E.
Qed.
Theorem written_xml_iff d ind : elem_ok (d_root d) ->
  ((exists x, xml_ok x /\ namespaces_ok x /\ xml_text x = doc_to_string_with_indent d ind /\ xml_says x d) <-> xml_document d).
Proof.
  intro O. split; [intros (x & A & B & C & D); now apply (only_xml x d ind)|]. apply written_xml.
Qed.

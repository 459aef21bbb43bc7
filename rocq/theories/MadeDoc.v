(** Documents made with ordinary arguments: they come back, and they are XML. *)
From Coq Require Import List NArith Arith Bool Ascii String Lia.
From Verif Require Import Base Escape Dom BaseFacts Spec SpecDom SpecApi SpecTree DomFacts ApiFacts SerFacts Parse SpecLex SpecParse SpecDoc SpecMore
  SpecXml SpecMade ParseTreeFacts ParsedFacts P_Parse DocCheck P_Doc TripFacts P_Trip P_XmlOut MadeFacts.
Import ListNotations.

Lemma is_made K any e : joinable K -> (forall k, k_key K k -> no_declaration k) -> made K any e ->
  uses K e /\ elem_ok e /\ (any = false -> tree_normal e).
Proof. intros J D H. apply (good_uses K any). now apply (made_good K any J D). Qed.

(** * Reading back *)

Lemma declares_plain q : (forall p, q = Some p -> xml_name p) -> plain_name (declares q).
Proof.
  intro H. destruct q as [p|].
  - destruct (H p eq_refl) as (c & r & -> & H1 & H2). exists 120%N, (lit "mlns:" ++ c :: r).
    split; [reflexivity|]. split; [lia|]. apply Forall_app. split; [now apply chars_ok|]. constructor; [now left|easy].
  - now apply plainb_ok.
Qed.
Lemma nearest_found k v l r : In r l -> get_attr r k = Some v -> (forall x w, In x l -> get_attr x k = Some w -> w = v) -> nearest k l = Some v.
Proof.
  induction l as [|x l IH]; [easy|]. intros Hi Hr Hw. cbn [nearest]. destruct (get_attr x k) as [w|] eqn:E.
  - f_equal. apply (Hw x w); [now left|easy].
  - destruct Hi as [->|Hi]; [congruence|]. apply IH; [easy|easy|]. intros y w Hy. apply Hw. now right.
Qed.
Lemma nearest_none k l : (forall x, In x l -> get_attr x k = None) -> nearest k l = None.
Proof.
  induction l as [|x l IH]; [easy|]. intro H. cbn [nearest]. rewrite (H x) by now left. apply IH. intros y Hy. apply H. now right.
Qed.

Section Back.
Variable K : kinds.
Hypothesis HK : ordinary K.

Lemma ordinary_keys : forall k, k_key K k -> no_declaration k.
Proof. destruct HK as (_ & _ & _ & H & _). intros k Hk. now apply H. Qed.
Lemma get_declares e q v : uses K e -> get_attr e (declares q) = Some v -> k_namespaces K q = Some v.
Proof.
  intros [x _ _ H _ _ _ _] G. apply aget_in in G. exact (attr_declares K ordinary_keys _ q v H G).
Qed.

Lemma uses_rule e anc : (forall x, In x (e :: anc) -> uses K x) -> (exists r, In r (e :: anc) /\ declares_all K r) ->
  e_xmlns e = namespace_rule e anc.
Proof.
  intros U (r & Hr & D). assert (Ue : uses K e) by (apply U; now left).
  inversion Ue as [x _ [Hx Hp] _ _ _ _ _]; subst x. destruct HK as (_ & S & _ & _ & _ & _ & _ & _ & Hpx & _).
  unfold namespace_rule. destruct (e_prefix e) as [p|] eqn:Ep.
  - destruct (e_xmlns e) as [v|] eqn:Ex; [|now destruct Hp]. symmetry in Hx.
    change (lit "xmlns:" ++ p) with (declares (Some p)). change (lit "xmlns:" ++ declares (Some p)) with (declares (Some (lit "xmlns:" ++ p))).
    destruct (get_attr e (declares (Some p))) as [w|] eqn:G.
    + apply get_declares in G; [congruence|easy].
    + rewrite nearest_none.
      2: { intros y Hy. destruct (get_attr y (declares (Some (lit "xmlns:" ++ p)))) as [w|] eqn:F; [|easy].
           apply get_declares in F; [|apply U; now right]. apply Hpx in F as [_ F]. destruct F. apply in_or_app. left.
           now do 5 right; left. }
      symmetry. apply nearest_found with (r := r).
      * destruct Hr as [<-|Hr]; [|easy]. specialize (D (Some p) v Hx). congruence.
      * now apply D.
      * intros y w Hy F. apply get_declares in F; [congruence|]. apply U. now right.
  - clear Hp. change (lit "xmlns") with (declares None). destruct (get_attr e (declares None)) as [w|] eqn:G.
    + apply get_declares in G; [congruence|easy].
    + destruct anc as [|q anc].
      * destruct Hr as [<-|[]]. destruct (e_xmlns e) as [v|] eqn:Ex; [|easy]. symmetry in Hx. apply D in Hx. congruence.
      * assert (Uq : uses K q) by (apply U; right; now left). inversion Uq as [y _ [Hy Hyp] _ _ _ _ _]; subst y.
        destruct (e_prefix q) as [p|]; [|congruence]. destruct S as [S|S]; [congruence|]. rewrite S in Hy. now destruct Hyp.
Qed.
Lemma uses_named e : uses K e -> named (qualified e) (e_prefix e) (e_name e).
Proof.
  destruct HK as (_ & S & Hnm & _ & _ & _ & _ & _ & Hpx & _). intros [x Hn [Hx Hp] _ _ _ _ _]. unfold qualified. apply Hnm in Hn as [N C].
  destruct (e_prefix x) as [p|]; [|now constructor]. destruct (e_xmlns x) as [v|]; [|now destruct Hp].
  symmetry in Hx. apply Hpx in Hx as [H1 H2]. now constructor.
Qed.
Lemma uses_attr e k v : uses K e -> In (k, v) (e_attributes e) -> plain_name k /\ survives all_special v.
Proof.
  destruct HK as (_ & _ & _ & Hk & Hv & _ & _ & _ & Hpx & Hs). intros [x _ _ H _ _ _ _] Hi. destruct (H _ _ Hi) as [[H1 H2]|(q & -> & H1)].
  - split; [now apply Hk|now apply Hv].
  - split; [|now apply Hs in H1]. apply declares_plain. intros p ->. now apply Hpx in H1.
Qed.
Lemma uses_well_named : forall e, uses K e -> well_named e.
Proof.
  induction e as [e IH] using elem_ind'. intro U. constructor.
  - now apply uses_named.
  - intros k v Hi. now apply (uses_attr e k v).
  - intros c Hc. apply (IH c Hc). now destruct U; auto.
Qed.
Lemma uses_writable : forall e anc, (forall x, In x (e :: anc) -> uses K x) -> (exists r, In r (e :: anc) /\ declares_all K r) ->
  tree_normal e -> writable anc e.
Proof.
  induction e as [e IH] using elem_ind'. intros anc U R T. assert (Ue : uses K e) by (apply U; now left).
  apply tree_normal_inv in T as [T Tc]. inversion Ue as [x _ _ _ U4 U5 U6 U7]; subst x.
  destruct HK as (_ & _ & _ & _ & _ & Ht & Hc & Hd & _ & _).
  constructor.
  - now apply uses_named.
  - intros k v. now apply uses_attr.
  - now apply uses_rule.
  - easy.
  - auto.
  - auto.
  - auto.
  - intros c Hc'. apply (IH c Hc'); [|destruct R as (r & R1 & R2); exists r; split; [now right|easy]|auto].
    intros y [<-|Hy]; [auto|]. now apply U.
Qed.
Lemma writable_tree_normal : forall e anc, writable anc e -> tree_normal e.
Proof.
  induction e as [e IH] using elem_ind'. intros anc W. inversion W as [? ? _ _ _ T _ _ _ C]; subst. constructor; [easy|].
  intros c Hc. apply (IH c Hc (e :: anc)). auto.
Qed.
Theorem made_back any d ind : made K any (root_element d) -> declares_all K (root_element d) -> doctype_defs d = [] ->
  (forall decl, declaration d = Some decl -> decl_wf decl) -> (comes_back d ind <-> tree_normal (root_element d)).
Proof.
  intros M D Dt Dc. apply is_made in M as (U & O & _); [|apply HK|apply ordinary_keys].
  rewrite C68_exact; [|easy|now apply uses_well_named]. split.
  - intros (_ & _ & _ & W & _). now apply writable_tree_normal in W.
  - intro T. repeat (split; [easy|]). split.
    + apply uses_writable; [|exists (root_element d); split; [now left|easy]|easy]. intros x [<-|[]]. easy.
    + intros p Hp. inversion U as [x _ [Hx Hp'] _ _ _ _ _]; subst x. rewrite Hp in *. destruct (e_xmlns (root_element d)) as [v|]; [|now destruct Hp'].
      symmetry in Hx. apply D in Hx. unfold declares in Hx. now rewrite Hx.
Qed.

(** ** Going on with what was read *)

Lemma same_uses : forall e1 e2, elem_same e1 e2 -> uses K e1 -> uses K e2.
Proof.
  apply (elem_same_mut (fun e1 e2 => uses K e1 -> uses K e2)
    (fun l1 l2 => (forall c, In (NElem c) l1 -> uses K c) ->
       (forall c, In (NElem c) l2 -> uses K c) /\ forall n, (forall c, n <> NElem c) -> In n l2 -> In n l1)).
  - intros e1 e2 E1 E2 E3 P _ IH U. inversion U as [x U1 U2 U3 U4 U5 U6 U7]; subst x.
    destruct (IH U7) as [C1 C2]. constructor.
    + now rewrite <- E1.
    + now rewrite <- E2, <- E3.
    + intros k v Hi. apply U3. eapply Permutation.Permutation_in; [apply Permutation.Permutation_sym, P|exact Hi].
    + intros t Ht. apply U4, C2; easy.
    + intros t Ht. apply U5, C2; easy.
    + intros t Ht. apply U6, C2; easy.
    + easy.
  - easy.
  - intros n l1 l2 Hn _ IH U. destruct IH as [C1 C2]; [intros c Hc; apply U; now right|]. split.
    + intros c [Hc|Hc]; [now destruct (Hn c)|auto].
    + intros x Hx [->|Hi]; [now left|right; auto].
  - intros e1 e2 l1 l2 _ IH1 _ IH2 U. destruct IH2 as [C1 C2]; [intros c Hc; apply U; now right|]. split.
    + intros c [[= <-]|Hc]; [apply IH1, U; now left|auto].
    + intros x Hx [<-|Hi]; [now destruct (Hx e2)|right; auto].
Qed.
Lemma same_declares e1 e2 : elem_ok e2 -> elem_same e1 e2 -> declares_all K e1 -> declares_all K e2.
Proof.
  intros [x O _ _] S D q v H. apply D in H. apply aget_in in H. apply in_aget; [easy|].
  inversion S as [a b _ _ _ P _]; subst. eapply Permutation.Permutation_in; [exact P|exact H].
Qed.
Theorem made_again d ind d' any : made K any (root_element d) -> declares_all K (root_element d) -> doctype_defs d = [] ->
  (forall decl, declaration d = Some decl -> decl_wf decl) -> tree_normal (root_element d) ->
  parse_str (doc_to_string_with_indent d ind) = Ok d' ->
  made K any (root_element d') /\ declares_all K (root_element d') /\ tree_normal (root_element d') /\ doctype_defs d' = [] /\
  declaration d' = declaration d.
Proof.
  intros M D Dt Dc T P. pose proof (proj2 (made_back any d ind M D Dt Dc) T) as (d2 & P2 & E). rewrite P in P2. injection P2 as <-.
  apply is_made in M as (U & O & _); [|apply HK|apply ordinary_keys].
  destruct (C48_parsed_valid _ _ P) as [V' T']. assert (O' : elem_ok (root_element d')) by now apply elem_valid_ok.
  apply doc_eqb_same in E; [|easy..]. destruct E as (E1 & E2 & E3). apply elem_same_sym in E3.
  assert (U' : uses K (root_element d')) by now apply (same_uses (root_element d)).
  split; [now apply (m_parsed K any _ d' P)|]. split; [now apply (same_declares (root_element d))|]. split; [easy|].
  unfold doctype_defs, declaration in *. split; congruence.
Qed.
End Back.

(** * XML *)

Lemma spaces_blank t : t <> [] -> spaces t -> blank t.
Proof.
  intros N S. split; [easy|]. eapply Forall_impl; [|exact S]. intros c H. cbn in H.
  destruct H as [<-|[<-|[<-|[<-|[]]]]]; reflexivity.
Qed.
Lemma ncname_colon s : is_ncname s -> ~ In 58%N s.
Proof. now intros [_ H]. Qed.
Lemma qname_colon k q n : qname k (Some q) n -> exists a b, k = a ++ lit ":" ++ b /\ q = a /\ n = b.
Proof. intro H. inversion H; subst. eauto. Qed.
Lemma qname_declares q p n : (forall x, q = Some x -> is_ncname x) -> qname (declares q) (Some p) n -> p = lit "xmlns".
Proof.
  intros Hq H. inversion H as [|p' n' Hp Hn E]; subst. destruct q as [x|].
  - cbn [declares] in E. apply ncname_colon in Hp.
    assert (X : forall a b c d : str, a ++ lit ":" ++ b = c ++ lit ":" ++ d -> ~ In 58%N a -> ~ In 58%N c -> a = c).
    { induction a as [|x1 a IH]; intros b c d F Ha Hc; destruct c as [|y1 c]; cbn in F.
      - easy.
      - injection F as <- _. destruct Hc. now left.
      - injection F as -> _. destruct Ha. now left.
      - injection F as -> F. f_equal. apply (IH b c d F); intro Z0; [apply Ha|apply Hc]; now right. }
    apply (X p n (lit "xmlns") x); [exact E|exact Hp|]. intro Z0. now repeat destruct Z0 as [Z0|Z0].
  - cbn [declares] in E. assert (In 58%N (lit "xmlns")).
    { rewrite <- E. apply in_or_app. right. now left. }
    repeat (destruct H0 as [H0|H0]; [easy|]). easy.
Qed.
Lemma declares_qname q : (forall x, q = Some x -> is_ncname x) -> exists p n, qname (declares q) p n.
Proof.
  intro H. assert (N : is_ncname (lit "xmlns")).
  { split; [|intro Z0; now repeat destruct Z0 as [Z0|Z0]]. exists 120%N, (lit "mlns"). split; [reflexivity|].
    assert (F : forall c, (97 <= c <= 122)%N -> name_first c).
    { intros c Hc. unfold name_first, in_ranges. do 3 apply Exists_cons_tl. apply Exists_cons_hd. cbn. exact Hc. }
    split; [apply F; lia|]. 
    change (Forall name_next [109; 108; 110; 115]%N). repeat (apply Forall_cons; [left; apply F; lia|]). apply Forall_nil. }
  destruct q as [p|].
  - exists (Some (lit "xmlns")), p. change (declares (Some p)) with (lit "xmlns" ++ lit ":" ++ p). constructor; [easy|now apply H].
  - exists None, (lit "xmlns"). now constructor.
Qed.
Section Xml.
Variable K : kinds.
Hypothesis HK : interchangeable K.

Lemma inter_keys : forall k, k_key K k -> no_declaration k.
Proof.
  destruct HK as (_ & _ & H & _). intros k Hk. apply H in Hk as [[_ Hk] N]. split; [easy|]. intros (r & E).
  apply Hk. rewrite E. apply in_or_app. left. now do 5 right; left.
Qed.
Lemma inter_declares e q v : uses K e -> get_attr e (declares q) = Some v -> k_namespaces K q = Some v.
Proof. intros [x _ _ H _ _ _ _] G. apply aget_in in G. exact (attr_declares K inter_keys _ q v H G). Qed.

(** Inside the element every prefix means what the table says. *)
Definition table (sc : scope) : Prop := forall q, q <> Some (lit "xml") -> sc q = k_namespaces K q.
Lemma table_inside e sc : uses K e -> (table sc \/ declares_all K e /\ sc = no_declarations) -> table (declared e sc).
Proof.
  intros U T q Hq. unfold declared. change (declaring q) with (declares q).
  destruct HK as (_ & _ & _ & _ & _ & _ & _ & _ & Hn).
  destruct (get_attr e (declares q)) as [v|] eqn:G.
  - apply inter_declares in G; [|easy]. rewrite G. apply Hn in G as [_ G]. destruct v; [destruct G; now left|easy].
  - destruct T as [T|[D ->]]; [now apply T|]. destruct (k_namespaces K q) as [v|] eqn:F; [apply D in F; congruence|].
    unfold no_declarations. destruct q as [p|]; [|easy]. destruct (str_eqb p (lit "xml")) eqn:Q; [|easy].
    apply str_eqb_eq in Q. congruence.
Qed.
Lemma not_xml_prefix q v : k_namespaces K q = Some v -> q <> Some (lit "xml").
Proof. destruct HK as (_ & _ & _ & _ & _ & _ & _ & H & _). intros F ->. now apply H in F. Qed.
Lemma uses_xml : forall e sc, uses K e -> (table sc \/ declares_all K e /\ sc = no_declarations) -> tree_normal e -> xml_elem sc e.
Proof.
  induction e as [e IH] using elem_ind'. intros sc U S T. pose proof (table_inside e sc U S) as D.
  apply tree_normal_inv in T as [[T1 T2] Tc]. inversion U as [x U1 [U2 U2'] U3 U4 U5 U6 U7]; subst x.
  destruct HK as (_ & Hnm & Hk & Hv & Ht & Hc & Hd & Hp & Hn).
  assert (QA : forall k v, In (k, v) (e_attributes e) -> (exists n, qname k None n /\ k <> lit "xmlns") \/
    exists q, k = declares q /\ k_namespaces K q = Some v).
  { intros k v Hi. destruct (U3 _ _ Hi) as [[H1 H2]|H]; [left|now right]. apply Hk in H1 as [H1 H3]. exists k. split; [now constructor|easy]. }
  assert (NP : forall k v q n, In (k, v) (e_attributes e) -> qname k (Some q) n -> q = lit "xmlns").
  { intros k v q n Hi Q. destruct (QA _ _ Hi) as [(n' & Q' & _)|(q' & -> & H1)].
    - inversion Q'; subst. inversion Q; subst. match goal with H : is_ncname (q ++ _) |- _ => apply ncname_colon in H; destruct H end.
      apply in_or_app. right. now left.
    - apply (qname_declares q' q n); [|easy]. intros y ->. now apply Hp in H1. }
  constructor.
  - unfold qualified. apply Hnm in U1. destruct (e_prefix e) as [p|]; [|now constructor].
    destruct (e_xmlns e) as [v|]; [|now destruct U2']. symmetry in U2. apply Hp in U2. now constructor.
  - rewrite U2. symmetry. apply D. intro F. rewrite F in *. destruct (e_xmlns e) as [v|]; [|now destruct U2'].
    symmetry in U2. now apply not_xml_prefix in U2.
  - easy.
  - intros k v Hi. destruct (U3 _ _ Hi) as [[H1 H2]|(q & -> & H1)].
    + apply Hk in H1 as [H1 H3]. apply Hv in H2 as [V1 V2]. split; [exists None, k; now constructor|]. repeat (split; [easy|]).
      intros p ->. apply ncname_colon in H1. destruct H1. apply in_or_app. left. now do 5 right; left.
    + split; [apply declares_qname; intros y ->; now apply Hp in H1|]. apply Hn in H1 as [[V1 V2] N]. repeat (split; [easy|]).
      intros p _ ->. apply N. now left.
  - split; [|split; [|split]].
    + intros k v q n Hi Q Nq. now apply (NP k v q n Hi) in Q.
    + intros k v q k' v' q' n Hi _ Q _ Nq. now apply (NP k v q n Hi) in Q.
    + intros p v Hi. destruct (U3 _ _ Hi) as [[H1 _]|(q & E & H1)].
      * apply inter_keys in H1 as [_ H1]. destruct H1. now exists p.
      * change (lit "xmlns:" ++ p) with (declares (Some p)) in E. apply declares_inj in E as <-. pose proof H1 as H2. apply Hp in H1 as (_ & H3 & H4).
        apply Hn in H2 as [_ H2]. split; [split; [easy|intros ->; destruct H2; right; now left]|]. split; [easy|].
        intros ->. destruct H2. do 2 right. now left.
    + intros v Hi. destruct (U3 _ _ Hi) as [[H1 _]|(q & E & H1)].
      * apply inter_keys in H1 as [H1 _]. easy.
      * apply Hn in H1 as [_ H2]. split; intros ->; destruct H2; [right; now left|do 2 right; now left].
  - easy.
  - intros t Hi. pose proof (T2 t Hi) as B. apply U4, Ht in Hi as (N & H1 & H2). repeat (split; [easy|]). intro Sp. apply B. now apply spaces_blank.
  - intros c Hi. now apply Hc, U5.
  - intros c Hi. now apply Hd, U6.
  - intros c Hi. apply (IH c Hi); [auto|now left|auto].
Qed.
Theorem made_xml any d ind : made K any (root_element d) -> declares_all K (root_element d) -> doctype_defs d = [] ->
  (forall s, declaration d = Some s -> exists x, xmldecl_ok x /\ s = decl_inside x) -> tree_normal (root_element d) ->
  written_as_xml d ind.
Proof.
  intros M D Dt Dc T. apply is_made in M as (U & O & _); [|apply HK|apply inter_keys].
  apply C71_written_xml; [easy|]. repeat (split; [easy|]). apply uses_xml; [easy| |easy]. now right.
Qed.
End Xml.

(** * Classes *)

Lemma ascii_last t : ascii_text t -> last_ascii t.
Proof.
  intro H. destruct t as [|c t] using rev_ind; [now left|]. right. exists t, c. split; [easy|].
  apply Forall_app in H as [_ H]. now inversion H.
Qed.
Lemma prefixes_table l q v : prefixes_only l q = Some v -> exists p, q = Some p /\ In (p, v) l.
Proof. destruct q as [p|]; [|easy]. intro H. apply aget_in in H. eauto. Qed.
Lemma ascii_ordinary ns : (ns None = None \/ forall p, ns (Some p) = None) ->
  (forall p v, ns (Some p) = Some v -> xml_name p /\ ~ In colon p) -> (forall q v, ns q = Some v -> survives all_special v) ->
  ordinary (ascii_kinds ns).
Proof.
  intros H1 H2 H3. split; [|split]; [|exact H1|].
  - intros s t [N S] [_ T]. split; [now destruct s|]. apply Forall_app. easy.
  - split; [easy|]. split; [easy|]. split; [|split; [|repeat (split; [easy|]); easy]].
    + intros v Hv. apply C31_texts. left. now apply ascii_last.
    + intros t [N Ht]. split; [easy|]. apply C31_texts. left. now apply ascii_last.
Qed.
Lemma unescaped_ordinary ns : (ns None = None \/ forall p, ns (Some p) = None) ->
  (forall p v, ns (Some p) = Some v -> xml_name p /\ ~ In colon p) -> (forall q v, ns q = Some v -> survives all_special v) ->
  ordinary (unescaped_kinds ns).
Proof.
  intros H1 H2 H3. split; [|split]; [|exact H1|].
  - intros s t [N S] [_ T]. split; [now destruct s|]. intros c Hc Hi. apply in_app_or in Hi as [Hi|Hi]; [now apply (S c)|now apply (T c)].
  - split; [easy|]. split; [easy|]. split; [|split; [|repeat (split; [easy|]); easy]].
    + intros v Hv. apply C31_texts. now right.
    + intros t [N Ht]. split; [easy|]. apply C31_texts. now right.
Qed.
Lemma xml_interchangeable ns : 
  (forall p v, ns (Some p) = Some v -> is_ncname p /\ p <> lit "xml" /\ p <> lit "xmlns") ->
  (forall q v, ns q = Some v -> xml_value v /\ ~ In v [[]; xml_namespace; xmlns_namespace]) ->
  interchangeable (xml_kinds ns).
Proof.
  intros H2 H3. split.
  - intros s t (N & S & R) (_ & T & R'). split; [now destruct s|]. split; [now apply Forall_app|].
    intro Hi. apply in_app_or in Hi as [Hi|Hi]; auto.
  - do 6 (split; [easy|]). split; [exact H2|exact H3].
Qed.

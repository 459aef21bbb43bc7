(** Property C85: programs that build documents from ordinary names, texts and
    namespaces get documents that survive being saved and loaded.  Which calls a
    program makes, and what "ordinary" means, is defined in SpecMade.v. *)
From Coq Require Import List NArith Arith Bool Ascii String Lia.
From Verif Require Import Base Escape Dom BaseFacts Spec SpecDom SpecTree DomFacts SerFacts Parse SpecLex SpecParse SpecDoc SpecMore
  SpecXml DocCheck P_Trip P_XmlOut SpecMade MadeFacts MadeDoc.
Import ListNotations.

Lemma default_wf : forall decl, Some declaration_default = Some decl -> decl_wf decl.
Proof. intros d [= <-]. now apply declb_ok. Qed.
Lemma default_xml : forall s, Some declaration_default = Some s -> exists x, xmldecl_ok x /\ s = decl_inside x.
Proof.
  intros s [= <-].
  exists (XmlDecl (Pseudo (lit " ") [] [] 34%N (lit "1.0")) (Some (Pseudo (lit " ") [] [] 34%N (lit "UTF-8"))) None []).
  split; [|reflexivity]. now apply XmlCheck.xmldeclb_ok.
Qed.

(** Whatever calls a program makes, the tree holds nothing but what it gave: no
    name, attribute, text, comment, CDATA section or namespace of another class
    turns up, and an element has the namespace that belongs to its prefix. *)
Theorem C85_keeps : forall K any e, joinable K -> (forall k, k_key K k -> no_declaration k) -> made K any e ->
  uses K e /\ elem_ok e.
Proof. intros K any e J D M. now destruct (is_made K any e J D M) as (H1 & H2 & _). Qed.
(** If it is careful when it removes and assigns texts, texts are never blank and
    never next to each other. *)
Theorem C85_normal : forall K e, joinable K -> (forall k, k_key K k -> no_declaration k) -> made K false e -> tree_normal e.
Proof. intros K e J D M. now destruct (is_made K false e J D M) as (_ & _ & H); apply H. Qed.

(** With ordinary arguments and the namespaces declared on the root, a document
    survives being saved and loaded exactly if its texts are not blank and not next
    to each other, whatever the program did ... *)
Theorem C85_back : forall K any d ind, ordinary K -> made K any (root_element d) -> declares_all K (root_element d) ->
  doctype_defs d = [] -> (forall decl, declaration d = Some decl -> decl_wf decl) ->
  (comes_back d ind <-> tree_normal (root_element d)).
Proof. intros K any d ind O. now apply made_back. Qed.
(** ... and always if the program is careful. *)
Theorem C85_always : forall K d ind, ordinary K -> made K false (root_element d) -> declares_all K (root_element d) ->
  doctype_defs d = [] -> (forall decl, declaration d = Some decl -> decl_wf decl) -> comes_back d ind.
Proof.
  intros K d ind O M D Dt Dc. apply (C85_back K false d ind O M D Dt Dc).
  apply (C85_normal K); [apply O|now apply ordinary_keys|easy].
Qed.
(** A program can go on with what it loaded: it is again a document made with these
    arguments, so it can be changed, saved and loaded any number of times. *)
Theorem C85_again : forall K any d ind d', ordinary K -> made K any (root_element d) -> declares_all K (root_element d) ->
  doctype_defs d = [] -> (forall decl, declaration d = Some decl -> decl_wf decl) -> tree_normal (root_element d) ->
  parse_str (doc_to_string_with_indent d ind) = Ok d' ->
  made K false (root_element d') /\ declares_all K (root_element d') /\ doctype_defs d' = [] /\ declaration d' = declaration d.
Proof.
  intros K any d ind d' O M D Dt Dc T P. destruct (made_again K O d ind d' any M D Dt Dc T P) as (M' & D' & T' & E1 & E2).
  repeat split; try easy. apply (m_parsed K false _ d' P). apply (C85_keeps K any); [apply O|now apply ordinary_keys|easy].
Qed.
(** With arguments that XML can hold, what is written is XML and says the document
    to any XML reader. *)
Theorem C85_xml : forall K d ind, interchangeable K -> made K false (root_element d) -> declares_all K (root_element d) ->
  doctype_defs d = [] -> (forall s, declaration d = Some s -> exists x, xmldecl_ok x /\ s = decl_inside x) ->
  written_as_xml d ind.
Proof.
  intros K d ind O M D Dt Dc. apply (made_xml K O false d ind M D Dt Dc).
  apply (C85_normal K); [apply O|now apply inter_keys|easy].
Qed.

(** This holds for the documents that [Document::new] makes, with its default
    declaration. *)
Theorem C85_new : forall K e ind, made K false e -> declares_all K e ->
  (ordinary K -> comes_back (doc_new e) ind) /\ (interchangeable K -> written_as_xml (doc_new e) ind).
Proof.
  intros K e ind M D. split; intro O.
  - apply (C85_always K); try easy. exact default_wf.
  - apply (C85_xml K); try easy. exact default_xml.
Qed.

(** Classes to which this applies: names that start with an ASCII letter or '_', with
    ASCII texts and values or with any that need no escaping, and one of the two
    styles of namespaces; everything XML can hold. *)
Theorem C85_classes : forall ns,
  (ns None = None \/ forall p, ns (Some p) = None) ->
  (forall p v, ns (Some p) = Some v -> xml_name p /\ ~ In colon p) ->
  (forall q v, ns q = Some v -> ascii_text v) ->
  ordinary (ascii_kinds ns) /\ ordinary (unescaped_kinds ns).
Proof.
  intros ns H1 H2 H3. assert (H4 : forall q v, ns q = Some v -> survives all_special v).
  { intros q v H. apply P_Doc.C31_texts. left. apply ascii_last. eauto. }
  split; [now apply ascii_ordinary|now apply unescaped_ordinary].
Qed.
Theorem C85_xml_class : forall ns,
  (forall p v, ns (Some p) = Some v -> is_ncname p /\ p <> lit "xml" /\ p <> lit "xmlns") ->
  (forall q v, ns q = Some v -> xml_value v /\ ~ In v [[]; xml_namespace; xmlns_namespace]) ->
  interchangeable (xml_kinds ns).
Proof. exact xml_interchangeable. Qed.

(** * Examples *)

Definition ok_elem (o : outcome elem) : elem := match o with Ok e => e | _ => mkElem [] [] [] None None [] end.
Definition ok_doc (o : outcome document) : document := match o with Ok d => d | _ => mkDoc None [] (mkElem [] [] [] None None []) end.
(** A root that declares a namespace, an element with prefix and text, a comment, an
    attribute. *)
Definition ex_ns : option str -> option str := prefixes_only [(lit "p", lit "urn:u")].
Definition ex_root : elem := ok_elem (element_new (lit "r") None (Some [(lit "xmlns:p", lit "urn:u")]) None None None).
Definition ex_item : elem := ok_elem (element_new (lit "item") (Some (lit "bread & butter")) None (Some (lit "urn:u")) (Some (lit "p")) None).
Definition ex_one : elem := ok_elem (append ex_root (NElem ex_item)).
Definition ex_two : elem := ok_elem (insert ex_one 0 (NComment (lit "list"))).
Definition ex_made : elem := snd (set_attr ex_two (lit "k") (lit "a<b")).

Lemma ex_prefixes : forall p v, ex_ns (Some p) = Some v -> xml_name p /\ ~ In colon p.
Proof.
  intros p v H. apply prefixes_table in H as (q & [= <-] & [[= <- <-]|[]]). split; [|now intros [H|[]]].
  exists 112%N, []. split; [reflexivity|]. split; [now apply name_startb_ok|constructor].
Qed.
Lemma ex_values : forall q v, ex_ns q = Some v -> ascii_text v.
Proof. intros q v H. apply prefixes_table in H as (p & -> & [[= <- <-]|[]]). repeat constructor. Qed.
Lemma plain s : plainb s = true -> forallb (fun c => negb (c =? 58)%N) s = true -> plain_name s /\ ~ In colon s.
Proof.
  intros H1 H2. split; [now apply plainb_ok|]. intro H. rewrite forallb_forall in H2. now apply H2 in H.
Qed.
Lemma ascii_dec s : forallb (fun c => c <? 128)%N s = true -> ascii_text s.
Proof. intro H. apply Forall_forall. rewrite forallb_forall in H. intros c Hc. now apply N.ltb_lt, H. Qed.

Lemma ex_declares K q v : k_namespaces K q = Some v -> k_attr K (declares q) v.
Proof. intro H. right. now exists q. Qed.

Example C85_example : made (ascii_kinds ex_ns) false ex_made /\ ordinary (ascii_kinds ex_ns) /\ declares_all (ascii_kinds ex_ns) ex_made /\
  doc_to_string (doc_new ex_made) = lit "<?xml version=""1.0"" encoding=""UTF-8""?>" ++ [10%N] ++ lit "<r xmlns:p=""urn:u"" k=""a&lt;b"">" ++ [10%N] ++
    lit "  <!--list-->" ++ [10%N] ++ lit "  <p:item>bread &amp; butter</p:item>" ++ [10%N] ++ lit "</r>" ++ [10%N].
Proof.
  split; [|split; [|split]].
  - set (K := ascii_kinds ex_ns).
    assert (M0 : made K false ex_root).
    { apply (m_new K false (lit "r") None (Some [(lit "xmlns:p", lit "urn:u")]) None None None); [now apply plain|easy|easy| |easy|now vm_compute].
      intros m k v [= <-] [[= <- <-]|[]]. now apply (ex_declares K (Some (lit "p"))). }
    assert (Mi : made K false ex_item).
    { apply (m_new K false (lit "item") (Some (lit "bread & butter")) None (Some (lit "urn:u")) (Some (lit "p")) None); [now apply plain|easy| |easy|easy|now vm_compute].
      intros t [= <-]. split; [easy|]. now apply ascii_dec. }
    assert (M1 : made K false ex_one).
    { apply (m_does K false ex_root); [easy|]. apply (do_append K false ex_root (NElem ex_item)); [now constructor|now vm_compute]. }
    assert (M2 : made K false ex_two).
    { apply (m_does K false ex_one); [easy|]. apply (do_insert K false ex_one 0 (NComment (lit "list"))).
      - apply (mn_comment K false (lit "list")); [|now vm_compute]. now apply commentb_ok.
      - now vm_compute. }
    apply (m_does K false ex_two); [easy|]. apply do_set_attr. left. split; [|now apply ascii_dec].
    split; [now apply plainb_ok|]. split; [easy|]. intros (r & H). easy.
  - apply C85_classes; [now left|exact ex_prefixes|exact ex_values].
  - intros q v H. apply prefixes_table in H as (p & -> & [[= <- <-]|[]]). now vm_compute.
  - now vm_compute.
Qed.

(** What each condition is for.  A comment removed from between two texts leaves
    them next to each other: written and read, they are one. *)
Definition no_K : kinds := ascii_kinds no_namespaces.
Lemma no_K_ordinary : ordinary no_K.
Proof. apply C85_classes; [now left|easy|easy]. Qed.
Lemma not_normal e s t : children e = [NText s; NText t] -> ~ tree_normal e.
Proof. intros E T. inversion T as [x [H _] _]; subst x. now apply (H [] s t []). Qed.
Definition ex_mixed : elem := ok_elem (new_with_children (lit "a") [NText (lit "x"); NComment (lit "c"); NText (lit "y")]).
Lemma text_made any t : t <> [] -> forallb (fun c => c <? 128)%N t = true -> made_node no_K any (NText t).
Proof. intros N H. constructor. split; [easy|now apply ascii_dec]. Qed.
Lemma mixed_made any : made no_K any ex_mixed.
Proof.
  apply (m_new no_K any (lit "a") None None None None (Some [NText (lit "x"); NComment (lit "c"); NText (lit "y")])); [now apply plain|easy|easy|easy| |now vm_compute].
  intros l n [= <-] [<-|[<-|[<-|[]]]]; [now apply text_made| |now apply text_made].
  apply (mn_comment no_K any (lit "c")); [now apply commentb_ok|now vm_compute].
Qed.
Theorem C85_mixed_refuted : exists e, made no_K true e /\ ordinary no_K /\ declares_all no_K e /\
  e = ok_elem (bind (remove ex_mixed 1) (fun r => Ok (snd r))) /\ forall ind, ~ comes_back (doc_new e) ind.
Proof.
  set (e := ok_elem (bind (remove ex_mixed 1) (fun r => Ok (snd r)))). exists e.
  assert (M : made no_K true e).
  { apply (m_does no_K true ex_mixed); [apply mixed_made|]. apply (do_remove no_K true ex_mixed 1 (NComment (lit "c"))); [now left|now vm_compute]. }
  repeat (split; [easy || exact no_K_ordinary|]). intros ind B.
  apply (C85_back no_K true (doc_new e) ind no_K_ordinary M) in B; [|easy|easy|exact default_wf]. revert B. now apply (not_normal e (lit "x") (lit "y")).
Qed.
(** A blank text put in place of another is dropped. *)
Theorem C85_blank_refuted : exists e, made no_K true e /\ ordinary no_K /\ declares_all no_K e /\
  children e = [NText (lit " "); NComment (lit "c"); NText (lit "y")] /\ forall ind, ~ comes_back (doc_new e) ind.
Proof.
  set (e := set_children ex_mixed ([] ++ [NText (lit " ")] ++ [NComment (lit "c"); NText (lit "y")])). exists e.
  assert (M : made no_K true e).
  { apply (m_does no_K true ex_mixed); [apply mixed_made|]. apply (do_text no_K true ex_mixed [] (lit "x")); [now vm_compute| |now left].
    split; [easy|now apply ascii_dec]. }
  repeat (split; [easy || exact no_K_ordinary|]). intros ind B.
  apply (C85_back no_K true (doc_new e) ind no_K_ordinary M) in B; [|easy|easy|exact default_wf]. inversion B as [x [_ H] _]; subst x.
  apply (H (lit " ")); [now left|]. split; [easy|]. now repeat constructor.
Qed.
(** An empty text is kept in memory and lost in the file. *)
Definition maybe_empty : kinds :=
  Kinds (k_name no_K) (k_key no_K) (k_value no_K) ascii_text (k_comment no_K) (k_cdata no_K) no_namespaces.
Theorem C85_empty_refuted : exists e, made maybe_empty false e /\ new_with_text (lit "a") [] = Ok e /\ children e = [NText []] /\
  ~ comes_back (doc_new e) (lit "  ").
Proof.
  exists (ok_elem (new_with_text (lit "a") [])). split; [|split; [|split]].
  - apply (m_new maybe_empty false (lit "a") (Some []) None None None None); [now apply plain|easy| |easy|easy|now vm_compute].
    intros t [= <-]. constructor.
  - now vm_compute.
  - now vm_compute.
  - intros (d' & P & E). revert E. replace d' with (ok_doc (parse_str (doc_to_string_with_indent (doc_new (ok_elem (new_with_text (lit "a") []))) (lit "  ")))).
    + vm_compute. intro X0. discriminate X0.
    + now rewrite P.
Qed.
(** With a default namespace and prefixes at once, an element without prefix inside
    one with a prefix loses its namespace, though the text is the right XML. *)
Definition both : option str -> option str :=
  fun q => match q with None => Some (lit "d") | Some p => aget p [(lit "p", lit "u")] end.
Definition ex_c : elem := ok_elem (element_new (lit "c") None None (Some (lit "d")) None None).
Definition ex_b : elem := ok_elem (element_new (lit "b") None None (Some (lit "u")) (Some (lit "p")) (Some [NElem ex_c])).
Definition ex_a : elem :=
  ok_elem (element_new (lit "a") None (Some [(lit "xmlns", lit "d"); (lit "xmlns:p", lit "u")]) (Some (lit "d")) None (Some [NElem ex_b])).
Theorem C85_style_refuted : made (ascii_kinds both) false ex_a /\ declares_all (ascii_kinds both) ex_a /\
  ~ comes_back (doc_new ex_a) (lit "  ") /\ forall ind, written_as_xml (doc_new ex_a) ind.
Proof.
  assert (A : forall K, k_namespaces K = both -> (forall nm, In nm [lit "a"; lit "b"; lit "c"] -> k_name K nm) -> made K false ex_a /\ declares_all K ex_a).
  { intros K E Nm.
    assert (Mc : made K false ex_c).
    { apply (m_new K false (lit "c") None None (Some (lit "d")) None None);
        [apply Nm; cbn; tauto|now unfold k_namespace; rewrite E|easy|easy|easy|now vm_compute]. }
    assert (Mb : made K false ex_b).
    { apply (m_new K false (lit "b") None None (Some (lit "u")) (Some (lit "p")) (Some [NElem ex_c]));
        [apply Nm; cbn; tauto|now unfold k_namespace; rewrite E|easy|easy| |now vm_compute].
      intros l n [= <-] [<-|[]]. now constructor. }
    split.
    - apply (m_new K false (lit "a") None (Some [(lit "xmlns", lit "d"); (lit "xmlns:p", lit "u")]) (Some (lit "d")) None (Some [NElem ex_b]));
        [apply Nm; cbn; tauto|now unfold k_namespace; rewrite E|easy| | |now vm_compute].
      + intros m k v [= <-] [[= <- <-]|[[= <- <-]|[]]]; [apply (ex_declares K None)|apply (ex_declares K (Some (lit "p")))]; now rewrite E.
      + intros l n [= <-] [<-|[]]. now constructor.
    - intros q v. rewrite E. destruct q as [p|]; cbn [both].
      + intro H. apply aget_in in H as [[= <- <-]|[]]. now vm_compute.
      + intros [= <-]. now vm_compute. }
  split; [|split; [|split]].
  - apply A; [reflexivity|]. intros nm [<-|[<-|[<-|[]]]]; now apply plain.
  - apply A; [reflexivity|]. intros nm [<-|[<-|[<-|[]]]]; now apply plain.
  - intros (d' & P & E). revert E. replace d' with (ok_doc (parse_str (doc_to_string_with_indent (doc_new ex_a) (lit "  ")))).
    + vm_compute. intro X0. discriminate X0.
    + now rewrite P.
  - intro ind.
    assert (N : forall c, (97 <= c <= 122)%N -> is_ncname [c]).
    { intros c Hc. split; [|intros [H|[]]; lia]. exists c, []. split; [reflexivity|]. split; [|constructor].
      unfold name_first, in_ranges. do 3 apply Exists_cons_tl. now apply Exists_cons_hd. }
    assert (X : interchangeable (xml_kinds both)).
    { apply C85_xml_class.
      - intros p v H. apply aget_in in H as [[= <- <-]|[]]. split; [apply (N 112%N); lia|easy].
      - assert (V : forall c, (97 <= c <= 122)%N -> xml_value [c] /\ ~ In [c] [[]; xml_namespace; xmlns_namespace]).
        { intros c Hc. split; [|intros [H|[H|[H|[]]]]; discriminate H]. split.
          - constructor; [|constructor]. unfold xml_char, in_ranges. do 2 apply Exists_cons_tl. apply Exists_cons_hd. cbn. lia.
          - intros x Hx [->|[]]. destruct Hx as [<-|[<-|[<-|[]]]]; lia. }
        intros q v. destruct q as [p|]; cbn [both].
        + intro H. apply aget_in in H as [[= <- <-]|[]]. apply (V 117%N). lia.
        + intros [= <-]. apply (V 100%N). lia. }
    apply (C85_new (xml_kinds both) ex_a ind); [..|exact X]; apply A; try reflexivity;
      (intros nm [<-|[<-|[<-|[]]]]; [apply (N 97%N)|apply (N 98%N)|apply (N 99%N)]; lia).
Qed.
Print Assumptions C85_keeps.
Print Assumptions C85_normal.
Print Assumptions C85_back.
Print Assumptions C85_always.
Print Assumptions C85_again.
Print Assumptions C85_xml.
Print Assumptions C85_new.
Print Assumptions C85_classes.
Print Assumptions C85_xml_class.
Print Assumptions C85_mixed_refuted.
Print Assumptions C85_blank_refuted.
Print Assumptions C85_empty_refuted.
Print Assumptions C85_style_refuted.

(** C70: XML 1.0 documents are read as XML 1.0 says. *)
From Coq Require Import List NArith Arith Bool Ascii String Lia.
From Verif Require Import Base Escape Dom Spec SpecDom SerFacts Parse SpecLex SpecParse SpecXml XmlFacts XmlCheck XmlUnique P_Parse.
Import ListNotations.

(** Every well-formed XML document of the subset (it refers to no entities but the
    predefined ones) is accepted, and the tree has exactly the names, namespaces,
    attributes, texts, comments and CDATA sections that the document has according
    to XML 1.0 and Namespaces in XML, and the DTD as written. *)
Theorem C70_reads_xml : forall x, xml_ok x -> easy_xml x -> exists d, parse_str (xml_text x) = Ok d /\ xml_says x d.
Proof. exact xml_read. Qed.
(** What XML says determines the document up to equality, so the one read is the
    only one it could be. *)
Theorem C70_only : forall x d d', xml_ok x -> easy_xml x -> parse_str (xml_text x) = Ok d ->
  xml_says x d' -> elem_ok (d_root d') -> doc_eqb d d' = true.
Proof.
  intros x d d' O E P S V. destruct (xml_read x O E) as (d1 & P1 & S1). rewrite P in P1. injection P1 as <-.
  apply (xml_says_same x); [easy|easy| |easy]. apply elem_valid_ok. now apply (C48_parsed_valid _ _ P).
Qed.
(** A text has one parse tree only, so what XML says about it is not a matter of
    choice. *)
Theorem C70_one_tree : forall x y, xml_ok x -> xml_ok y -> xml_text x = xml_text y -> x = y.
Proof. intros x y X Y. apply xml_unique; now apply xml_ok_shaped. Qed.
(** The condition on references holds for every text or value without numeric
    references that ends with an ASCII character. *)
Theorem C70_references : forall l, Forall (fun p => ~ numeric p) l -> last_ascii (pieces_text l) -> references_apart l.
Proof. exact apart_ascii. Qed.

Definition tx (s : string) : list piece := map Chr (lit s).
Definition attr_ (k v : string) : attribute := Attribute (lit " ") (lit k) [] [] dquote (tx v).
Definition only (m : markup) : xdocument := XDocument None [] [] m [] [].
Definition within (t : list piece) : xdocument := only (MElem (lit "a") [] [] (CText t) []).
Definition ex_doctype : doctype :=
  Doctype (lit " ") (lit "p:r") (Some (External (lit " ") (Some (lit " ", dquote, lit "-//X//don't")) (lit " ") squote (lit "<"">"))) (lit " ")
    (Some ([(lit " ", DtElement (lit " ") (lit "p:r") (lit " ")
               (CsChildren (CpGroup 124%N (lit " ") (CpMore (CpName (lit "b") (lit "+")) [] (lit " ")
                  (CpLast (CpGroup 44%N [] (CpMore (CpName (lit "c") []) [] [] (CpLast (CpName (lit "d") (lit "?")) [])) []) [])) (lit "*"))) []);
            ([], DtComment (lit " c ")); ([10%N], DtElement (lit " ") (lit "b") (lit " ") (CsMixed [] [(lit " ", [], lit "c")] [] (lit "*")) (lit " "));
            ([], DtElement (lit " ") (lit "c") (lit " ") CsEmpty []);
            ([10%N], DtAttlist (lit " ") (lit "p:r") [AttDef (lit " ") (lit "k") (lit " ") (AtKeyword (lit "CDATA")) (lit " ") (DfValue None squote (tx "x>"""));
                AttDef [10%N] (lit "id") (lit " ") (AtKeyword (lit "ID")) (lit " ") DfImplied] (lit " "));
            ([], DtAttlist (lit " ") (lit "b") [AttDef (lit " ") (lit "t") (lit " ") (AtEnum None [] (lit "1") [(lit " ", lit " ", lit "2x")] []) (lit " ") (DfValue (Some (lit " ")) dquote (tx "2x"));
                AttDef (lit " ") (lit "n") (lit " ") (AtEnum (Some (lit " ")) [] (lit "gif") [] (lit " ")) (lit " ") DfRequired] []);
            ([], DtEntity (lit " ") (lit "e") (EdValue (lit " ") dquote (tx "<b>'" ++ [Ent (lit "f")] ++ tx "</b>" ++ [Dec (lit "60")])) []);
            ([], DtEntity (lit " ") (lit "g") (EdExternal (External (lit " ") None (lit " ") squote (lit "g.gif")) (Some (lit " ", lit " ", lit "gif"))) []);
            ([], DtParameter (lit " ") (lit " ") (lit "e") (EdValue (lit " ") squote (tx """>")) (lit " "));
            ([], DtNotation (lit " ") (lit "gif") (NtPublic (lit " ") (lit " ") dquote (lit "GIF")) []);
            ([], DtPI (ProcInst (lit "p") (lit " q")))], lit " ", [])).
(** A document with everything. *)
Definition ex_xml : xdocument :=
  XDocument (Some (XmlDecl (Pseudo (lit " ") (lit " ") [] dquote (lit "1.0")) (Some (Pseudo (lit " ") [] [] squote (lit "UTF-8"))) None (lit " ")))
    [(lit " ", MiscComment (lit " first ")); ([10%N], MiscDoctype ex_doctype)] [10%N]
    (MElem (lit "p:r") [attr_ "xmlns:p" "u"; Attribute [10%N] (lit "k") [] [] squote (tx "1 " ++ [Ent (lit "lt")] ++ tx " ""2"" " ++ map Chr [233%N]); attr_ "p:k" ">"] (lit " ")
       (CMore (tx " ") (MElem (lit "b") [attr_ "xmlns" "d"; attr_ "t" "2x"] []
          (CMore (tx "x " ++ [Ent (lit "amp")] ++ tx " y > z ") (MEmpty (lit "c") [attr_ "t" " u "] []) (CText (tx " end" ++ [Ent (lit "quot")]))) (lit " "))
        (CMore [] (MComment (lit " - c - ")) (CMore (tx "t") (MCData (lit "<&]]")) (CText [])))) [])
    [] [10%N].
Example C70_example : xml_ok ex_xml /\ easy_xml ex_xml /\
  xml_text ex_xml = lit "<?xml version =""1.0"" encoding='UTF-8' ?> <!-- first -->" ++ [10%N] ++
    lit "<!DOCTYPE p:r PUBLIC ""-//X//don't"" '<"">' [ <!ELEMENT p:r ( b+| (c,d?))*><!-- c -->" ++ [10%N] ++
    lit "<!ELEMENT b (#PCDATA |c)* ><!ELEMENT c EMPTY>" ++ [10%N] ++
    lit "<!ATTLIST p:r k CDATA 'x>""'" ++ [10%N] ++ lit "id ID #IMPLIED ><!ATTLIST b t (1 | 2x) #FIXED ""2x"" n NOTATION (gif ) #REQUIRED>" ++
    lit "<!ENTITY e ""<b>'&f;</b>&#60;""><!ENTITY g SYSTEM 'g.gif' NDATA gif><!ENTITY % e '"">' ><!NOTATION gif PUBLIC ""GIF""><?p q?> ]>" ++ [10%N] ++
    lit "<p:r xmlns:p=""u""" ++ [10%N] ++ lit "k='1 &lt; ""2"" " ++ [233%N] ++ lit "' p:k="">"" > <b xmlns=""d"" t=""2x"">x &amp; y > z <c t="" u ""/> end&quot;</b ><!-- - c - -->t<![CDATA[<&]]]]></p:r>" ++ [10%N] /\
  exists d, parse_str (xml_text ex_xml) = Ok d /\ d_dtds d = [doctype_inside ex_doctype] /\ e_xmlns (d_root d) = Some (lit "u") /\
    (exists b rest, e_children (d_root d) = NElem b :: rest /\ e_xmlns b = Some (lit "d") /\
      exists c, e_children b = [NText (lit "x & y > z "); NElem c; NText (lit " end""")] /\ e_xmlns c = Some (lit "d")).
Proof.
  split; [apply xml_okb_ok; vm_compute; reflexivity|]. split; [apply easy_xmlb_ok; vm_compute; reflexivity|].
  split; [vm_compute; reflexivity|]. eexists. split; [vm_compute; reflexivity|]. split; [reflexivity|]. split; [reflexivity|].
  eexists _, _. split; [reflexivity|]. split; [reflexivity|]. eexists. split; reflexivity.
Qed.

(** What normalization does to the value said: the words remain, with one space
    between two of them. *)
Theorem C70_tokens : forall l, Forall reference_ok l -> value_said (tokens l) = join (words (value_said l)).
Proof. exact tokens_said. Qed.
Example C70_tokens_example : value_said (tokens ([Chr 10%N; Dec (lit "32")] ++ tx "a  b" ++ [Chr 13%N; Chr 10%N; Ent (lit "lt"); Chr 9%N])) = lit "a b <".
Proof. vm_compute. reflexivity. Qed.
(** Attributes completed from declarations: the first one for an attribute counts. *)
Definition ex_defs : list (str * attdef) :=
  map (pair (lit "a")) [AttDef (lit " ") (lit "k") (lit " ") (AtKeyword (lit "CDATA")) (lit " ") (DfValue None dquote (tx " v "));
    AttDef (lit " ") (lit "k") (lit " ") (AtKeyword (lit "ID")) (lit " ") (DfValue None dquote (tx "w"));
    AttDef (lit " ") (lit "l") (lit " ") (AtKeyword (lit "NMTOKENS")) (lit " ") (DfValue None dquote (tx " x  y "));
    AttDef (lit " ") (lit "m") (lit " ") (AtKeyword (lit "CDATA")) (lit " ") DfImplied;
    AttDef (lit " ") (lit "m") (lit " ") (AtKeyword (lit "CDATA")) (lit " ") (DfValue None dquote (tx "z"))].
Example C70_defaults_example :
  written_attributes (complete_attributes ex_defs (lit "a") []) = [(lit "k", lit " v "); (lit "l", lit "x y")] /\
  written_attributes (complete_attributes ex_defs (lit "a") [attr_ "l" " q"; attr_ "n" " r"]) = [(lit "l", lit "q"); (lit "n", lit " r"); (lit "k", lit " v ")] /\
  complete_attributes ex_defs (lit "b") [attr_ "l" " q"] = [attr_ "l" " q"].
Proof. vm_compute. easy. Qed.
(** An entity of the document's own is not replaced (such documents are outside of
    [xml_ok]). *)
Example C70_entity_example : exists d,
  parse_str (lit "<!DOCTYPE a [<!ENTITY e ""v"">]><a>&e;</a>") = Ok d /\ e_children (d_root d) = [NText (lit "&e;")].
Proof. eexists. split; [vm_compute; reflexivity|reflexivity]. Qed.

(** * Each condition is needed *)

(** Well-formed XML that is rejected, makes the parser panic, or is read as
    something else. *)
Definition misread (s : str) : Prop :=
  (exists x, xml_ok x /\ xml_text x = s) /\ ~ exists x d, xml_ok x /\ xml_text x = s /\ parse_str s = Ok d /\ xml_says x d.
Lemma misread_as x s : xml_ok x -> xml_text x = s -> (~ exists d, parse_str s = Ok d /\ xml_says x d) -> misread s.
Proof.
  intros O T N. split; [now exists x|]. intros (y & d & Oy & Ty & P & S). apply N. exists d. split; [easy|].
  replace x with y; [easy|]. apply C70_one_tree; congruence.
Qed.
Ltac misread_by x :=
  apply (misread_as x); [apply xml_okb_ok; vm_compute; reflexivity|vm_compute; reflexivity|];
  let d := fresh in let P := fresh in let S := fresh in
  intros (d & P & S); vm_compute in P;
  first [discriminate P | injection P as <-; revert S; apply says_not; vm_compute; discriminate].
(** Processing instructions. *)
Theorem C70_pi_refuted : misread (lit "<a><?p q?></a>").
Proof. misread_by (only (MElem (lit "a") [] [] (CMore [] (MPI (ProcInst (lit "p") (lit " q"))) (CText [])) [])). Qed.
Theorem C70_prolog_pi_refuted : misread (lit "<?p q?><a/>").
Proof. misread_by (XDocument None [([], MiscPI (ProcInst (lit "p") (lit " q")))] [] (MEmpty (lit "a") [] []) [] []). Qed.
(** Quotes and angles in a comment or processing instruction inside the DTD. *)
Definition with_decl (m : markupdecl) (attrs : list attribute) : xdocument :=
  XDocument None [([], MiscDoctype (Doctype (lit " ") (lit "a") None (lit " ") (Some ([([], m)], [], []))))] [] (MEmpty (lit "a") attrs []) [] [].
Definition with_comment (c : string) : xdocument := with_decl (DtComment (lit c)) [].
Theorem C70_dtd_quote_refuted : misread (lit "<!DOCTYPE a [<!-- don't -->]><a/>").
Proof. misread_by (with_comment " don't "). Qed.
Theorem C70_dtd_angle_refuted : misread (lit "<!DOCTYPE a [<!-- x<y -->]><a/>").
Proof. misread_by (with_comment " x<y "). Qed.
Theorem C70_dtd_pi_refuted : misread (lit "<!DOCTYPE a [<?p don't?>]><a/>").
Proof. misread_by (with_decl (DtPI (ProcInst (lit "p") (lit " don't"))) []). Qed.
(** Attributes with default values are not added; the values of attributes not
    declared as CDATA keep their spaces. *)
Theorem C70_dtd_default_refuted : misread (lit "<!DOCTYPE a [<!ATTLIST a k CDATA ""v"">]><a/>").
Proof.
  misread_by (with_decl (DtAttlist (lit " ") (lit "a") [AttDef (lit " ") (lit "k") (lit " ") (AtKeyword (lit "CDATA")) (lit " ") (DfValue None dquote (tx "v"))] []) []).
Qed.
Theorem C70_dtd_tokens_refuted : misread (lit "<!DOCTYPE a [<!ATTLIST a k NMTOKEN #IMPLIED>]><a k="" v""/>").
Proof.
  misread_by (with_decl (DtAttlist (lit " ") (lit "a") [AttDef (lit " ") (lit "k") (lit " ") (AtKeyword (lit "NMTOKEN")) (lit " ") DfImplied] []) [attr_ "k" " v"]).
Qed.
(** Comments after the root. *)
Theorem C70_epilog_refuted : misread (lit "<a/><!--c-->").
Proof. misread_by (XDocument None [] [] (MEmpty (lit "a") [] []) [([], MiscComment (lit "c"))] []). Qed.
(** White space around '='. *)
Theorem C70_equals_refuted : misread (lit "<a b = ""1""/>").
Proof. misread_by (only (MEmpty (lit "a") [Attribute (lit " ") (lit "b") (lit " ") (lit " ") dquote (tx "1")] [])). Qed.
(** Names starting with a letter that is not ASCII; names with U+1680. *)
Theorem C70_letter_refuted : misread (lit "<" ++ [233%N] ++ lit "/>").
Proof. misread_by (only (MEmpty [233%N] [] [])). Qed.
Theorem C70_attribute_letter_refuted : misread (lit "<a " ++ [233%N] ++ lit "=""1""/>").
Proof. misread_by (only (MEmpty (lit "a") [Attribute (lit " ") [233%N] [] [] dquote (tx "1")] [])). Qed.
Theorem C70_ogham_refuted : misread (lit "<a" ++ [5760%N] ++ lit "/>").
Proof. misread_by (only (MEmpty (lit "a" ++ [5760%N]) [] [])). Qed.
(** Numeric references: decimal ones are taken to be hexadecimal, hexadecimal
    ones are not recognized. *)
Theorem C70_decimal_refuted : misread (lit "<a>&#65;</a>").
Proof. misread_by (within [Dec (lit "65")]). Qed.
Theorem C70_hexadecimal_refuted : misread (lit "<a>&#x41;</a>").
Proof. misread_by (within [Hex (lit "41")]). Qed.
(** References close to each other or to the end, if the last character is not
    ASCII: skipped, or a panic. *)
Theorem C70_skipped_refuted : misread (lit "<a>&amp;&lt;" ++ [233%N] ++ lit "</a>").
Proof. misread_by (within [Ent (lit "amp"); Ent (lit "lt"); Chr 233%N]). Qed.
Theorem C70_last_refuted : misread (lit "<a>&amp;" ++ [233%N] ++ lit "</a>").
Proof. misread_by (within [Ent (lit "amp"); Chr 233%N]). Qed.
(** Carriage returns are kept. *)
Theorem C70_line_end_refuted : misread (lit "<a>x" ++ [13; 10]%N ++ lit "y</a>").
Proof. misread_by (within (tx "x" ++ [Chr 13%N; Chr 10%N] ++ tx "y")). Qed.
Theorem C70_comment_line_end_refuted : misread (lit "<a><!--x" ++ [13]%N ++ lit "y--></a>").
Proof. misread_by (only (MElem (lit "a") [] [] (CMore [] (MComment (lit "x" ++ [13%N] ++ lit "y")) (CText [])) [])). Qed.
Theorem C70_cdata_line_end_refuted : misread (lit "<a><![CDATA[x" ++ [13]%N ++ lit "y]]></a>").
Proof. misread_by (only (MElem (lit "a") [] [] (CMore [] (MCData (lit "x" ++ [13%N] ++ lit "y")) (CText [])) [])). Qed.
(** Tabs and line ends in attribute values are kept. *)
Theorem C70_value_refuted : misread (lit "<a b=""x" ++ [9]%N ++ lit "y""/>").
Proof. misread_by (only (MEmpty (lit "a") [Attribute (lit " ") (lit "b") [] [] dquote (tx "x" ++ [Chr 9%N] ++ tx "y")] [])). Qed.
(** Text of characters that are white space for Unicode but not for XML. *)
Theorem C70_space_refuted : misread (lit "<a>" ++ [160%N] ++ lit "</a>").
Proof. misread_by (within [Chr 160%N]). Qed.
(** Comments that start with '>' or "->". *)
Theorem C70_comment_refuted : misread (lit "<a><!-->--></a>").
Proof. misread_by (only (MElem (lit "a") [] [] (CMore [] (MComment (lit ">")) (CText [])) [])). Qed.
(** Long comments before the root. *)
Theorem C70_warning_refuted : misread (lit "<!--" ++ repeat 233%N 14 ++ lit "--><a/>").
Proof. misread_by (XDocument None [([], MiscComment (repeat 233%N 14))] [] (MEmpty (lit "a") [] []) [] []). Qed.
(** Namespaces: the default namespace is not seen through a parent with a
    prefix, and cannot be undeclared; the prefix "xml" is not known. *)
Theorem C70_default_refuted : misread (lit "<p:a xmlns=""d"" xmlns:p=""u""><b/></p:a>").
Proof. misread_by (only (MElem (lit "p:a") [attr_ "xmlns" "d"; attr_ "xmlns:p" "u"] [] (CMore [] (MEmpty (lit "b") [] []) (CText [])) [])). Qed.
Theorem C70_undeclared_refuted : misread (lit "<a xmlns=""d""><b xmlns=""""/></a>").
Proof. misread_by (only (MElem (lit "a") [attr_ "xmlns" "d"] [] (CMore [] (MEmpty (lit "b") [attr_ "xmlns" ""] []) (CText [])) [])). Qed.
Theorem C70_xml_prefix_refuted : misread (lit "<a><xml:b/></a>").
Proof. misread_by (only (MElem (lit "a") [] [] (CMore [] (MEmpty (lit "xml:b") [] []) (CText [])) [])). Qed.
(** Documents that are not XML are accepted: no XML document has the character
    U+0001. *)
Theorem C70_characters_refuted : exists d, parse_str (lit "<a>" ++ [1%N] ++ lit "</a>") = Ok d /\
  forall x, xml_ok x -> xml_text x <> lit "<a>" ++ [1%N] ++ lit "</a>".
Proof.
  eexists. split; [vm_compute; reflexivity|]. intros x O E. apply xml_chars in O. rewrite E in O.
  assert (In 1%N (lit "<a>" ++ [1%N] ++ lit "</a>")) as I by (cbn; tauto). unfold all_xml in O. rewrite Forall_forall in O. apply O in I.
  unfold xml_char, in_ranges in I. rewrite Exists_exists in I. destruct I as ([a b] & I & H). cbn in I, H.
  repeat destruct I as [I|I]; try contradiction; injection I as <- <-; lia.
Qed.
Print Assumptions C70_reads_xml.
Print Assumptions C70_only.
Print Assumptions C70_one_tree.
Print Assumptions C70_references.
Print Assumptions C70_tokens.
Print Assumptions C70_pi_refuted.
Print Assumptions C70_prolog_pi_refuted.
Print Assumptions C70_dtd_quote_refuted.
Print Assumptions C70_dtd_angle_refuted.
Print Assumptions C70_dtd_pi_refuted.
Print Assumptions C70_dtd_default_refuted.
Print Assumptions C70_dtd_tokens_refuted.
Print Assumptions C70_epilog_refuted.
Print Assumptions C70_equals_refuted.
Print Assumptions C70_letter_refuted.
Print Assumptions C70_attribute_letter_refuted.
Print Assumptions C70_ogham_refuted.
Print Assumptions C70_decimal_refuted.
Print Assumptions C70_hexadecimal_refuted.
Print Assumptions C70_skipped_refuted.
Print Assumptions C70_last_refuted.
Print Assumptions C70_line_end_refuted.
Print Assumptions C70_comment_line_end_refuted.
Print Assumptions C70_cdata_line_end_refuted.
Print Assumptions C70_value_refuted.
Print Assumptions C70_space_refuted.
Print Assumptions C70_comment_refuted.
Print Assumptions C70_warning_refuted.
Print Assumptions C70_default_refuted.
Print Assumptions C70_undeclared_refuted.
Print Assumptions C70_xml_prefix_refuted.
Print Assumptions C70_characters_refuted.

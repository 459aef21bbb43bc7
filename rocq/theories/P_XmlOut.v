(** C71: what is written is XML saying the document, exactly when it can be. *)
From Coq Require Import List NArith Arith Bool Ascii String Lia.
From Verif Require Import Base Escape Dom Spec SpecDom SerFacts Parse SpecLex SpecParse SpecApi SpecXml XmlFacts XmlCheck XmlUnique XmlOut XmlOutCheck XmlExact.
Import ListNotations.

(** Written with this indent, the document is well-formed and namespace-well-formed
    XML and says, by XML's rules, exactly the document. *)
Definition written_as_xml (d : document) (ind : str) : Prop :=
  exists x, xml_ok x /\ namespaces_ok x /\ xml_text x = doc_to_string_with_indent d ind /\ xml_says x d.
(** This is so exactly for the trees that XML can represent at all without
    numeric references; [xml_document] is defined in SpecXml.v. *)
Theorem C71_written_xml : forall d ind, elem_ok (d_root d) -> (written_as_xml d ind <-> xml_document d).
Proof. exact written_xml_iff. Qed.
(** The indent does not matter. *)
Theorem C71_indent : forall d ind ind', elem_ok (d_root d) -> written_as_xml d ind -> written_as_xml d ind'.
Proof. intros d ind ind' O H. apply C71_written_xml; [easy|]. now apply C71_written_xml in H. Qed.
(** What another reader of XML makes of the text is the document that was written. *)
Theorem C71_readers : forall d ind x d', xml_document d -> xml_ok x -> xml_text x = doc_to_string_with_indent d ind ->
  xml_says x d' -> elem_ok (d_root d') -> doc_eqb d d' = true.
Proof.
  intros d ind x d' D O E S V. pose proof D as (Od & _). apply (C71_written_xml d ind Od) in D. destruct D as (y & Oy & _ & Ey & Sy).
  assert (x = y) as -> by (apply xml_unique; [now apply xml_ok_shaped|now apply xml_ok_shaped|congruence]).
  now apply (xml_says_same y).
Qed.

(** A document with everything. *)
Definition inner_b : elem :=
  mkElem (lit "b") [NText (lit "x < " ++ [233%N]); NElem (mkElem (lit "c") [] [] (Some (lit "d")) None []); NText (lit "&")] [(lit "xmlns", lit "d")] (Some (lit "d")) None [].
Definition out_doc : document :=
  mkDoc (Some (lit "xml version=""1.0""")) []
    (mkElem (lit "r") [NElem inner_b; NComment (lit " - c ->"); NCData (lit "<&]]")]
       [(lit "xmlns:p", lit "u"); (lit "p:k", lit """1"" > '0'"); (lit "k", lit "v")] (Some (lit "u")) (Some (lit "p")) []).
Example C71_example : xml_document out_doc /\ doc_to_string_with_indent out_doc (lit " ") =
  lit "<?xml version=""1.0""?>" ++ [10%N] ++
  lit "<p:r xmlns:p=""u"" k=""v"" p:k=""&quot;1&quot; &gt; &apos;0&apos;"">" ++ [10%N] ++
  lit " <b xmlns=""d"">x &lt; " ++ [233%N] ++ lit "<c/>&amp;</b>" ++ [10%N] ++
  lit " <!-- - c ->-->" ++ [10%N] ++ lit " <![CDATA[<&]]]]>" ++ [10%N] ++ lit "</p:r>" ++ [10%N].
Proof.
  split; [|vm_compute; reflexivity].
  assert (E : xml_elem no_declarations (d_root out_doc) /\ elem_ok (d_root out_doc)) by (apply xml_elemb_ok; vm_compute; reflexivity).
  split; [apply E|]. split; [easy|]. split; [|apply E]. intros s Es. injection Es as <-.
  exists (XmlDecl (Pseudo (lit " ") [] [] dquote (lit "1.0")) None None []). split; [apply xmldeclb_ok; vm_compute; reflexivity|reflexivity].
Qed.

(** * Documents that are not written as XML saying them *)

(** The root element and its attributes, texts and other nodes are accepted by the
    constructors; the text that is written is not XML, or another reader sees
    something else. *)
Definition of_root (e : outcome elem) (P : document -> Prop) : Prop :=
  exists r, e = Ok r /\ elem_ok r /\ P (doc_new r).
Definition not_xml (d : document) : Prop := forall ind, ~ written_as_xml d ind.
Ltac no_kid := let H := fresh in intros ? H; repeat (destruct H as [H|H]; [discriminate H|]); destruct H.
Ltac rejected :=
  eexists; split; [vm_compute; reflexivity|]; split; [constructor; [repeat constructor; easy|repeat constructor|no_kid]|];
  let ind := fresh "ind" in let X := fresh "X" in
  intros ind X; apply C71_written_xml in X; [|constructor; [repeat constructor; easy|repeat constructor|no_kid]];
  destruct X as (_ & _ & _ & X); inversion X as [? ? Q E P A NO NA T C D K]; subst; cbn [doc_new doc_new_with_decl_dtd d_root e_attributes e_children e_xmlns e_prefix e_name] in *.
(** A line end or a tab in an attribute value becomes a space. *)
Theorem C71_value_refuted : of_root (new_with_attributes (lit "a") [(lit "k", [10%N])]) not_xml.
Proof. rejected. destruct (A _ _ (or_introl eq_refl)) as (_ & _ & N & _). apply (N 10%N); cbn; tauto. Qed.
(** A carriage return becomes a line feed, in text, comments and CDATA sections. *)
Theorem C71_return_refuted : of_root (new_with_text (lit "a") (lit "x" ++ [13%N] ++ lit "y")) not_xml.
Proof. rejected. destruct (T _ (or_introl eq_refl)) as (_ & N & _). apply N. cbn. tauto. Qed.
(** Control characters. *)
Theorem C71_control_refuted : of_root (new_with_text (lit "a") [1%N]) not_xml.
Proof.
  rejected. destruct (T _ (or_introl eq_refl)) as (N & _). inversion N as [|? ? H _]; subst. unfold xml_char, in_ranges in H. apply Exists_exists in H.
  destruct H as ([x y] & I & L). cbn in I, L. repeat (destruct I as [I|I]; [injection I as <- <-; lia|]). easy.
Qed.
(** Two hyphens in a comment. *)
Theorem C71_comment_refuted : exists c, comment_new (lit "a--b") = Ok c /\ of_root (new_with_children (lit "a") [NComment c]) not_xml.
Proof.
  eexists. split; [vm_compute; reflexivity|]. rejected. destruct (C _ (or_introl eq_refl)) as ((_ & N & _) & _). apply N. now exists (lit "a"), (lit "b").
Qed.
(** Text of white space, and texts next to each other. The constructors drop or
    join these; they arise when children are changed in place. *)
Definition holding (l : list node) : document := doc_new (mkElem (lit "a") l [] None None []).
Lemma holding_xml l ind : (forall c, ~ In (NElem c) l) -> written_as_xml (holding l) ind -> xml_document (holding l).
Proof.
  intros N X. apply C71_written_xml in X; [easy|]. constructor; [constructor|constructor|]. intros c I. now destruct (N c).
Qed.
Theorem C71_blank_refuted : built (d_root (holding [NText (lit " ")])) /\ not_xml (holding [NText (lit " ")]).
Proof.
  split.
  { apply (b_call (mkElem (lit "a") [NText (lit "x")] [] None None [])).
    - apply (b_new (lit "a") (Some (lit "x")) None None None None); [easy|vm_compute; reflexivity].
    - apply (c_assign (mkElem (lit "a") [NText (lit "x")] [] None None []) [] (NText (lit "x")) (NText (lit " ")) []); [reflexivity|constructor]. }
  intros ind X. apply holding_xml in X; [|intros c [I|[]]; discriminate]. destruct X as (_ & _ & _ & X). inversion X as [? ? Q E P A NO NA T C D K]; subst.
  destruct (T _ (or_introl eq_refl)) as (_ & _ & N). apply N. constructor; [now left|constructor].
Qed.
Theorem C71_adjacent_refuted : built (d_root (holding [NText (lit "x"); NText (lit "y")])) /\ not_xml (holding [NText (lit "x"); NText (lit "y")]).
Proof.
  split.
  { apply (b_call (mkElem (lit "a") [NText (lit "x"); NCData (lit "y")] [] None None [])).
    - apply (b_new (lit "a") None None None None (Some [NText (lit "x"); NCData (lit "y")])); [|vm_compute; reflexivity].
      intros l n E I. injection E as <-. destruct I as [<-|[<-|[]]]; [constructor|]. apply (bn_cdata (lit "y")). vm_compute. reflexivity.
    - apply (c_assign (mkElem (lit "a") [NText (lit "x"); NCData (lit "y")] [] None None []) [NText (lit "x")] (NCData (lit "y")) (NText (lit "y")) []); [reflexivity|constructor]. }
  intros ind X. apply holding_xml in X; [|intros c [I|[I|[]]]; discriminate]. destruct X as (_ & _ & _ & X). inversion X as [? ? Q E P A NO NA T C D K]; subst.
  now apply (NA [] (lit "x") (lit "y") []).
Qed.
(** An attribute with a prefix that is not declared. *)
Theorem C71_prefix_refuted : of_root (new_with_attributes (lit "a") [(lit "p:k", lit "v")]) not_xml.
Proof.
  rejected. destruct NO as (NO & _). apply (NO (lit "p:k") (lit "v") (lit "p") (lit "k")); [now left| |easy|reflexivity].
  apply (qname_of_ok (lit "p:k")). vm_compute. reflexivity.
Qed.
(** A document with a DTD, however it is written. *)
Theorem C71_dtd_refuted : forall r s, elem_ok r -> not_xml (doc_new_with_decl_dtd r None (Some [s])).
Proof. intros r s O ind X. apply C71_written_xml in X; [|easy]. destruct X as (_ & X & _). discriminate. Qed.
Print Assumptions C71_written_xml.
Print Assumptions C71_indent.
Print Assumptions C71_readers.
Print Assumptions C71_value_refuted.
Print Assumptions C71_return_refuted.
Print Assumptions C71_control_refuted.
Print Assumptions C71_comment_refuted.
Print Assumptions C71_blank_refuted.
Print Assumptions C71_adjacent_refuted.
Print Assumptions C71_prefix_refuted.
Print Assumptions C71_dtd_refuted.

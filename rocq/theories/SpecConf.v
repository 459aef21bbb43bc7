(** Exactly which well-formed XML documents the crate reads as XML says.  The
    vocabulary is that of SpecXml.v; [formed] (SpecErr.v), [doctype_wf] and
    [shortenable] (SpecDoc.v) say how the crate looks for tags, for the end of a
    document type declaration and for the ends of a long comment.  Nothing of the
    parser is used. *)
From Coq Require Import List NArith Arith Bool Ascii String.
From Verif Require Import Base Dom Spec SpecDom SpecLex SpecParse SpecDoc SpecErr SpecXml.
Import ListNotations.

Definition is_reference (p : piece) : Prop := match p with Chr _ => False | _ => True end.
(** Of the numeric references, only decimal ones for the tabulator are right
    ("&#9;", "&#09;", ...), as decimal digits are taken for hexadecimal ones and
    "&#x" is not known.  After each reference, as many bytes of characters that
    are not references as the last character of the text has, less one. *)
Definition fair_references (l : list piece) : Prop :=
  Forall (fun p => match p with Hex _ => False | Dec _ => refers p = Some 9%N | _ => True end) l /\
  forall a p b, l = a ++ p :: b -> is_reference p ->
    exists u v, b = map Chr u ++ v /\ S (blen u) = last_bytes (pieces_text l).
(** White space written as such is a space only if it is one. *)
Definition fair_value (l : list piece) : Prop := fair_references l /\ Forall (fun p => ~ In p (map Chr [9; 10; 13]%N)) l.
(** Text of white space only, with any line ends; or text with something else than
    what Rust takes for white space, and without carriage returns. *)
Definition fair_text (l : list piece) : Prop :=
  fair_references l /\
  (spaces (text_said l) \/ ~ In (Chr 13%N) l /\ exists c, In c (text_said l) /\ is_whitespace c = false).
Definition fair_attribute (a : attribute) : Prop := easy_name (at_name a) /\ fair_value (at_value a).
(** [fair_tag below sc t nm attrs]: [t] is the text of the tag; [below]: the parent
    has a prefix; [sc]: the namespaces declared around it, not counting that of
    "xml". *)
Definition fair_tag (below : bool) (sc : scope) (t nm : str) (attrs : list attribute) : Prop :=
  formed t /\ Forall fair_attribute attrs /\
  forall p n, qname nm p n ->
    easy_name n /\
    match p with
    | Some q => ~ In 5760%N q /\ declare attrs sc (Some q) <> None
    | None => match the_attribute (lit "xmlns") attrs with
              | Some a => value_said (at_value a) <> []
              | None => below = true -> sc None = None
              end
    end.
Fixpoint fair_markup (below : bool) (sc : scope) (m : markup) : Prop :=
  match m with
  | MEmpty nm attrs w => fair_tag below sc (lit "<" ++ nm ++ flat_map attribute_text attrs ++ w ++ lit "/>") nm attrs
  | MElem nm attrs w b w' =>
      fair_tag below sc (lit "<" ++ nm ++ flat_map attribute_text attrs ++ w ++ lit ">") nm attrs /\
      fair_content (prefixed nm) (declare attrs sc) b
  | MComment c => easy_comment c
  | MCData c => ~ In 13%N c
  | MPI p => False
  end
with fair_content (below : bool) (sc : scope) (b : content) : Prop :=
  match b with
  | CText t => fair_text t
  | CMore t m b => fair_text t /\ fair_markup below sc m /\ fair_content below sc b
  end.
(** Nothing is declared, not even "xml". *)
Definition nothing_declared : scope := fun _ => None.
(** No processing instructions before the root.  The document type declaration ends
    where the crate finds its end: quotes and angles in the comments and processing
    instructions inside it count.  The first comment before the root can be
    shortened for the warning. *)
Definition fair_prolog (l : list (str * misc)) : Prop :=
  Forall (fun p => match snd p with
                   | MiscComment c => True
                   | MiscPI _ => False
                   | MiscDoctype d => doctype_wf (doctype_inside d)
                   end) l /\
  forall a w c b, l = a ++ (w, MiscComment c) :: b -> (forall w' c', ~ In (w', MiscComment c') a) -> shortenable (comment_text c).
Definition fair_xml (x : xdocument) : Prop :=
  fair_prolog (xd_prolog x) /\ whole_root x = xd_root x /\ fair_markup false nothing_declared (xd_root x) /\ xd_epilog x = [].

(** The comments before the root do not begin with ">" or "->", which would end
    them for the crate. *)
Definition plain_comments (x : xdocument) : Prop :=
  forall w c, In (w, MiscComment c) (xd_prolog x) -> ~ begins (lit ">") c /\ ~ begins (lit "->") c.

(** XML documents with entities of their own (4.1-4.5 of XML 1.0): what they say
    once the references are replaced, and the document in which the references are
    text.  The vocabulary is that of SpecXml.v; nothing of the parser is used. *)
From Coq Require Import List NArith Arith Bool Ascii String.
From Verif Require Import Base Dom Spec SpecDom SpecLex SpecParse SpecXml.
Import ListNotations.

(** * References *)

(** A reference to an entity that is not predefined. *)
Definition own (p : piece) : bool :=
  match p with Ent nm => negb (existsb (fun e => str_eqb (fst e) nm) predefined) | _ => false end.
(** All pieces of the values and texts of an element. *)
Fixpoint markup_pieces (m : markup) : list piece :=
  match m with
  | MEmpty nm attrs w => flat_map at_value attrs
  | MElem nm attrs w b w' => flat_map at_value attrs ++ content_pieces b
  | _ => []
  end
with content_pieces (b : content) : list piece :=
  match b with
  | CText t => t
  | CMore t m b => t ++ markup_pieces m ++ content_pieces b
  end.
(** [68] EntityRef: what is referred to is a name (an NCName, by Namespaces 7). *)
Definition named (l : list piece) : Prop := forall nm, In (Ent nm) l -> is_ncname nm.

(** * References as text *)

(** The reference as text: "&amp;name;" for "&name;". *)
Definition literal_piece (p : piece) : list piece :=
  if own p then Ent (lit "amp") :: map Chr (tl (piece_text p)) else [p].
Definition literal_pieces (l : list piece) : list piece := flat_map literal_piece l.
Definition literal_attribute (a : attribute) : attribute :=
  Attribute (at_space a) (at_name a) (at_eq1 a) (at_eq2 a) (at_quote a) (literal_pieces (at_value a)).
Fixpoint literal_markup (m : markup) : markup :=
  match m with
  | MEmpty nm attrs w => MEmpty nm (map literal_attribute attrs) w
  | MElem nm attrs w b w' => MElem nm (map literal_attribute attrs) w (literal_content b) w'
  | _ => m
  end
with literal_content (b : content) : content :=
  match b with
  | CText t => CText (literal_pieces t)
  | CMore t m b => CMore (literal_pieces t) (literal_markup m) (literal_content b)
  end.
Definition literal (x : xdocument) : xdocument :=
  XDocument (xd_decl x) (xd_prolog x) (xd_gap x) (literal_markup (xd_root x)) (xd_epilog x) (xd_end x).

(** * Replacement *)

(** 4.5: in the replacement text of an entity, references to characters are
    replaced and those to entities are left. *)
Definition replacement (v : list piece) : str :=
  flat_map (fun p => match p with Ent _ => piece_text p | _ => said p end) (line_ends v).
(** The entities declared in the document with their replacement texts.  4.2: the
    first declaration is binding. *)
Definition entities (l : list (str * misc)) : list (str * str) :=
  flat_map (fun d =>
    match dt_subset d with
    | None => []
    | Some (l, _, _) => flat_map (fun p => match snd p with DtEntity _ nm (EdValue _ _ v) _ => [(nm, replacement v)] | _ => [] end) l
    end) (doctype_decls l).
Definition replaced_by (E : list (str * str)) (nm : str) : option str :=
  option_map snd (find (fun e => str_eqb (fst e) nm) E).
(** One content after another. *)
Fixpoint join_content (b b' : content) : content :=
  match b, b' with
  | CText t, CText t' => CText (t ++ t')
  | CText t, CMore t' m b' => CMore (t ++ t') m b'
  | CMore t m b, b' => CMore t m (join_content b b')
  end.
(** 4.4.5: in a value, the replacement text is read as part of the value; quotes in
    it are characters like others. *)
Inductive expands_value (E : list (str * str)) : list piece -> list piece -> Prop :=
| xv_nil : expands_value E [] []
| xv_piece p l l' : own p = false -> expands_value E l l' -> expands_value E (p :: l) (p :: l')
| xv_ref nm R r r' l l' : own (Ent nm) = true -> replaced_by E nm = Some R -> R = pieces_text r ->
    value_ok 38%N (literal_pieces r) -> named r -> expands_value E r r' -> expands_value E l l' ->
    expands_value E (Ent nm :: l) (r' ++ l').
Definition expands_attribute (E : list (str * str)) (a a' : attribute) : Prop :=
  expands_value E (at_value a) (at_value a') /\
  a' = Attribute (at_space a) (at_name a) (at_eq1 a) (at_eq2 a) (at_quote a) (at_value a').
(** 4.4.2: in content, the replacement text is read as content; references in it
    are replaced in turn.  WFC No Recursion: this comes to an end. *)
Inductive expands_text (E : list (str * str)) : list piece -> content -> Prop :=
| xt_nil : expands_text E [] (CText [])
| xt_piece p l c : own p = false -> expands_text E l c -> expands_text E (p :: l) (join_content (CText [p]) c)
| xt_ref nm R r r' l c : own (Ent nm) = true -> replaced_by E nm = Some R -> R = content_text r ->
    content_ok all_declared (literal_content r) -> named (content_pieces r) -> expands_content E r r' -> expands_text E l c ->
    expands_text E (Ent nm :: l) (join_content r' c)
with expands_content (E : list (str * str)) : content -> content -> Prop :=
| xc_text t c : expands_text E t c -> expands_content E (CText t) c
| xc_more t m b c m' c' : expands_text E t c -> expands_markup E m m' -> expands_content E b c' ->
    expands_content E (CMore t m b) (join_content c (CMore [] m' c'))
with expands_markup (E : list (str * str)) : markup -> markup -> Prop :=
| xm_empty nm attrs attrs' w : Forall2 (expands_attribute E) attrs attrs' -> expands_markup E (MEmpty nm attrs w) (MEmpty nm attrs' w)
| xm_elem nm attrs attrs' w b b' w' : Forall2 (expands_attribute E) attrs attrs' -> expands_content E b b' ->
    expands_markup E (MElem nm attrs w b w') (MElem nm attrs' w b' w')
| xm_comment c : expands_markup E (MComment c) (MComment c)
| xm_cdata c : expands_markup E (MCData c) (MCData c)
| xm_pi p : expands_markup E (MPI p) (MPI p).
Scheme expands_text_mut := Minimality for expands_text Sort Prop
  with expands_content_mut := Minimality for expands_content Sort Prop
  with expands_markup_mut := Minimality for expands_markup Sort Prop.
Combined Scheme expands_ind2 from expands_text_mut, expands_content_mut, expands_markup_mut.
(** [expands x y]: [y] is [x] with its references replaced. *)
Definition expands (x y : xdocument) : Prop :=
  expands_markup (entities (xd_prolog x)) (xd_root x) (xd_root y) /\
  y = XDocument (xd_decl x) (xd_prolog x) (xd_gap x) (xd_root y) (xd_epilog x) (xd_end x).
(** What a document with entities of its own says.  (Line ends in replacement texts
    are normalized once more, so carriage returns given there by references are
    taken for line feeds.) *)
Definition entity_says (x : xdocument) (d : document) : Prop := exists y, expands x y /\ xml_says y d.

(** Neither the entities nor the default values of attributes bring in ampersands. *)
Definition no_ampersand (l : list (str * misc)) : Prop :=
  (forall nm R, In (nm, R) (entities l) -> ~ substring (lit "&amp;") R /\ ~ substring (lit "&#") R) /\
  (forall nm a f q v, In (nm, a) (attdefs l) -> ad_default a = DfValue f q v -> ~ In 38%N (value_said v)).

(** XML 1.0 (Fifth Edition) with Namespaces in XML 1.0 (Third Edition): parse
    trees of the documents that refer to no entities but the predefined ones, with
    their document type declarations (without an external subset being read), the
    text of such a tree, the constraints, and what the document says.  Numbers in brackets are
    those of the productions in the Recommendations.  Nothing of the parser is
    used; [document], [elem] and [node] are the trees of the public API. *)
From Coq Require Import List NArith Arith Bool Ascii String.
From Verif Require Import Base Dom Spec SpecDom SpecLex SpecParse.
Import ListNotations.

(** * Characters and names *)

Definition in_ranges (l : list (N * N)) (c : char) : Prop := Exists (fun r => (fst r <= c <= snd r)%N) l.
(** [2] Char *)
Definition xml_char (c : char) : Prop :=
  in_ranges [(9, 10); (13, 13); (32, 55295); (57344, 65533); (65536, 1114111)]%N c.
(** [3] S, possibly empty *)
Definition xml_space (c : char) : Prop := In c [32; 9; 13; 10]%N.
Definition spaces (s : str) : Prop := Forall xml_space s.
(** [4] NameStartChar, [4a] NameChar, [5] Name *)
Definition name_first (c : char) : Prop :=
  in_ranges [(58, 58); (65, 90); (95, 95); (97, 122); (192, 214); (216, 246); (248, 767); (880, 893); (895, 8191);
             (8204, 8205); (8304, 8591); (11264, 12271); (12289, 55295); (63744, 64975); (65008, 65533); (65536, 983039)]%N c.
Definition name_next (c : char) : Prop :=
  name_first c \/ in_ranges [(45, 46); (48, 57); (183, 183); (768, 879); (8255, 8256)]%N c.
Definition is_name (s : str) : Prop := exists c r, s = c :: r /\ name_first c /\ Forall name_next r.
(** Namespaces [4] NCName, [7] QName with its prefix and local part *)
Definition is_ncname (s : str) : Prop := is_name s /\ ~ In 58%N s.
Inductive qname : str -> option str -> str -> Prop :=
| qn_local n : is_ncname n -> qname n None n
| qn_prefixed p n : is_ncname p -> is_ncname n -> qname (p ++ lit ":" ++ n) (Some p) n.

(** * Parse trees *)

(** A piece of character data or of an attribute value: a character, or a
    reference: [68] EntityRef, [66] CharRef in decimal and in hexadecimal. *)
Inductive piece := Chr (c : char) | Ent (nm : str) | Dec (ds : str) | Hex (ds : str).
(** [41] Attribute, with the white space before it and around '=' ([25] Eq). *)
Record attribute := Attribute {
  at_space : str; at_name : str; at_eq1 : str; at_eq2 : str; at_quote : char; at_value : list piece
}.
(** [16] PI, after the target either nothing or white space and some data *)
Record pi := ProcInst { pi_target : str; pi_data : str }.
(** [43] content: character data and markup in turn.  [39] element: [44]
    EmptyElemTag, or [40] STag, content, [42] ETag, with the white space before
    the end of the tags; [15] Comment; [18] CDSect; [16] PI. *)
Inductive markup :=
| MEmpty (nm : str) (attrs : list attribute) (w : str)
| MElem (nm : str) (attrs : list attribute) (w : str) (b : content) (w' : str)
| MComment (c : str)
| MCData (c : str)
| MPI (p : pi)
with content :=
| CText (t : list piece)
| CMore (t : list piece) (m : markup) (b : content).
Scheme markup_mut := Induction for markup Sort Prop
  with content_mut := Induction for content Sort Prop.
Combined Scheme markup_ind2 from markup_mut, content_mut.
(** [24], [80], [32]: version, encoding and standalone: white space before, around
    '=', quotes, value *)
Record pseudo := Pseudo { ps_space : str; ps_eq1 : str; ps_eq2 : str; ps_quote : char; ps_value : str }.
(** [23] XMLDecl *)
Record xmldecl := XmlDecl { xd_version : pseudo; xd_encoding : option pseudo; xd_standalone : option pseudo; xd_space : str }.
(** [75] ExternalID: white space, "SYSTEM" or "PUBLIC" with a literal (the white
    space before it, its quotes, the text), and the literal for the system. *)
Record external := External {
  ex_space : str; ex_public : option (str * char * str); ex_space' : str; ex_quote : char; ex_system : str
}.
(** [47]-[50] children, cp, choice, seq: a name or a group with the sign after it;
    the sign between the members of a group, each with the white space around. *)
Inductive cp :=
| CpName (nm sign : str)
| CpGroup (sep : char) (w : str) (l : cps) (sign : str)
with cps :=
| CpLast (c : cp) (w : str)
| CpMore (c : cp) (w w' : str) (l : cps).
Scheme cp_mut := Induction for cp Sort Prop
  with cps_mut := Induction for cps Sort Prop.
Combined Scheme cp_ind2 from cp_mut, cps_mut.
(** [46] contentspec, [51] Mixed *)
Inductive contentspec :=
| CsEmpty
| CsAny
| CsMixed (w : str) (l : list (str * str * str)) (w' star : str)
| CsChildren (c : cp).
(** [54]-[59] AttType: a keyword; or an enumeration, with "NOTATION" and white space
    before it or not. *)
Inductive atttype :=
| AtKeyword (kw : str)
| AtEnum (notation : option str) (w t : str) (l : list (str * str * str)) (w' : str).
(** [60] DefaultDecl; the white space after "#FIXED", if that is there *)
Inductive attdefault :=
| DfRequired
| DfImplied
| DfValue (fixed : option str) (q : char) (v : list piece).
(** [53] AttDef *)
Record attdef := AttDef {
  ad_space : str; ad_name : str; ad_space1 : str; ad_type : atttype; ad_space2 : str; ad_default : attdefault
}.
(** [73], [74]: white space and [9] EntityValue, or [75] ExternalID and then, if it
    is there, [76] NDataDecl: white space, white space, name. *)
Inductive entitydef :=
| EdValue (w : str) (q : char) (v : list piece)
| EdExternal (e : external) (nd : option (str * str * str)).
(** [75] ExternalID or [83] PublicID *)
Inductive notationid :=
| NtExternal (e : external)
| NtPublic (w w' : str) (q : char) (l : str).
(** [29] markupdecl: [45] elementdecl, [52] AttlistDecl, [71] GEDecl, [72] PEDecl,
    [82] NotationDecl, [16] PI, [15] Comment *)
Inductive markupdecl :=
| DtElement (w nm w' : str) (cs : contentspec) (w'' : str)
| DtAttlist (w nm : str) (l : list attdef) (w' : str)
| DtEntity (w nm : str) (d : entitydef) (w' : str)
| DtParameter (w1 w2 nm : str) (d : entitydef) (w' : str)
| DtNotation (w nm : str) (i : notationid) (w' : str)
| DtPI (p : pi)
| DtComment (c : str).
(** [28] doctypedecl; [28b] intSubset: declarations, each with the white space
    before it, white space; then the white space after ']'. *)
Record doctype := Doctype {
  dt_space : str; dt_name : str; dt_external : option external; dt_space' : str;
  dt_subset : option (list (str * markupdecl) * str * str)
}.
(** [22] prolog: [27] Misc other than white space, [28] doctypedecl *)
Inductive misc := MiscComment (c : str) | MiscPI (p : pi) | MiscDoctype (d : doctype).
(** [1] document: declaration, then comments, PIs and document type declaration,
    each with the white space before it, white space, the root, comments and PIs,
    white space. *)
Record xdocument := XDocument {
  xd_decl : option xmldecl; xd_prolog : list (str * misc); xd_gap : str;
  xd_root : markup; xd_epilog : list (str * misc); xd_end : str
}.

(** * Text *)

Definition piece_text (p : piece) : str :=
  match p with
  | Chr c => [c]
  | Ent nm => lit "&" ++ nm ++ lit ";"
  | Dec ds => lit "&#" ++ ds ++ lit ";"
  | Hex ds => lit "&#x" ++ ds ++ lit ";"
  end.
Definition pieces_text (l : list piece) : str := flat_map piece_text l.
Definition attribute_text (a : attribute) : str :=
  at_space a ++ at_name a ++ at_eq1 a ++ lit "=" ++ at_eq2 a ++ [at_quote a] ++ pieces_text (at_value a) ++ [at_quote a].
Definition comment_text (c : str) : str := lit "<!--" ++ c ++ lit "-->".
Definition pi_text (p : pi) : str := lit "<?" ++ pi_target p ++ pi_data p ++ lit "?>".
Fixpoint markup_text (m : markup) : str :=
  match m with
  | MEmpty nm attrs w => lit "<" ++ nm ++ flat_map attribute_text attrs ++ w ++ lit "/>"
  | MElem nm attrs w b w' =>
      lit "<" ++ nm ++ flat_map attribute_text attrs ++ w ++ lit ">" ++ content_text b ++ lit "</" ++ nm ++ w' ++ lit ">"
  | MComment c => comment_text c
  | MCData c => lit "<![CDATA[" ++ c ++ lit "]]>"
  | MPI p => pi_text p
  end
with content_text (b : content) : str :=
  match b with
  | CText t => pieces_text t
  | CMore t m b => pieces_text t ++ markup_text m ++ content_text b
  end.
Definition pseudo_text (nm : str) (p : pseudo) : str :=
  ps_space p ++ nm ++ ps_eq1 p ++ lit "=" ++ ps_eq2 p ++ [ps_quote p] ++ ps_value p ++ [ps_quote p].
Definition optional_text (nm : str) (o : option pseudo) : str :=
  match o with None => [] | Some p => pseudo_text nm p end.
(** The declaration, without the "<?" and "?>" around it. *)
Definition decl_inside (d : xmldecl) : str :=
  lit "xml" ++ pseudo_text (lit "version") (xd_version d) ++ optional_text (lit "encoding") (xd_encoding d) ++
  optional_text (lit "standalone") (xd_standalone d) ++ xd_space d.
Definition external_text (e : external) : str :=
  ex_space e ++
  (match ex_public e with
   | None => lit "SYSTEM"
   | Some (w, q, l) => lit "PUBLIC" ++ w ++ [q] ++ l ++ [q]
   end) ++ ex_space' e ++ [ex_quote e] ++ ex_system e ++ [ex_quote e].
Fixpoint cp_text (c : cp) : str :=
  match c with
  | CpName nm sign => nm ++ sign
  | CpGroup sep w l sign => lit "(" ++ w ++ cps_text sep l ++ lit ")" ++ sign
  end
with cps_text (sep : char) (l : cps) : str :=
  match l with
  | CpLast c w => cp_text c ++ w
  | CpMore c w w' l => cp_text c ++ w ++ [sep] ++ w' ++ cps_text sep l
  end.
Definition alternative_text (a : str * str * str) : str := fst (fst a) ++ lit "|" ++ snd (fst a) ++ snd a.
Definition spec_text (c : contentspec) : str :=
  match c with
  | CsEmpty => lit "EMPTY"
  | CsAny => lit "ANY"
  | CsMixed w l w' star => lit "(" ++ w ++ lit "#PCDATA" ++ flat_map alternative_text l ++ w' ++ lit ")" ++ star
  | CsChildren c => cp_text c
  end.
Definition type_text (t : atttype) : str :=
  match t with
  | AtKeyword kw => kw
  | AtEnum n w t l w' =>
      (match n with None => [] | Some v => lit "NOTATION" ++ v end) ++ lit "(" ++ w ++ t ++ flat_map alternative_text l ++ w' ++ lit ")"
  end.
Definition default_text (d : attdefault) : str :=
  match d with
  | DfRequired => lit "#REQUIRED"
  | DfImplied => lit "#IMPLIED"
  | DfValue f q v => (match f with None => [] | Some w => lit "#FIXED" ++ w end) ++ [q] ++ pieces_text v ++ [q]
  end.
Definition attdef_text (a : attdef) : str :=
  ad_space a ++ ad_name a ++ ad_space1 a ++ type_text (ad_type a) ++ ad_space2 a ++ default_text (ad_default a).
Definition entity_text (d : entitydef) : str :=
  match d with
  | EdValue w q v => w ++ [q] ++ pieces_text v ++ [q]
  | EdExternal e nd => external_text e ++ (match nd with None => [] | Some (w, w', n) => w ++ lit "NDATA" ++ w' ++ n end)
  end.
Definition notation_text (i : notationid) : str :=
  match i with
  | NtExternal e => external_text e
  | NtPublic w w' q l => w ++ lit "PUBLIC" ++ w' ++ [q] ++ l ++ [q]
  end.
Definition markupdecl_text (m : markupdecl) : str :=
  match m with
  | DtElement w nm w' cs w'' => lit "<!ELEMENT" ++ w ++ nm ++ w' ++ spec_text cs ++ w'' ++ lit ">"
  | DtAttlist w nm l w' => lit "<!ATTLIST" ++ w ++ nm ++ flat_map attdef_text l ++ w' ++ lit ">"
  | DtEntity w nm d w' => lit "<!ENTITY" ++ w ++ nm ++ entity_text d ++ w' ++ lit ">"
  | DtParameter w1 w2 nm d w' => lit "<!ENTITY" ++ w1 ++ lit "%" ++ w2 ++ nm ++ entity_text d ++ w' ++ lit ">"
  | DtNotation w nm i w' => lit "<!NOTATION" ++ w ++ nm ++ notation_text i ++ w' ++ lit ">"
  | DtPI p => pi_text p
  | DtComment c => comment_text c
  end.
Definition subset_text (s : list (str * markupdecl) * str * str) : str :=
  lit "[" ++ flat_map (fun p => fst p ++ markupdecl_text (snd p)) (fst (fst s)) ++ snd (fst s) ++ lit "]" ++ snd s.
(** The declaration, without the "<!DOCTYPE" and ">" around it. *)
Definition doctype_inside (d : doctype) : str :=
  dt_space d ++ dt_name d ++ (match dt_external d with None => [] | Some e => external_text e end) ++ dt_space' d ++
  (match dt_subset d with None => [] | Some s => subset_text s end).
Definition misc_text (m : misc) : str :=
  match m with
  | MiscComment c => comment_text c
  | MiscPI p => pi_text p
  | MiscDoctype d => lit "<!DOCTYPE" ++ doctype_inside d ++ lit ">"
  end.
Definition miscs_text (l : list (str * misc)) : str := flat_map (fun p => fst p ++ misc_text (snd p)) l.
Definition xml_text (x : xdocument) : str :=
  (match xd_decl x with None => [] | Some d => lit "<?" ++ decl_inside d ++ lit "?>" end) ++
  miscs_text (xd_prolog x) ++ xd_gap x ++ markup_text (xd_root x) ++ miscs_text (xd_epilog x) ++ xd_end x.

(** * What values and texts say *)

(** Numbers in decimal and in hexadecimal *)
Definition digit (c : char) : option N := if (48 <=? c)%N && (c <=? 57)%N then Some (c - 48)%N else None.
Definition hexdigit (c : char) : option N :=
  if (48 <=? c)%N && (c <=? 57)%N then Some (c - 48)%N
  else if (65 <=? c)%N && (c <=? 70)%N then Some (c - 55)%N
  else if (97 <=? c)%N && (c <=? 102)%N then Some (c - 87)%N else None.
Fixpoint number (base : N) (dig : char -> option N) (acc : N) (s : str) : option N :=
  match s with
  | [] => Some acc
  | c :: s' => match dig c with Some v => number base dig (base * acc + v)%N s' | None => None end
  end.
(** The character a reference stands for; the entities are the predefined ones
    (4.6), as no others are referred to. *)
Definition refers (p : piece) : option char :=
  match p with
  | Chr c => None
  | Ent nm => option_map snd (find (fun e => str_eqb (fst e) nm) predefined)
  | Dec [] | Hex [] => None
  | Dec ds => number 10 digit 0 ds
  | Hex ds => number 16 hexdigit 0 ds
  end.
(** 2.11: carriage return and line feed are one line feed, a carriage return
    alone is a line feed too.  Applied to the characters written, not to those
    given by references. *)
Definition is_chr (n : N) (p : piece) : bool := match p with Chr c => (c =? n)%N | _ => false end.
Fixpoint line_ends (l : list piece) : list piece :=
  match l with
  | [] => []
  | p :: l' =>
      if is_chr 13 p
      then if match l' with q :: _ => is_chr 10 q | [] => false end then line_ends l' else Chr 10%N :: line_ends l'
      else p :: line_ends l'
  end.
Definition said (p : piece) : str :=
  match p with Chr c => [c] | _ => match refers p with Some c => [c] | None => [] end end.
Definition text_said (t : list piece) : str := flat_map said (line_ends t).
(** The same for comments and CDATA sections, where there are no references. *)
Definition plain_said (s : str) : str := text_said (map Chr s).
(** 3.3.3: in an attribute value, white space characters written as such are
    spaces. *)
Definition value_char (p : piece) : str :=
  match p with
  | Chr c => if existsb (N.eqb c) [32; 9; 13; 10]%N then [32%N] else [c]
  | _ => said p
  end.
Definition value_said (t : list piece) : str := flat_map value_char (line_ends t).

(** * What the document type declaration says about attributes *)

(** 3.3.3: in the value of an attribute not declared as CDATA, spaces at the ends
    are discarded and a sequence of spaces is one space. *)
Definition is_space (p : piece) : bool := str_eqb (value_char p) (lit " ").
Fixpoint drop_spaces (l : list piece) : list piece :=
  match l with [] => [] | p :: l' => if is_space p then drop_spaces l' else l end.
Fixpoint squeeze (l : list piece) : list piece :=
  match l with
  | [] => []
  | p :: l' =>
      if is_space p
      then match l' with [] => [] | q :: _ => if is_space q then squeeze l' else Chr 32%N :: squeeze l' end
      else p :: squeeze l'
  end.
Definition tokens (l : list piece) : list piece := squeeze (drop_spaces l).
(** The parts of a text between spaces, and these with one space in between. *)
Fixpoint words_from (w s : str) : list str :=
  match s with
  | [] => match w with [] => [] | _ => [w] end
  | c :: s' => if (c =? 32)%N then match w with [] => words_from [] s' | _ => w :: words_from [] s' end else words_from (w ++ [c]) s'
  end.
Definition words (s : str) : list str := words_from [] s.
Fixpoint join (l : list str) : str :=
  match l with [] => [] | [w] => w | w :: l' => w ++ lit " " ++ join l' end.
Definition tokenized (t : atttype) : bool := match t with AtKeyword kw => negb (str_eqb kw (lit "CDATA")) | AtEnum _ _ _ _ _ => true end.
(** The definitions of attributes, with the name of the element type.  3.3: of
    several for the same attribute of the same element type the first is binding. *)
Definition same_attribute (a b : str * attdef) : bool := str_eqb (fst a) (fst b) && str_eqb (ad_name (snd a)) (ad_name (snd b)).
Fixpoint binding (l : list (str * attdef)) : list (str * attdef) :=
  match l with [] => [] | a :: l' => a :: filter (fun b => negb (same_attribute a b)) (binding l') end.
Definition attdef_of (D : list (str * attdef)) (nm k : str) : option attdef :=
  option_map snd (find (fun a => str_eqb (fst a) nm && str_eqb (ad_name (snd a)) k) D).
Definition normalized (D : list (str * attdef)) (nm : str) (a : attribute) : attribute :=
  match attdef_of D nm (at_name a) with
  | Some d => if tokenized (ad_type d) then Attribute (at_space a) (at_name a) (at_eq1 a) (at_eq2 a) (at_quote a) (tokens (at_value a)) else a
  | None => a
  end.
(** 3.3.2: an attribute that is declared with a default value and not written is
    as if it were written with that value. *)
Definition defaults (D : list (str * attdef)) (nm : str) (l : list attribute) : list attribute :=
  flat_map (fun a =>
    match ad_default (snd a) with
    | DfValue _ q v =>
        if str_eqb (fst a) nm && negb (existsb (fun b => str_eqb (at_name b) (ad_name (snd a))) l)
        then [Attribute (lit " ") (ad_name (snd a)) [] [] q v] else []
    | _ => []
    end) (binding D).
Definition complete_attributes (D : list (str * attdef)) (nm : str) (l : list attribute) : list attribute :=
  map (normalized D nm) (l ++ defaults D nm l).
(** The element as it would be written if all this had been done already. *)
Fixpoint completed (D : list (str * attdef)) (m : markup) : markup :=
  match m with
  | MEmpty nm attrs w => MEmpty nm (complete_attributes D nm attrs) w
  | MElem nm attrs w b w' => MElem nm (complete_attributes D nm attrs) w (completed_in D b) w'
  | _ => m
  end
with completed_in (D : list (str * attdef)) (b : content) : content :=
  match b with
  | CText t => CText t
  | CMore t m b => CMore t (completed D m) (completed_in D b)
  end.
Definition doctype_decls (l : list (str * misc)) : list doctype :=
  flat_map (fun p => match snd p with MiscDoctype d => [d] | _ => [] end) l.
Definition attdefs (l : list (str * misc)) : list (str * attdef) :=
  flat_map (fun d =>
    match dt_subset d with
    | None => []
    | Some (l, _, _) => flat_map (fun p => match snd p with DtAttlist _ nm l _ => map (pair nm) l | _ => [] end) l
    end) (doctype_decls l).
(** The root, with what the document type declaration says about attributes. *)
Definition whole_root (x : xdocument) : markup := completed (attdefs (xd_prolog x)) (xd_root x).

(** * Namespaces *)

Definition the_attribute (k : str) (l : list attribute) : option attribute := find (fun a => str_eqb (at_name a) k) l.
(** The namespace of each prefix, and ([None]) of names without a prefix. *)
Definition scope := option str -> option str.
Definition declaring (q : option str) : str := match q with None => lit "xmlns" | Some p => lit "xmlns:" ++ p end.
(** Names 3: the only prefix bound from the start is "xml". *)
Definition no_declarations : scope :=
  fun q => match q with
           | Some p => if str_eqb p (lit "xml") then Some (lit "http://www.w3.org/XML/1998/namespace") else None
           | None => None
           end.
(** A scope where all prefixes are bound. *)
Definition all_declared : scope := fun _ => Some [].
(** Names 6: a declaration holds for the element it is on and for everything
    inside, except where another one for the same prefix does; xmlns="" leaves
    names without a prefix in no namespace. *)
Definition declare (l : list attribute) (sc : scope) : scope :=
  fun q => match the_attribute (declaring q) l with
           | Some a => match value_said (at_value a) with [] => None | v => Some v end
           | None => sc q
           end.

(** * Constraints *)

Definition reference_ok (p : piece) : Prop := match p with Chr _ => True | _ => exists c, refers p = Some c /\ xml_char c end.
(** [10] AttValue, [14] CharData *)
Definition value_ok (q : char) (l : list piece) : Prop :=
  Forall (fun p => reference_ok p /\ forall c, p = Chr c -> xml_char c /\ ~ In c [60; 38; q]%N) l.
Definition chardata_ok (l : list piece) : Prop :=
  Forall (fun p => reference_ok p /\ forall c, p = Chr c -> xml_char c /\ ~ In c [60; 38]%N) l /\
  ~ substring (lit "]]>") (pieces_text l).
Definition quote_ok (q : char) : Prop := q = dquote \/ q = squote.
(** [41]; names of attributes are QNames *)
Definition attribute_ok (a : attribute) : Prop :=
  at_space a <> [] /\ spaces (at_space a) /\ (exists p n, qname (at_name a) p n) /\ spaces (at_eq1 a) /\ spaces (at_eq2 a) /\
  quote_ok (at_quote a) /\ value_ok (at_quote a) (at_value a).
(** WFC Unique Att Spec; Names: no prefix is declared as "" *)
Definition attributes_ok (l : list attribute) : Prop :=
  Forall attribute_ok l /\ NoDup (map at_name l) /\
  forall a p, In a l -> at_name a = lit "xmlns:" ++ p -> value_said (at_value a) <> [].
(** [15], [19]-[21], [16], [17] *)
Definition comment_ok (c : str) : Prop := Forall xml_char c /\ ~ substring (lit "--") c /\ ~ ends (lit "-") c.
Definition cdata_ok (c : str) : Prop := Forall xml_char c /\ ~ substring (lit "]]>") c.
Definition pi_ok (p : pi) : Prop :=
  is_name (pi_target p) /\
  ~ (exists x m l, pi_target p = [x; m; l] /\ In x [120; 88]%N /\ In m [109; 77]%N /\ In l [108; 76]%N) /\
  (pi_data p = [] \/ exists c r, pi_data p = c :: r /\ xml_space c /\ Forall xml_char r) /\
  ~ substring (lit "?>") (pi_data p).
(** [39]-[44]; tags match because both names are [nm]; names of elements are
    QNames and their prefixes are declared. *)
Definition tag_ok (sc : scope) (nm : str) (attrs : list attribute) (w : str) : Prop :=
  (exists p n, qname nm p n /\ (forall q, p = Some q -> declare attrs sc p <> None)) /\ attributes_ok attrs /\ spaces w.
Fixpoint markup_ok (sc : scope) (m : markup) : Prop :=
  match m with
  | MEmpty nm attrs w => tag_ok sc nm attrs w
  | MElem nm attrs w b w' => tag_ok sc nm attrs w /\ content_ok (declare attrs sc) b /\ spaces w'
  | MComment c => comment_ok c
  | MCData c => cdata_ok c
  | MPI p => pi_ok p
  end
with content_ok (sc : scope) (b : content) : Prop :=
  match b with
  | CText t => chardata_ok t
  | CMore t m b => chardata_ok t /\ markup_ok sc m /\ content_ok sc b
  end.
(** [25], [26], [81], [32] *)
Definition pseudo_ok (P : str -> Prop) (p : pseudo) : Prop :=
  ps_space p <> [] /\ spaces (ps_space p) /\ spaces (ps_eq1 p) /\ spaces (ps_eq2 p) /\ quote_ok (ps_quote p) /\ P (ps_value p).
Definition version_num (v : str) : Prop :=
  exists r, v = lit "1." ++ r /\ r <> [] /\ Forall (in_ranges [(48, 57)]%N) r.
Definition enc_name (v : str) : Prop :=
  exists c r, v = c :: r /\ in_ranges [(65, 90); (97, 122)]%N c /\
  Forall (in_ranges [(65, 90); (97, 122); (48, 57); (45, 46); (95, 95)]%N) r.
Definition yes_no (v : str) : Prop := v = lit "yes" \/ v = lit "no".
Definition xmldecl_ok (d : xmldecl) : Prop :=
  pseudo_ok version_num (xd_version d) /\ (forall p, xd_encoding d = Some p -> pseudo_ok enc_name p) /\
  (forall p, xd_standalone d = Some p -> pseudo_ok yes_no p) /\ spaces (xd_space d).
Definition space_ok (w : str) : Prop := w <> [] /\ spaces w.
Definition is_qname (s : str) : Prop := exists p n, qname s p n.
(** [11]-[13] *)
Definition pubid_char (c : char) : Prop :=
  In c [32; 13; 10]%N \/ in_ranges [(97, 122); (65, 90); (48, 57)]%N c \/ In c (lit "-'()+,./:=?;!*#@$_%").
Definition external_ok (e : external) : Prop :=
  space_ok (ex_space e) /\
  (forall w q l, ex_public e = Some (w, q, l) -> space_ok w /\ quote_ok q /\ Forall pubid_char l /\ ~ In q l) /\
  space_ok (ex_space' e) /\ quote_ok (ex_quote e) /\ Forall xml_char (ex_system e) /\ ~ In (ex_quote e) (ex_system e).
Definition sign_ok (s : str) : Prop := In s [[]; lit "?"; lit "*"; lit "+"].
Fixpoint cp_ok (c : cp) : Prop :=
  match c with
  | CpName nm sign => is_qname nm /\ sign_ok sign
  | CpGroup sep w l sign =>
      spaces w /\ cps_ok l /\ sign_ok sign /\
      ([sep] = lit "," \/ ([sep] = lit "|" /\ exists c w w' r, l = CpMore c w w' r))
  end
with cps_ok (l : cps) : Prop :=
  match l with
  | CpLast c w => cp_ok c /\ spaces w
  | CpMore c w w' l => cp_ok c /\ spaces w /\ spaces w' /\ cps_ok l
  end.
Definition spec_ok (c : contentspec) : Prop :=
  match c with
  | CsEmpty | CsAny => True
  | CsMixed w l w' star =>
      spaces w /\ Forall (fun a => spaces (fst (fst a)) /\ spaces (snd (fst a)) /\ is_qname (snd a)) l /\ spaces w' /\
      (star = lit "*" \/ (star = [] /\ l = []))
  | CsChildren c => cp_ok c /\ exists sep w l sign, c = CpGroup sep w l sign
  end.
(** [7] Nmtoken *)
Definition is_nmtoken (s : str) : Prop := s <> [] /\ Forall name_next s.
Definition keywords : list str :=
  [lit "CDATA"; lit "ID"; lit "IDREF"; lit "IDREFS"; lit "ENTITY"; lit "ENTITIES"; lit "NMTOKEN"; lit "NMTOKENS"].
Definition type_ok (t : atttype) : Prop :=
  match t with
  | AtKeyword kw => In kw keywords
  | AtEnum n w t l w' =>
      (forall v, n = Some v -> space_ok v) /\ spaces w /\
      Forall (fun s => match n with None => is_nmtoken s | Some _ => is_ncname s end) (t :: map snd l) /\
      Forall (fun a => spaces (fst (fst a)) /\ spaces (snd (fst a))) l /\ spaces w'
  end.
Definition default_ok (d : attdefault) : Prop :=
  match d with
  | DfRequired | DfImplied => True
  | DfValue f q v => (forall w, f = Some w -> space_ok w) /\ quote_ok q /\ value_ok q v
  end.
Definition attdef_ok (a : attdef) : Prop :=
  space_ok (ad_space a) /\ is_qname (ad_name a) /\ space_ok (ad_space1 a) /\ type_ok (ad_type a) /\ space_ok (ad_space2 a) /\ default_ok (ad_default a).
(** [9] EntityValue; 4.4.7: references to entities in it mean nothing here.  WFC PEs
    in Internal Subset: no references to parameter entities. *)
Definition entity_value_ok (q : char) (l : list piece) : Prop :=
  Forall (fun p => match p with
                   | Chr c => xml_char c /\ ~ In c [37; 38; q]%N
                   | Ent nm => is_ncname nm
                   | _ => reference_ok p
                   end) l.
Definition entitydef_ok (d : entitydef) : Prop :=
  match d with
  | EdValue w q v => space_ok w /\ quote_ok q /\ entity_value_ok q v
  | EdExternal e nd => external_ok e /\ forall w w' n, nd = Some (w, w', n) -> space_ok w /\ space_ok w' /\ is_ncname n
  end.
Definition notation_ok (i : notationid) : Prop :=
  match i with
  | NtExternal e => external_ok e
  | NtPublic w w' q l => space_ok w /\ space_ok w' /\ quote_ok q /\ Forall pubid_char l /\ ~ In q l
  end.
Definition markupdecl_ok (m : markupdecl) : Prop :=
  match m with
  | DtElement w nm w' cs w'' => space_ok w /\ is_qname nm /\ space_ok w' /\ spec_ok cs /\ spaces w''
  | DtAttlist w nm l w' => space_ok w /\ is_qname nm /\ Forall attdef_ok l /\ spaces w'
  | DtEntity w nm d w' => space_ok w /\ is_ncname nm /\ entitydef_ok d /\ spaces w'
  | DtParameter w1 w2 nm d w' =>
      space_ok w1 /\ space_ok w2 /\ is_ncname nm /\ entitydef_ok d /\ (forall e nd, d = EdExternal e nd -> nd = None) /\ spaces w'
  | DtNotation w nm i w' => space_ok w /\ is_ncname nm /\ notation_ok i /\ spaces w'
  | DtPI p => pi_ok p
  | DtComment c => comment_ok c
  end.
Definition doctype_ok (d : doctype) : Prop :=
  space_ok (dt_space d) /\ is_qname (dt_name d) /\ (forall e, dt_external d = Some e -> external_ok e) /\
  spaces (dt_space' d) /\
  (forall l w w', dt_subset d = Some (l, w, w') ->
     Forall (fun p => spaces (fst p) /\ markupdecl_ok (snd p)) l /\ spaces w /\ spaces w').
Definition misc_ok (m : misc) : Prop :=
  match m with MiscComment c => comment_ok c | MiscPI p => pi_ok p | MiscDoctype d => doctype_ok d end.
Definition miscs_ok (l : list (str * misc)) : Prop := Forall (fun p => spaces (fst p) /\ misc_ok (snd p)) l.
Definition is_element (m : markup) : Prop :=
  match m with MEmpty _ _ _ | MElem _ _ _ _ _ => True | _ => False end.
(** The well-formed documents (the namespace constraints on attributes are stated
    below).  Which prefixes are declared may depend on the document type
    declaration, so this is asked of the whole root only. *)
Definition xml_ok (x : xdocument) : Prop :=
  (forall d, xd_decl x = Some d -> xmldecl_ok d) /\ miscs_ok (xd_prolog x) /\
  List.length (doctype_decls (xd_prolog x)) <= 1 /\ spaces (xd_gap x) /\
  is_element (xd_root x) /\ markup_ok all_declared (xd_root x) /\ markup_ok no_declarations (whole_root x) /\
  miscs_ok (xd_epilog x) /\ doctype_decls (xd_epilog x) = [] /\ spaces (xd_end x).

(** * Namespace constraints *)

Definition xml_namespace : str := lit "http://www.w3.org/XML/1998/namespace".
Definition xmlns_namespace : str := lit "http://www.w3.org/2000/xmlns/".
(** [names_ok sc l]: in the scope [sc], the attributes [l], name and value, obey
    Namespaces in XML: prefixes are declared; no two attributes have the same local
    name and prefixes for the same namespace; the prefixes "xml" and "xmlns" and
    their namespaces are not declared otherwise. *)
Definition names_ok (sc : scope) (l : list (str * str)) : Prop :=
  (forall k v q n, In (k, v) l -> qname k (Some q) n -> q <> lit "xmlns" -> sc (Some q) <> None) /\
  (forall k v q k' v' q' n, In (k, v) l -> In (k', v') l -> qname k (Some q) n -> qname k' (Some q') n ->
     q <> lit "xmlns" -> q' <> lit "xmlns" -> sc (Some q) = sc (Some q') -> k = k') /\
  (forall p v, In (lit "xmlns:" ++ p, v) l ->
     (p = lit "xml" <-> v = xml_namespace) /\ p <> lit "xmlns" /\ v <> xmlns_namespace) /\
  (forall v, In (lit "xmlns", v) l -> v <> xml_namespace /\ v <> xmlns_namespace).
Definition written_attributes (l : list attribute) : list (str * str) :=
  map (fun a => (at_name a, value_said (at_value a))) l.
Fixpoint markup_names (sc : scope) (m : markup) : Prop :=
  match m with
  | MEmpty nm attrs w => names_ok (declare attrs sc) (written_attributes attrs)
  | MElem nm attrs w b w' => names_ok (declare attrs sc) (written_attributes attrs) /\ content_names (declare attrs sc) b
  | _ => True
  end
with content_names (sc : scope) (b : content) : Prop :=
  match b with
  | CText t => True
  | CMore t m b => markup_names sc m /\ content_names sc b
  end.
(** The documents that are also namespace-well-formed. *)
Definition namespaces_ok (x : xdocument) : Prop := markup_names no_declarations (whole_root x).

(** * What a document says *)

(** [tag_says sc nm attrs e]: the name, namespace and attributes of [e] are those
    written. *)
Definition tag_says (sc : scope) (nm : str) (attrs : list attribute) (e : elem) : Prop :=
  qname nm (e_prefix e) (e_name e) /\
  e_xmlns e = declare attrs sc (e_prefix e) /\
  forall k v, get_attr e k = Some v <-> exists a, In a attrs /\ at_name a = k /\ v = value_said (at_value a).
(** Text between tags that is white space only is layout and gives no node; the
    tree has no nodes for processing instructions, and keeps CDATA sections apart
    from text. *)
Definition text_says (t : list piece) : list node :=
  if forallb (fun c => existsb (N.eqb c) [32; 9; 13; 10]%N) (text_said t) then [] else [NText (text_said t)].
Inductive says : scope -> markup -> list node -> Prop :=
| sy_empty sc nm attrs w e : tag_says sc nm attrs e -> e_children e = [] -> says sc (MEmpty nm attrs w) [NElem e]
| sy_elem sc nm attrs w b w' e : tag_says sc nm attrs e -> says_in (declare attrs sc) b (e_children e) ->
    says sc (MElem nm attrs w b w') [NElem e]
| sy_comment sc c : says sc (MComment c) [NComment (plain_said c)]
| sy_cdata sc c : says sc (MCData c) [NCData (plain_said c)]
| sy_pi sc p : says sc (MPI p) []
with says_in : scope -> content -> list node -> Prop :=
| sy_text sc t : says_in sc (CText t) (text_says t)
| sy_more sc t m b l l' : says sc m l -> says_in sc b l' -> says_in sc (CMore t m b) (text_says t ++ l ++ l').
Definition xml_says (x : xdocument) (d : document) : Prop :=
  d_declaration d = option_map decl_inside (xd_decl x) /\
  d_dtds d = map doctype_inside (doctype_decls (xd_prolog x)) /\
  says no_declarations (whole_root x) [NElem (d_root d)].

(** * The subset *)

(** Which well-formed documents the crate is shown to read as XML says; each of
    the conditions is necessary in the sense that a document breaking only that
    one is misread. *)

Definition numeric (p : piece) : Prop := match p with Dec _ | Hex _ => True | _ => False end.
(** Number of bytes of the last character. *)
Definition last_bytes (s : str) : nat := match rev s with [] => 1 | c :: _ => len_utf8 c end.
(** No numeric references; after each reference, as many bytes of whole
    characters that are not references as the last character of the text has, less
    one: always true if that character is ASCII. *)
Definition references_apart (l : list piece) : Prop :=
  Forall (fun p => ~ numeric p) l /\
  forall a nm b, l = a ++ Ent nm :: b -> exists u v, b = map Chr u ++ v /\ S (blen u) = last_bytes (pieces_text l).
Definition easy_value (l : list piece) : Prop := references_apart l /\ Forall (fun p => ~ In p (map Chr [9; 10; 13]%N)) l.
Definition easy_text (l : list piece) : Prop :=
  references_apart l /\ ~ In (Chr 13%N) l /\
  (spaces (text_said l) \/ exists c, In c (text_said l) /\ is_whitespace c = false).
(** U+1680 is white space for Rust. *)
Definition easy_name (s : str) : Prop :=
  ~ In 5760%N s /\ exists c r, s = c :: r /\ in_ranges [(65, 90); (95, 95); (97, 122)]%N c.
Definition easy_attribute (a : attribute) : Prop :=
  easy_name (at_name a) /\ at_eq1 a = [] /\ at_eq2 a = [] /\ easy_value (at_value a).
(** [below]: the parent has a prefix. *)
Definition easy_tag (below : bool) (sc : scope) (nm : str) (attrs : list attribute) : Prop :=
  Forall easy_attribute attrs /\
  (forall a, the_attribute (lit "xmlns") attrs = Some a -> value_said (at_value a) <> []) /\
  forall p n, qname nm p n ->
    easy_name n /\
    match p with
    | Some q => ~ In 5760%N q /\ q <> lit "xml"
    | None => below = true -> the_attribute (lit "xmlns") attrs = None -> sc None = None
    end.
Definition easy_comment (c : str) : Prop := ~ In 13%N c /\ ~ begins (lit ">") c /\ ~ begins (lit "->") c.
Definition prefixed (nm : str) : bool := existsb (N.eqb 58%N) nm.
Fixpoint easy_markup (below : bool) (sc : scope) (m : markup) : Prop :=
  match m with
  | MEmpty nm attrs w => easy_tag below sc nm attrs
  | MElem nm attrs w b w' => easy_tag below sc nm attrs /\ easy_content (prefixed nm) (declare attrs sc) b
  | MComment c => easy_comment c
  | MCData c => ~ In 13%N c
  | MPI p => False
  end
with easy_content (below : bool) (sc : scope) (b : content) : Prop :=
  match b with
  | CText t => easy_text t
  | CMore t m b => easy_text t /\ easy_markup below sc m /\ easy_content below sc b
  end.
(** A comment before the root: a warning with its first 15 and last 16 bytes is
    printed if it is longer than 32 bytes.  A comment or
    processing instruction in the document type declaration: its quotes and angles
    are not told from those of the markup. *)
Definition easy_markupdecl (m : markupdecl) : Prop :=
  match m with
  | DtPI p => forall x, In x (pi_data p) -> ~ In x (lit "'""<>")
  | DtComment c => forall x, In x c -> ~ In x (lit "'""<>")
  | _ => True
  end.
Definition easy_prolog (m : misc) : Prop :=
  match m with
  | MiscComment c =>
      ~ begins (lit ">") c /\ ~ begins (lit "->") c /\
      (blen (comment_text c) <= 32 \/ (boundary (comment_text c) 15 /\ boundary (comment_text c) (blen (comment_text c) - 16)))
  | MiscPI _ => False
  | MiscDoctype d =>
      forall l w w', dt_subset d = Some (l, w, w') -> Forall (fun p => easy_markupdecl (snd p)) l
  end.
(** The document type declaration does not change the root: all attributes with
    default values are written, and those not declared as CDATA without needless
    spaces. *)
Definition easy_xml (x : xdocument) : Prop :=
  Forall (fun p => easy_prolog (snd p)) (xd_prolog x) /\ whole_root x = xd_root x /\ easy_markup false no_declarations (xd_root x) /\ xd_epilog x = [].

(** * Trees that can be written as XML *)

(** The scope inside an element of a tree. *)
Definition declared (e : elem) (sc : scope) : scope :=
  fun q => match get_attr e (declaring q) with
           | Some [] => None
           | Some v => Some v
           | None => sc q
           end.
(** [xml_elem sc e]: names are QNames, the namespace is the declared one, and
    there is nothing in texts, values, comments and CDATA sections that XML does
    not allow or would change: control characters, carriage returns, tabs and line
    ends in attribute values, text of white space only, texts next to each other. *)
Inductive xml_elem : scope -> elem -> Prop :=
| xe sc e :
    qname (qualified e) (e_prefix e) (e_name e) ->
    e_xmlns e = declared e sc (e_prefix e) ->
    (e_prefix e <> None -> e_xmlns e <> None) ->
    (forall k v, In (k, v) (e_attributes e) ->
       (exists p n, qname k p n) /\ Forall xml_char v /\ (forall c, In c [9; 10; 13]%N -> ~ In c v) /\
       (forall p, k = lit "xmlns:" ++ p -> v <> [])) ->
    names_ok (declared e sc) (e_attributes e) ->
    no_adjacent_text (e_children e) ->
    (forall t, In (NText t) (e_children e) -> Forall xml_char t /\ ~ In 13%N t /\ ~ spaces t) ->
    (forall c, In (NComment c) (e_children e) -> comment_ok c /\ ~ In 13%N c) ->
    (forall c, In (NCData c) (e_children e) -> cdata_ok c /\ ~ In 13%N c) ->
    (forall c, In (NElem c) (e_children e) -> xml_elem (declared e sc) c) ->
    xml_elem sc e.
(** Without DTD, and with nothing or an XML declaration as declaration. *)
Definition xml_document (d : document) : Prop :=
  elem_ok (d_root d) /\ d_dtds d = [] /\
  (forall s, d_declaration d = Some s -> exists x, xmldecl_ok x /\ s = decl_inside x) /\
  xml_elem no_declarations (d_root d).

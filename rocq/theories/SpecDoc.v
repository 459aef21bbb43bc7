(** Concrete syntax: XML texts with all their formatting (white space, quote
    style, spaces around '=', empty-element tags), how they are written, and
    when two of them differ in formatting only.  Nothing of the parser is used
    except [unescape], which is part of the public API and has its own
    specification. *)
From Coq Require Import List NArith Arith Bool Ascii String.
From Verif Require Import Base Escape Dom Spec SpecDom SpecLex SpecParse.
Import ListNotations.

(** * Names *)

Definition between_ (a b c : char) : Prop := (a <= c <= b)%N.
(** NameStartChar and NameChar of XML 1.0, except U+1680, which XML lists but
    which is white space. *)
Definition name_start (c : char) : Prop :=
  Exists (fun r => between_ (fst r) (snd r) c)
    [(58, 58); (65, 90); (95, 95); (97, 122); (192, 214); (216, 246); (248, 767);
     (880, 893); (895, 8191); (8204, 8205); (8304, 8591); (11264, 12271);
     (12289, 55295); (63744, 64975); (65008, 65533); (65536, 983039)]%N /\
  c <> 5760%N.
Definition name_char (c : char) : Prop :=
  name_start c \/
  Exists (fun r => between_ (fst r) (snd r) c)
    [(45, 46); (48, 57); (183, 183); (768, 879); (8255, 8256)]%N.
Definition colon : char := 58%N.
(** Names starting with an ASCII letter or an underscore. *)
Definition plain_name (s : str) : Prop :=
  exists c r, s = c :: r /\ (c = 95 \/ 65 <= c <= 90 \/ 97 <= c <= 122)%N /\ Forall name_char r.
Definition xml_name (s : str) : Prop :=
  exists c r, s = c :: r /\ name_start c /\ Forall name_char r.
(** [named nm prefix local]: [nm] is written as the qualified name of an element
    with this prefix and local name; the first colon separates them. *)
Inductive named : str -> option str -> str -> Prop :=
| nd_plain n : plain_name n -> ~ In colon n -> named n None n
| nd_prefixed p n : xml_name p -> ~ In colon p -> plain_name n -> named (p ++ [colon] ++ n) (Some p) n.

(** * Concrete syntax *)

(** An attribute: white space before it, name, white space before and after the
    '=', quote character, what stands between the quotes. *)
Record cattr := CAttr {
  a_space : str; a_key : str; a_eq1 : str; a_eq2 : str; a_quote : char; a_raw : str
}.
(** Items of contents: elements written as one tag or as two tags around their
    contents (with the white space before the end of the tags), comments, CDATA
    sections.  Contents alternate text and items. *)
Inductive citem :=
| CEmpty (nm : str) (attrs : list cattr) (w : str)
| CElem (nm : str) (attrs : list cattr) (w : str) (body : cbody) (w' : str)
| CComment (c : str)
| CCData (c : str)
with cbody :=
| BEnd (txt : str)
| BItem (txt : str) (i : citem) (b : cbody).
Scheme citem_mut := Induction for citem Sort Prop
  with cbody_mut := Induction for cbody Sort Prop.
Combined Scheme citem_ind2 from citem_mut, cbody_mut.

Definition attr_print (a : cattr) : str :=
  a_space a ++ a_key a ++ a_eq1 a ++ lit "=" ++ a_eq2 a ++ [a_quote a] ++ a_raw a ++ [a_quote a].
Definition head_print (nm : str) (attrs : list cattr) : str := nm ++ flat_map attr_print attrs.
Fixpoint item_print (i : citem) : str :=
  match i with
  | CEmpty nm attrs w => lit "<" ++ head_print nm attrs ++ w ++ lit "/>"
  | CElem nm attrs w body w' =>
      lit "<" ++ head_print nm attrs ++ w ++ lit ">" ++ body_print body ++ lit "</" ++ nm ++ w' ++ lit ">"
  | CComment c => lit "<!--" ++ c ++ lit "-->"
  | CCData c => lit "<![CDATA[" ++ c ++ lit "]]>"
  end
with body_print (b : cbody) : str :=
  match b with
  | BEnd txt => txt
  | BItem txt i b => txt ++ item_print i ++ body_print b
  end.

(** What may stand before the root: comments and DTDs, with the white space
    before each. *)
Inductive pitem := PComment (c : str) | PDoctype (d : str).
Definition pitem_print (i : pitem) : str :=
  match i with
  | PComment c => lit "<!--" ++ c ++ lit "-->"
  | PDoctype d => lit "<!DOCTYPE" ++ d ++ lit ">"
  end.
(** A document: declaration (with the white space before it), prolog, white
    space, root element, text after it. *)
Record source := Source {
  x_decl : option (str * str); x_prolog : list (str * pitem); x_gap : str; x_root : citem; x_after : str
}.
Definition source_print (x : source) : str :=
  (match x_decl x with None => [] | Some (w, d) => w ++ lit "<?" ++ d ++ lit "?>" end) ++
  flat_map (fun p => fst p ++ pitem_print (snd p)) (x_prolog x) ++
  x_gap x ++ item_print (x_root x) ++ x_after x.

(** * Well-formedness *)

Definition readable (raw : str) : Prop := exists v, unescape raw = Ok v.
Definition attr_wf (a : cattr) : Prop :=
  a_space a <> [] /\ ws (a_space a) /\ plain_name (a_key a) /\ ws (a_eq1 a) /\ ws (a_eq2 a) /\
  (a_quote a = dquote \/ a_quote a = squote) /\ ~ In (a_quote a) (a_raw a) /\ readable (a_raw a).
Definition unspaced (a : cattr) : Prop := a_eq1 a = [] /\ a_eq2 a = [].
(** Spaces around '=' are tolerated only in a group of attributes that starts
    with an attribute without them and ends with one having the same quotes as
    the first. *)
Inductive grouped : list cattr -> Prop :=
| gr_nil : grouped []
| gr_one a l : unspaced a -> grouped l -> grouped (a :: l)
| gr_more a m z l : unspaced a -> a_quote z = a_quote a -> grouped l -> grouped (a :: m ++ z :: l).
Definition attrs_wf (l : list cattr) : Prop := Forall attr_wf l /\ grouped l.
Definition comment_wf (c : str) : Prop :=
  ~ substring (lit "-->") c /\ ~ begins (lit ">") c /\ ~ begins (lit "->") c.
Definition cdata_wf (c : str) : Prop := ~ substring (lit "]]>") c.
Definition text_wf (txt : str) : Prop := no_tag txt /\ (ws txt \/ readable txt).
Fixpoint item_wf (i : citem) : Prop :=
  match i with
  | CEmpty nm attrs w => (exists p n, named nm p n) /\ attrs_wf attrs /\ ws w
  | CElem nm attrs w body w' =>
      (exists p n, named nm p n) /\ attrs_wf attrs /\ ws w /\ body_wf body /\ ws w'
  | CComment c => comment_wf c
  | CCData c => cdata_wf c
  end
with body_wf (b : cbody) : Prop :=
  match b with
  | BEnd txt => text_wf txt
  | BItem txt i b => text_wf txt /\ item_wf i /\ body_wf b
  end.
(** The root is an element, and declares its own prefix if it has one. *)
Definition root_wf (i : citem) : Prop :=
  exists nm attrs, ((exists w, i = CEmpty nm attrs w) \/ (exists w b w', i = CElem nm attrs w b w')) /\
  forall p n, named nm (Some p) n -> In (lit "xmlns:" ++ p) (map a_key attrs).
Definition decl_wf (d : str) : Prop :=
  begins (lit "xml") d /\ quotes_closed d /\
  forall a b, d = a ++ lit "?>" ++ b -> ~ quotes_closed a.
Definition doctype_wf (d : str) : Prop :=
  quotes_closed d /\ angles_balanced d /\
  forall a b, d = a ++ lit ">" ++ b -> quotes_closed a -> ~ angles_balanced a.
(** Text of which the crate can print the 15 first and the 16 last bytes. *)
Definition shortenable (t : str) : Prop :=
  blen t <= 32 \/ (boundary t 15 /\ boundary t (blen t - 16)).
Definition pitem_wf (i : pitem) : Prop :=
  match i with PComment c => comment_wf c | PDoctype d => doctype_wf d end.
Definition source_wf (x : source) : Prop :=
  (forall w d, x_decl x = Some (w, d) -> ws w /\ decl_wf d) /\
  Forall (fun p => ws (fst p) /\ pitem_wf (snd p)) (x_prolog x) /\
  (forall w c, In (w, PComment c) (x_prolog x) -> shortenable (lit "<!--" ++ c ++ lit "-->")) /\
  ws (x_gap x) /\ item_wf (x_root x) /\ root_wf (x_root x) /\ no_tag (x_after x).

(** * Formatting *)

(** What may differ: quotes, spaces around '=', all other layout. *)
Record freedom := Free { f_quotes : bool; f_equals : bool; f_layout : bool }.
Definition same_unless (b : bool) {A} (x y : A) : Prop := b = true \/ x = y.

Section Freedom.
Variable f : freedom.
(** White space that may vary, but not appear or disappear between names. *)
Definition attr_alike (a b : cattr) : Prop :=
  a_key a = a_key b /\ a_raw a = a_raw b /\
  same_unless (f_quotes f) (a_quote a) (a_quote b) /\
  same_unless (f_equals f) (a_eq1 a) (a_eq1 b) /\ same_unless (f_equals f) (a_eq2 a) (a_eq2 b) /\
  same_unless (f_layout f) (a_space a) (a_space b).
(** Text is the same, or is white space on both sides. *)
Definition text_alike (t t' : str) : Prop := t = t' \/ (f_layout f = true /\ ws t /\ ws t').
Inductive item_alike : citem -> citem -> Prop :=
| al_empty nm attrs attrs' w w' : Forall2 attr_alike attrs attrs' -> same_unless (f_layout f) w w' ->
    item_alike (CEmpty nm attrs w) (CEmpty nm attrs' w')
| al_elem nm attrs attrs' w w' b b' v v' : Forall2 attr_alike attrs attrs' -> same_unless (f_layout f) w w' ->
    body_alike b b' -> same_unless (f_layout f) v v' ->
    item_alike (CElem nm attrs w b v) (CElem nm attrs' w' b' v')
(* an empty element as one tag or as two *)
| al_close nm attrs attrs' w w' t v' : f_layout f = true -> Forall2 attr_alike attrs attrs' -> ws t ->
    item_alike (CEmpty nm attrs w) (CElem nm attrs' w' (BEnd t) v')
| al_unclose nm attrs attrs' w w' t v : f_layout f = true -> Forall2 attr_alike attrs attrs' -> ws t ->
    item_alike (CElem nm attrs w (BEnd t) v) (CEmpty nm attrs' w')
| al_comment c : item_alike (CComment c) (CComment c)
| al_cdata c : item_alike (CCData c) (CCData c)
with body_alike : cbody -> cbody -> Prop :=
| al_end t t' : text_alike t t' -> body_alike (BEnd t) (BEnd t')
| al_item t t' i i' b b' : text_alike t t' -> item_alike i i' -> body_alike b b' ->
    body_alike (BItem t i b) (BItem t' i' b').
(** Comments before the root come and go with the layout. *)
Inductive prolog_alike : list (str * pitem) -> list (str * pitem) -> Prop :=
| pl_nil : prolog_alike [] []
| pl_same w w' i l l' : same_unless (f_layout f) w w' -> prolog_alike l l' ->
    prolog_alike ((w, i) :: l) ((w', i) :: l')
| pl_left w c l l' : f_layout f = true -> prolog_alike l l' -> prolog_alike ((w, PComment c) :: l) l'
| pl_right w c l l' : f_layout f = true -> prolog_alike l l' -> prolog_alike l ((w, PComment c) :: l').
Definition source_alike (x y : source) : Prop :=
  option_map snd (x_decl x) = option_map snd (x_decl y) /\
  same_unless (f_layout f) (option_map fst (x_decl x)) (option_map fst (x_decl y)) /\
  prolog_alike (x_prolog x) (x_prolog y) /\ same_unless (f_layout f) (x_gap x) (x_gap y) /\
  item_alike (x_root x) (x_root y) /\ same_unless (f_layout f) (x_after x) (x_after y).
End Freedom.
Scheme item_alike_mut := Minimality for item_alike Sort Prop
  with body_alike_mut := Minimality for body_alike Sort Prop.

(** Every attribute of every tag. *)
Fixpoint every_attr (P : cattr -> Prop) (i : citem) : Prop :=
  match i with
  | CEmpty _ attrs _ => Forall P attrs
  | CElem _ attrs _ b _ => Forall P attrs /\ every_attr_in P b
  | CComment _ | CCData _ => True
  end
with every_attr_in (P : cattr -> Prop) (b : cbody) : Prop :=
  match b with
  | BEnd _ => True
  | BItem _ i b => every_attr P i /\ every_attr_in P b
  end.
(** Values that can stand between either kind of quotes. *)
Definition quotable (a : cattr) : Prop := unspaced a /\ ~ In dquote (a_raw a) /\ ~ In squote (a_raw a).
Definition has_quotes (a : cattr) : Prop := a_quote a = dquote \/ a_quote a = squote.

(** * Meaning *)

(** The last value given to [k]. *)
Fixpoint last_value (k : str) (l : list cattr) : option str :=
  match l with
  | [] => None
  | a :: l' =>
      match last_value k l' with
      | Some r => Some r
      | None => if str_eqb (a_key a) k then Some (a_raw a) else None
      end
  end.
(** [item_means i n]: the node [n] is what the item says: same qualified name,
    exactly the attributes written, each with its last value, and children in
    order; blank text does not count. *)
Inductive text_means : str -> list node -> Prop :=
| tm_blank t : ws t -> text_means t []
| tm_decoded t v : ~ ws t -> unescape t = Ok v -> blank v -> text_means t []
| tm_text t v : ~ ws t -> unescape t = Ok v -> ~ blank v -> text_means t [NText v].
Definition head_means (nm : str) (attrs : list cattr) (e : elem) : Prop :=
  named nm (e_prefix e) (e_name e) /\
  forall k, match last_value k attrs with
            | None => get_attr e k = None
            | Some raw => exists v, unescape raw = Ok v /\ get_attr e k = Some v
            end.
Inductive item_means : citem -> node -> Prop :=
| im_empty nm attrs w e : head_means nm attrs e -> e_children e = [] ->
    item_means (CEmpty nm attrs w) (NElem e)
| im_elem nm attrs w b w' e : head_means nm attrs e -> body_means b (e_children e) ->
    item_means (CElem nm attrs w b w') (NElem e)
| im_comment c : item_means (CComment c) (NComment c)
| im_cdata c : item_means (CCData c) (NCData c)
with body_means : cbody -> list node -> Prop :=
| bm_end t l : text_means t l -> body_means (BEnd t) l
| bm_item t l i n b m : text_means t l -> item_means i n -> body_means b m ->
    body_means (BItem t i b) (l ++ [n] ++ m).
Fixpoint doctypes (l : list (str * pitem)) : list str :=
  match l with
  | [] => []
  | (_, PComment _) :: l' => doctypes l'
  | (_, PDoctype d) :: l' => d :: doctypes l'
  end.
Definition source_means (x : source) (d : document) : Prop :=
  d_declaration d = option_map snd (x_decl x) /\ d_dtds d = doctypes (x_prolog x) /\
  item_means (x_root x) (NElem (d_root d)).

(** * Documents that can be written *)

(** The text is the decoding of its escaped form. *)
Definition survives (set : list char) (t : str) : Prop := unescape (flat_map (escape_char set) t) = Ok t.
(** The namespace of an element below the elements [anc], innermost first.  A
    prefix is looked up in the element, then in the elements around it, where an
    attribute "xmlns:xmlns:p" comes before "xmlns:p".  Without a prefix the
    element takes its own "xmlns" or else the namespace of an unprefixed
    parent. *)
Definition namespace_rule (e : elem) (anc : list elem) : option str :=
  match e_prefix e with
  | None =>
      match get_attr e (lit "xmlns") with
      | Some v => Some v
      | None => match anc with
                | [] => None
                | q :: _ => match e_prefix q with None => e_xmlns q | Some _ => None end
                end
      end
  | Some p =>
      match get_attr e (lit "xmlns:" ++ p) with
      | Some v => Some v
      | None => match nearest (lit "xmlns:" ++ lit "xmlns:" ++ p) anc with
                | Some v => Some v
                | None => nearest (lit "xmlns:" ++ p) anc
                end
      end
  end.
(** [writable anc e]: [e], below the elements [anc], is read back as it was once written. *)
Inductive writable : list elem -> elem -> Prop :=
| wr anc e :
    named (qualified e) (e_prefix e) (e_name e) ->
    (forall k v, In (k, v) (e_attributes e) -> plain_name k /\ survives all_special v) ->
    e_xmlns e = namespace_rule e anc ->
    text_normal (e_children e) ->
    (forall t, In (NText t) (e_children e) -> t <> [] /\ survives text_special t) ->
    (forall c, In (NComment c) (e_children e) -> comment_wf c) ->
    (forall c, In (NCData c) (e_children e) -> cdata_wf c) ->
    (forall c, In (NElem c) (e_children e) -> writable (e :: anc) c) ->
    writable anc e.
Definition writable_doc (d : document) : Prop :=
  elem_ok (root_element d) /\ doctype_defs d = [] /\
  (forall decl, declaration d = Some decl -> decl_wf decl) /\
  writable [] (root_element d) /\
  (forall p, e_prefix (root_element d) = Some p -> get_attr (root_element d) (lit "xmlns:" ++ p) <> None).

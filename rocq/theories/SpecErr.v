(** Accepted and rejected inputs: how a text is read tag by tag, where reading can
    stop, and with which error.  Nothing of the parser is used; references are
    decoded by the relation [unescapes] of SpecEsc.v. *)
From Coq Require Import List NArith Arith Bool Ascii String.
From Verif Require Import Base Spec SpecDom SpecLex SpecParse SpecDoc SpecEsc.
Import ListNotations.

(** * Tags *)

(** Names as the crate looks for them in tags: those of XML, and U+1680. *)
Definition listed_start (c : char) : Prop := name_start c \/ c = 5760%N.
Definition listed_char (c : char) : Prop := name_char c \/ c = 5760%N.
Definition listed_name (s : str) : Prop := exists c r, s = c :: r /\ listed_start c /\ Forall listed_char r.
(** The form "<name key="value" ...>", or the same with '/' at the start, at the
    end or at both.  A value is anything between quotes. *)
Definition written_attr (a : str) : Prop :=
  exists w k q v, a = w ++ k ++ lit "=" ++ [q] ++ v ++ [q] /\ w <> [] /\ ws w /\ listed_name k /\ is_quote q = true.
Definition tag_form (t : str) : Prop :=
  exists o1 nm l w o2, t = lit "<" ++ o1 ++ nm ++ List.concat l ++ w ++ o2 ++ lit ">" /\
    (o1 = [] \/ o1 = lit "/") /\ listed_name nm /\ Forall written_attr l /\ ws w /\ (o2 = [] \/ o2 = lit "/").
(** The crate looks for this form anywhere in a tag. *)
Definition formed (t : str) : Prop := exists a u b, t = a ++ u ++ b /\ tag_form u.

(** The words of a tag. *)
Definition tag_words (t : str) (l : list str) : Prop :=
  exists b o, t = lit "<" ++ b ++ o ++ lit ">" /\ words b l /\ (o = lit "/" \/ o = [] /\ ~ self_closing t).
(** Words are joined around '=', three at most: key = "value". *)
Definition sticks (a : str) (l : list str) : Prop :=
  exists b l', l = b :: l' /\ (ends (lit "=") a \/ begins (lit "=") b).
Inductive joined : list str -> list str -> Prop :=
| jn_nil : joined [] []
| jn_one a l r : ~ sticks a l -> joined l r -> joined (a :: l) (a :: r)
| jn_two a b l r : sticks a (b :: l) -> ~ sticks (a ++ b) l -> joined l r -> joined (a :: b :: l) ((a ++ b) :: r)
| jn_three a b c l r : sticks a (b :: c :: l) -> sticks (a ++ b) (c :: l) -> joined l r ->
    joined (a :: b :: c :: l) ((a ++ b ++ c) :: r).
(** The name in a tag and its attributes as written. *)
Definition tag_parts (t nm : str) (kvs : list str) : Prop :=
  exists comps, tag_words t (nm :: comps) /\ joined comps kvs.

(** Reading an attribute: name, '=', quoted value with references. *)
Definition in_quotes (v u : str) : Prop := exists q, is_quote q = true /\ v = [q] ++ u ++ [q].
Definition attr_reads (kv : str) (x : str * str) : Prop :=
  exists v u, kv = fst x ++ lit "=" ++ v /\ ~ In 61%N (fst x) /\ in_quotes v u /\ unescapes u (Some (snd x)).
Definition attr_crashes (kv : str) : Prop :=
  exists k v u, kv = k ++ lit "=" ++ v /\ ~ In 61%N k /\ in_quotes v u /\ unescapes u None.
Inductive attr_bad (kv : str) : pmsg -> Prop :=
| ab_form : ~ In 61%N kv -> attr_bad kv PAttrForm
| ab_no_value k : kv = k ++ lit "=" -> ~ In 61%N k -> attr_bad kv PAttrNoContent
| ab_no_quotes k v : kv = k ++ lit "=" ++ v -> ~ In 61%N k -> v <> [] -> (forall u, ~ in_quotes v u) -> attr_bad kv PAttrQuote.

(** The name without the prefix, which the first colon ends. *)
Definition local_part (n nm : str) : Prop :=
  n = nm /\ ~ In colon n \/ exists p, n = p ++ lit ":" ++ nm /\ ~ In colon p.
(** The prefix, if any, is declared by one of the attributes [l]. *)
Definition prefix_declared (n : str) (l : list (str * str)) : Prop :=
  forall p nm, n = p ++ lit ":" ++ nm -> ~ In colon p -> In (lit "xmlns:" ++ p) (map fst l).

(** [element_reads outermost t n]: [t] is the tag of an element called [n], and
    nothing is wrong with it.  [outermost]: no element is open. *)
Definition element_reads (outermost : Prop) (t n : str) : Prop :=
  exists kvs l nm, tag_parts t n kvs /\ Forall2 attr_reads kvs l /\ (outermost -> prefix_declared n l) /\
    local_part n nm /\ valid_name nm /\ Forall (fun x => valid_name (fst x)) l.
(** What can be wrong with it; [loc] is the place of the tag. *)
Inductive element_fault (outermost : Prop) (t : str) (loc : nat * nat) : error -> Prop :=
| ef_empty : tag_words t [] -> element_fault outermost t loc (ParsingError PEmptyTag (Some loc))
| ef_attribute n good l kv more m : tag_parts t n (good ++ kv :: more) -> Forall2 attr_reads good l -> attr_bad kv m ->
    element_fault outermost t loc (ParsingError m (Some loc))
| ef_prefix p nm kvs l : outermost -> tag_parts t (p ++ lit ":" ++ nm) kvs -> Forall2 attr_reads kvs l -> ~ In colon p ->
    ~ In (lit "xmlns:" ++ p) (map fst l) ->
    element_fault outermost t loc (ParsingError (PUndefPrefix p) (Some loc))
| ef_name n kvs l nm : tag_parts t n kvs -> Forall2 attr_reads kvs l -> (outermost -> prefix_declared n l) ->
    local_part n nm -> ~ valid_name nm ->
    element_fault outermost t loc (InvalidElementName nm)
| ef_attr_name n kvs l nm k v : tag_parts t n kvs -> Forall2 attr_reads kvs l -> (outermost -> prefix_declared n l) ->
    local_part n nm -> valid_name nm -> In (k, v) l -> ~ valid_name k ->
    element_fault outermost t loc (InvalidAttributeName k).
(** A value that cannot be decoded without a panic. *)
Definition element_crash (t : str) : Prop :=
  exists n good l kv more, tag_parts t n (good ++ kv :: more) /\ Forall2 attr_reads good l /\ attr_crashes kv.

(** [closes t n]: [t] closes an element called [n].  "</n/>" does so as well. *)
Definition closes (t n : str) : Prop :=
  exists w1 w2 o, t = lit "</" ++ w1 ++ n ++ w2 ++ o ++ lit ">" /\ ws w1 /\ ws w2 /\
    (o = lit "/" \/ o = [] /\ ~ ends (lit "/") (n ++ w2)).
(** The first 15 and the last 16 bytes of a text of more than 32 bytes. *)
Definition shortened (t what : str) : Prop :=
  blen t <= 32 /\ what = t \/
  32 < blen t /\ exists a m b, t = a ++ m ++ b /\ blen a = 15 /\ blen b = 16 /\ what = a ++ [8230%N] ++ b.

(** * Steps *)

(** A tag that may follow the tags [toks] of the prolog.  An XML declaration
    stands first, or after a tag at the very start of the text. *)
Definition declaration_allowed (toks : list (str * str)) : Prop := toks = [] \/ exists t, toks = [([], t)].
Definition first_comment (toks : list (str * str)) (t : str) : Prop :=
  begins (lit "<!--") t /\ forall x, In x toks -> ~ begins (lit "<!--") (snd x).
Definition prolog_fine (toks : list (str * str)) (t : str) : Prop :=
  prolog_like t /\ (begins (lit "<?xml") t -> declaration_allowed toks) /\
  (first_comment toks t -> exists what, shortened t what).

(** Text between tags, when the elements [names] are open. *)
Definition text_fine (names : list str) (txt : str) : Prop :=
  ws txt \/ names <> [] /\ exists v, unescapes txt (Some v).
(** [tag_fine names t names']: the tag [t] may come when the elements [names] are
    open, innermost first, and leaves [names'] open. *)
Inductive tag_fine (names : list str) (t : str) : list str -> Prop :=
| tf_comment : names <> [] -> begins (lit "<!--") t -> t <> lit "<!-->" -> t <> lit "<!--->" -> tag_fine names t names
| tf_cdata : names <> [] -> begins (lit "<![CDATA[") t -> tag_fine names t names
| tf_close n names' : names = n :: names' -> begins (lit "</") t -> formed t -> closes t n -> tag_fine names t names'
| tf_single n : names <> [] -> ~ begins (lit "<!") t -> ~ begins (lit "</") t -> formed t ->
    element_reads (names = []) t n -> self_closing t -> tag_fine names t names
| tf_open n : ~ begins (lit "<!") t -> ~ begins (lit "</") t -> formed t ->
    element_reads (names = []) t n -> ~ self_closing t -> tag_fine names t (n :: names).

(** What can be wrong with a tag [t] and the text [txt] before it, when the
    elements [names] are open; [loc] is the place of the tag. *)
Inductive content_fault (names : list str) (txt t : str) (loc : nat * nat) : error -> Prop :=
| cf_text_outside v : names = [] -> ~ ws txt -> unescapes txt (Some v) ->
    content_fault names txt t loc (ParsingError PNoRootElement (Some loc))
| cf_short_comment : text_fine names txt -> t = lit "<!-->" \/ t = lit "<!--->" ->
    content_fault names txt t loc (ParsingError PInvalidComment (Some loc))
| cf_comment_outside : text_fine names txt -> names = [] -> begins (lit "<!--") t ->
    t <> lit "<!-->" -> t <> lit "<!--->" -> t <> lit "<!---->" ->
    content_fault names txt t loc (ParsingError PNoRootElement (Some loc))
| cf_empty_outside : text_fine names txt -> names = [] -> t = lit "<!---->" ->
    content_fault names txt t loc (ParsingError PNoRootElement None)
| cf_cdata_outside : text_fine names txt -> names = [] -> begins (lit "<![CDATA[") t ->
    content_fault names txt t loc (ParsingError PNoRootElement (Some loc))
| cf_markup what : text_fine names txt -> begins (lit "<!") t -> ~ begins (lit "<!--") t -> ~ begins (lit "<![CDATA[") t ->
    shortened t what ->
    content_fault names txt t loc (NotSupportedError what (Some loc))
| cf_form : text_fine names txt -> ~ begins (lit "<!") t -> ~ formed t ->
    content_fault names txt t loc (ParsingError PInvalidElement (Some loc))
| cf_closed : text_fine names txt -> names = [] -> begins (lit "</") t -> formed t ->
    content_fault names txt t loc (ParsingError PRootAlreadyClosed (Some loc))
| cf_mismatch n names' : text_fine names txt -> names = n :: names' -> begins (lit "</") t -> formed t -> ~ closes t n ->
    content_fault names txt t loc (ParsingError (PCloseMismatch t n) (Some loc))
| cf_element x : text_fine names txt -> ~ begins (lit "<!") t -> ~ begins (lit "</") t -> formed t ->
    element_fault (names = []) t loc x ->
    content_fault names txt t loc x
| cf_single_outside n : text_fine names txt -> names = [] -> ~ begins (lit "<!") t -> ~ begins (lit "</") t -> formed t ->
    element_reads True t n -> self_closing t ->
    content_fault names txt t loc (ParsingError PNoRootElement (Some loc)).
Inductive content_crash (names : list str) (txt t : str) : Prop :=
| cc_text : ~ ws txt -> unescapes txt None -> content_crash names txt t
| cc_markup : text_fine names txt -> begins (lit "<!") t -> ~ begins (lit "<!--") t -> ~ begins (lit "<![CDATA[") t ->
    (forall what, ~ shortened t what) -> content_crash names txt t
| cc_element : text_fine names txt -> ~ begins (lit "<!") t -> ~ begins (lit "</") t -> formed t -> element_crash t ->
    content_crash names txt t.

(** * Reading *)

Inductive stage :=
| Before (toks : list (str * str)) (* in the prolog, after these tags *)
| Single                           (* after the tag of a self-closing root *)
| Inside (names : list str).       (* after that of another root; the open elements, innermost first *)

(** The next tag in [rest] is [t], after the text [txt]; [r] starts with it and
    [rest'] follows it. *)
Definition next_tag_is (rest txt t r rest' : str) : Prop := rest = txt ++ r /\ no_tag txt /\ tag_at r t rest'.
(** The next '<' does not start a tag. *)
Definition unfinished (rest r : str) : Prop :=
  exists txt, rest = txt ++ r /\ no_tag txt /\ begins (lit "<") r /\ forall t rest', ~ tag_at r t rest'.
(** The line and column of the place in [s] where the end [r] of [s] starts. *)
Definition place (s r : str) (loc : nat * nat) : Prop :=
  exists pos, blen s = pos + blen r /\ located s pos (fst loc) (snd loc).

(** [reads s st rest]: [s] can be read up to where [rest] is left. *)
Inductive reads (s : str) : stage -> str -> Prop :=
| rd_start : reads s (Before []) s
| rd_prolog toks rest txt t r rest' : reads s (Before toks) rest -> next_tag_is rest txt t r rest' -> ws txt ->
    prolog_fine toks t -> reads s (Before (toks ++ [(txt, t)])) rest'
| rd_single toks rest txt t r rest' n : reads s (Before toks) rest -> next_tag_is rest txt t r rest' -> ws txt ->
    ~ prolog_like t -> ~ begins (lit "</") t -> formed t -> element_reads True t n -> self_closing t ->
    reads s Single rest'
| rd_root toks rest txt t r rest' n : reads s (Before toks) rest -> next_tag_is rest txt t r rest' -> ws txt ->
    ~ prolog_like t -> ~ begins (lit "</") t -> formed t -> element_reads True t n -> ~ self_closing t ->
    reads s (Inside [n]) rest'
| rd_tag names rest txt t r rest' names' : reads s (Inside names) rest -> next_tag_is rest txt t r rest' ->
    text_fine names txt -> tag_fine names t names' -> reads s (Inside names') rest'.

(** It is read to the end. *)
Definition read_through (s : str) : Prop :=
  exists tail, no_tag tail /\ (reads s Single tail \/ reads s (Inside []) tail).

(** Something is wrong where reading stops. *)
Inductive rejected (s : str) : error -> Prop :=
(* before the root element *)
| rj_no_content toks tail : reads s (Before toks) tail -> no_tag tail ->
    rejected s (ParsingError PNoContent None)
| rj_no_close toks rest r loc : reads s (Before toks) rest -> unfinished rest r -> place s r loc ->
    rejected s (ParsingError PNoClose (Some loc))
| rj_text toks rest txt t r rest' v loc : reads s (Before toks) rest -> next_tag_is rest txt t r rest' ->
    ~ ws txt -> unescapes txt (Some v) -> place s rest loc ->
    rejected s (ParsingError PTextOutsideRoot (Some loc))
| rj_declaration toks rest txt t r rest' loc : reads s (Before toks) rest -> next_tag_is rest txt t r rest' -> ws txt ->
    begins (lit "<?xml") t -> ~ declaration_allowed toks -> place s r loc ->
    rejected s (ParsingError PDeclNotFirst (Some loc))
| rj_closing toks rest txt t r rest' loc : reads s (Before toks) rest -> next_tag_is rest txt t r rest' -> ws txt ->
    begins (lit "</") t -> place s r loc ->
    rejected s (ParsingError PStartsWithClose (Some loc))
| rj_root_form toks rest txt t r rest' loc : reads s (Before toks) rest -> next_tag_is rest txt t r rest' -> ws txt ->
    ~ prolog_like t -> ~ begins (lit "</") t -> ~ formed t -> place s r loc ->
    rejected s (ParsingError PInvalidSyntax (Some loc))
(* the tag of the root element *)
| rj_root toks rest txt t r rest' loc x : reads s (Before toks) rest -> next_tag_is rest txt t r rest' -> ws txt ->
    ~ prolog_like t -> ~ begins (lit "</") t -> formed t -> place s r loc -> element_fault True t loc x ->
    rejected s x
(* after the tag of the root element *)
| rj_second rest txt t r rest' loc : reads s Single rest -> next_tag_is rest txt t r rest' -> place s r loc ->
    rejected s (ParsingError POnlyOneRoot (Some loc))
| rj_unfinished st rest r loc : reads s st rest -> st = Single \/ (exists names, st = Inside names) ->
    unfinished rest r -> place s r loc ->
    rejected s (ParsingError PInvalidSyntax (Some loc))
| rj_content names rest txt t r rest' loc x : reads s (Inside names) rest -> next_tag_is rest txt t r rest' -> place s r loc ->
    content_fault names txt t loc x ->
    rejected s x
| rj_not_closed n names tail : reads s (Inside (n :: names)) tail -> no_tag tail ->
    rejected s (ParsingError PRootNotClosed None).

(** The parser panics where reading stops. *)
Inductive crashes (s : str) : Prop :=
| cr_text toks rest txt t r rest' : reads s (Before toks) rest -> next_tag_is rest txt t r rest' ->
    ~ ws txt -> unescapes txt None -> crashes s
| cr_comment toks rest txt t r rest' : reads s (Before toks) rest -> next_tag_is rest txt t r rest' -> ws txt ->
    first_comment toks t -> (forall what, ~ shortened t what) -> crashes s
| cr_root toks rest txt t r rest' : reads s (Before toks) rest -> next_tag_is rest txt t r rest' -> ws txt ->
    ~ prolog_like t -> ~ begins (lit "</") t -> formed t -> element_crash t -> crashes s
| cr_content names rest txt t r rest' : reads s (Inside names) rest -> next_tag_is rest txt t r rest' ->
    content_crash names txt t -> crashes s.

(** The same report, except that of several invalid attribute names any may be
    reported: the crate goes through a hash map. *)
Definition same_report (x y : error) : Prop :=
  x = y \/ exists k k', x = InvalidAttributeName k /\ y = InvalidAttributeName k'.

(** Reading stops because the text ends: within a tag, or before the root element
    is closed. *)
Definition incomplete (s : str) : Prop :=
  exists st rest, reads s st rest /\
    ((exists r, unfinished rest r) \/ no_tag rest /\ st <> Single /\ st <> Inside []).

(** * Nesting *)

(** [open_after tags names]: [tags] are tags from that of the root element on;
    [names] are the names of the elements they leave open, innermost first. *)
Inductive open_after : list str -> list str -> Prop :=
| oa_none l : l = [] \/ roots_tags l -> open_after l []
| oa_open l names t n body : open_after l names -> opening t n -> ~ self_closing t -> content_tags body ->
    open_after (l ++ t :: body) (n :: names).
(** Only prolog tags [toks], with white space before them, stand before [rest]. *)
Definition in_prolog (s : str) (toks : list (str * str)) (rest : str) : Prop :=
  lexed s toks rest /\ Forall (fun x => ws (fst x) /\ prolog_like (snd x)) toks.
(** The prolog and the tags [el] from that of the root element on stand before
    [rest]; the elements [names] are open there, innermost first. *)
Definition in_root (s : str) (el : list (str * str)) (names : list str) (rest : str) : Prop :=
  exists toks mid, in_prolog s toks mid /\ lexed mid el rest /\ starts_with_element el /\
    open_after (map snd el) names.

(** Whole documents: C31, C32, C44-C47. *)
From Coq Require Import List NArith Arith Bool Ascii String Lia.
From Verif Require Import Base Escape Dom Spec EscapeFacts SpecDom SerFacts Parse SpecLex SpecParse DocFacts AcceptFacts
  ParsedFacts SpecDoc PrintFacts PrintDoc FormFacts RoundFacts DocCheck P_Parse.
Import ListNotations.

Definition at_ (sp k eq1 eq2 : string) (q : char) (raw : string) : cattr := CAttr (lit sp) (lit k) (lit eq1) (lit eq2) q (lit raw).
(** <?xml version="1.0"?> <!DOCTYPE n> <!-- c --> <r a="1" p:b = '2' c="3"> t &amp; u <e/><!--x--><![CDATA[y<z]]></r> *)
Definition ex_source (q : char) : source :=
  Source (Some ([], lit "xml version=""1.0""")) [(lit " ", PDoctype (lit " n")); (lit " ", PComment (lit " c "))] (lit " ")
    (CElem (lit "r") [at_ " " "a" "" "" q "1"; at_ " " "b" " " " " squote "2"; at_ " " "c" "" "" q "3"] []
       (BItem (lit " t &amp; u ") (CEmpty (lit "e") [] []) (BItem [] (CComment (lit "x")) (BItem [] (CCData (lit "y<z")) (BEnd [])))) [])
    (lit " end").
Example ex_source_wf : source_wf (ex_source dquote).
Proof. apply source_wfb_ok. vm_compute. reflexivity. Qed.

(** * C31: round trip *)

(** Every document that can be written is read back as an equal document,
    whatever the indent. *)
Theorem C31_round_trip : forall d ind, writable_doc d ->
  exists d', parse_str (doc_to_string_with_indent d ind) = Ok d' /\ doc_eqb d' d = true.
Proof.
  intros d ind W. exists (back d). pose proof (doc_read_back d ind (writable_doc_encodable d W)) as P. split; [exact P|].
  apply doc_eqb_same; [|now destruct W|now apply back_same].
  apply elem_valid_ok. now apply (C48_parsed_valid _ _ P).
Qed.
Theorem C31_round_trip_default : forall d, writable_doc d ->
  exists d', parse_str (doc_to_string d) = Ok d' /\ doc_eqb d' d = true.
Proof. intros d W. now apply (C31_round_trip d (lit "  ")). Qed.
(** Texts that end with an ASCII character, or that have nothing to escape,
    survive being written and read. *)
Theorem C31_texts : forall t,
  (last_ascii t \/ (forall c, In c text_special -> ~ In c t) -> survives text_special t) /\
  (last_ascii t \/ (forall c, In c all_special -> ~ In c t) -> survives all_special t).
Proof. intro t. split; apply unescape_esc; [apply good_text|apply good_all]. Qed.

Definition ex_root : elem :=
  mkElem (lit "r")
    [NElem (mkElem (lit "a") [NText (lit "x < y & z")] [(lit "k", lit "it's ""q"" ")] (Some (lit "u")) (Some (lit "p")) []);
     NComment (lit " note - "); NCData (lit "<raw/> & ]]"); NElem (mkElem (lit "e") [] [] (Some (lit "d")) None []);
     NElem (mkElem (lit "m") [NText (lit "one "); NElem (mkElem (lit "b") [] [(lit "id", [9788%N])] (Some (lit "d")) None []); NText (lit " two")]
       [(lit "z", lit "1"); (lit "y", lit "2")] (Some (lit "d")) None [])]
    [(lit "b", lit "2"); (lit "xmlns:p", lit "u"); (lit "xmlns", lit "d")] (Some (lit "d")) None [].
Definition ex_document : document := mkDoc (Some (lit "xml version=""1.0"" encoding=""UTF-8""")) [] ex_root.
Example C31_example : writable_doc ex_document.
Proof. apply writable_docb_ok. vm_compute. reflexivity. Qed.
Example C31_example_text : doc_to_string_with_indent ex_document (lit " ") =
  lit "<?xml version=""1.0"" encoding=""UTF-8""?>" ++ [10%N] ++
  lit "<r xmlns=""d"" xmlns:p=""u"" b=""2"">" ++ [10%N] ++
  lit " <p:a k=""it&apos;s &quot;q&quot; "">x &lt; y &amp; z</p:a>" ++ [10%N] ++
  lit " <!-- note - -->" ++ [10%N] ++
  lit " <![CDATA[<raw/> & ]]]]>" ++ [10%N] ++
  lit " <e/>" ++ [10%N] ++
  lit " <m y=""2"" z=""1"">one <b id=""" ++ [9788%N] ++ lit """/> two</m>" ++ [10%N] ++
  lit "</r>" ++ [10%N].
Proof. vm_compute. reflexivity. Qed.

(** Without the conditions documents that the API can build do not survive. *)
Definition ex_of (ch : list node) (attrs : amap) : document := mkDoc None [] (mkElem (lit "r") ch attrs None None []).
(** Comment starting with '>': rejected, or changed. *)
Theorem C31_comment_refuted : exists x,
  parse_str (doc_to_string (ex_of [NComment (lit "> x")] [])) = Err x /\ comment_new (lit "> x") = Ok (lit "> x").
Proof. eexists. split; vm_compute; reflexivity. Qed.
(** Text whose escaped form makes the decoder panic. *)
Theorem C31_text_refuted : parse_str (doc_to_string (ex_of [NText [38%N; 233%N]] [])) = Panic.
Proof. vm_compute. reflexivity. Qed.
(** Two adjacent texts are read as one. *)
Theorem C31_adjacent_refuted : exists d, parse_str (doc_to_string (ex_of [NText (lit "x"); NText (lit "y")] [])) = Ok d /\
  doc_eqb d (ex_of [NText (lit "x"); NText (lit "y")] []) = false.
Proof. eexists. split; vm_compute; reflexivity. Qed.
(** A namespace that no declaration in scope gives is lost. *)
Theorem C31_namespace_refuted : exists d,
  parse_str (doc_to_string (mkDoc None [] (mkElem (lit "r") [] [] (Some (lit "u")) None []))) = Ok d /\
  doc_eqb d (mkDoc None [] (mkElem (lit "r") [] [] (Some (lit "u")) None [])) = false.
Proof. eexists. split; vm_compute; reflexivity. Qed.

(** * C32: canonical form *)

(** The document read back is the same for every indent, and is written as the
    same text as the original. *)
Theorem C32_canonical : forall d, writable_doc d -> exists d',
  (forall ind, parse_str (doc_to_string_with_indent d ind) = Ok d') /\
  (forall ind, doc_to_string_with_indent d' ind = doc_to_string_with_indent d ind).
Proof.
  intros d W. exists (back d). split; [intro ind; now apply doc_read_back, writable_doc_encodable|].
  intro ind. now apply doc_same_serialization, back_same.
Qed.
Example C32_example : exists d', parse_str (doc_to_string_with_indent ex_document (lit "")) = Ok d' /\
  parse_str (doc_to_string_with_indent ex_document [9%N]) = Ok d' /\
  doc_to_string d' = doc_to_string ex_document.
Proof. eexists. split; [vm_compute; reflexivity|]. split; vm_compute; reflexivity. Qed.

(** * C44: quotes *)

(** Changing the quotes around attribute values, in any of the tags of a
    well-formed document whose values contain no quotes, changes nothing. *)
Theorem C44_quotes : forall x y, source_wf x -> every_attr quotable (x_root x) ->
  source_alike (Free true false false) x y -> every_attr has_quotes (x_root y) ->
  parse_str (source_print y) = parse_str (source_print x).
Proof. exact requote_parsed. Qed.
(** Between well-formed documents the quotes never matter. *)
Theorem C44_quotes_wf : forall x y, source_wf x -> source_wf y -> source_alike (Free true false false) x y ->
  parse_str (source_print x) = parse_str (source_print y).
Proof. exact (alike_parsed (Free true false false)). Qed.
(** With spaces around '=' the quotes decide whether the tag is accepted. *)
Theorem C44_spaced_refuted : exists d x,
  parse_str (lit "<r a='1' b = '2'/>") = Ok d /\ parse_str (lit "<r a=""1"" b = '2'/>") = Err x.
Proof. eexists _, _. split; vm_compute; reflexivity. Qed.
Definition ex_quotes (q1 q2 : char) : source :=
  Source None [] [] (CElem (lit "r") [at_ " " "a" "" "" q1 "1 &lt; 2"; at_ "  " "b" "" "" q2 "x>y"] [] (BEnd (lit "t")) []) [].
Example C44_example : source_wf (ex_quotes dquote squote) /\ every_attr quotable (x_root (ex_quotes dquote squote)) /\
  source_alike (Free true false false) (ex_quotes dquote squote) (ex_quotes squote dquote) /\
  every_attr has_quotes (x_root (ex_quotes squote dquote)) /\
  source_print (ex_quotes dquote squote) = lit "<r a=""1 &lt; 2""  b='x>y'>t</r>" /\
  exists d, parse_str (source_print (ex_quotes squote dquote)) = Ok d /\ get_attr (d_root d) (lit "a") = Some (lit "1 < 2").
Proof.
  split; [apply source_wfb_ok; vm_compute; reflexivity|]. split.
  { split; [|easy]. do 2 (apply Forall_cons; [split; [now split|]; split; apply inb_ok; vm_compute; reflexivity|]). constructor. }
  split.
  { repeat split; try (now right). - constructor. - apply al_elem; try (now right).
    + repeat constructor; cbn; try (now right); now left.
    + constructor. now left. }
  split; [cbn; split; [|easy]; repeat constructor; cbn; (now left) || (now right)|].
  split; [vm_compute; reflexivity|]. eexists. split; vm_compute; reflexivity.
Qed.

(** * C45: formatting *)

(** White space between attributes, before the end of tags, between tags where
    there is no text, before and after the root, empty elements as one tag or
    two, comments before the root and anything but tags after it: none of it
    changes what is read. *)
Theorem C45_layout : forall x y, source_wf x -> source_wf y -> source_alike (Free false false true) x y ->
  parse_str (source_print x) = parse_str (source_print y).
Proof. exact (alike_parsed (Free false false true)). Qed.
(** All differences at once. *)
Theorem C45_all : forall f x y, source_wf x -> source_wf y -> source_alike f x y ->
  parse_str (source_print x) = parse_str (source_print y).
Proof. exact alike_parsed. Qed.
(** Well-formed documents are accepted. *)
Theorem C45_accepted : forall x, source_wf x -> exists d, parse_str (source_print x) = Ok d.
Proof. intros x W. exists (document_of x). now apply source_parsed. Qed.
Definition ex_tight : source :=
  Source None [] [] (CElem (lit "r") [at_ " " "a" "" "" dquote "1"; at_ " " "b" "" "" dquote "2"] []
    (BItem [] (CEmpty (lit "c") [] []) (BItem [] (CElem (lit "d") [] [] (BEnd (lit " t ")) []) (BEnd []))) []) [].
Definition ex_loose : source :=
  Source None [(lit " ", PComment (lit " hello "))] [10%N]
    (CElem (lit "r") [at_ "  " "a" "" "" dquote "1"; at_ " 	 " "b" "" "" dquote "2"] (lit " ")
    (BItem (lit "  ") (CElem (lit "c") [] (lit " ") (BEnd (lit " ")) []) (BItem (lit "   ") (CElem (lit "d") [] [] (BEnd (lit " t ")) (lit " ")) (BEnd [10%N]))) (lit "  "))
    (lit " trailing").
Example C45_example : source_wf ex_tight /\ source_wf ex_loose /\ source_alike (Free false false true) ex_tight ex_loose /\
  source_print ex_tight = lit "<r a=""1"" b=""2""><c/><d> t </d></r>" /\
  exists d, parse_str (source_print ex_loose) = Ok d /\ List.length (e_children (d_root d)) = 2.
Proof.
  split; [apply source_wfb_ok; vm_compute; reflexivity|]. split; [apply source_wfb_ok; vm_compute; reflexivity|].
  split.
  { repeat split; try (now left); try (now right).
    - now repeat constructor.
    - apply al_elem; try (now left); try (now right).
      + repeat constructor; cbn; try (now right); now left.
      + apply al_item; [right; split; [easy|split; now repeat constructor]|apply al_close; [easy|constructor|now repeat constructor]|].
        apply al_item; [right; split; [easy|split; now repeat constructor]| |constructor; right; split; [easy|split; now repeat constructor]].
        apply al_elem; [constructor|now right|constructor; now left|now left]. }
  split; [vm_compute; reflexivity|]. eexists. split; vm_compute; reflexivity.
Qed.
(** White space inside a closing tag's name, or text next to white space, does
    matter. *)
Example C45_text_matters : exists d d', parse_str (lit "<r>x<c/></r>") = Ok d /\ parse_str (lit "<r>x <c/></r>") = Ok d' /\ d <> d'.
Proof. eexists _, _. split; [vm_compute; reflexivity|]. split; [vm_compute; reflexivity|]. discriminate. Qed.

(** * C46: spaces around '=' *)

(** The pieces of a tag are joined to one component per attribute, whatever the
    white space around '='. *)
Theorem C46_joined : forall nm l, xml_name nm -> Forall attr_wf l ->
  join_spaced_attributes (quote_aware_split (head_print nm l)) =
  nm :: map (fun a => a_key a ++ lit "=" ++ [a_quote a] ++ a_raw a ++ [a_quote a]) l.
Proof.
  intros nm l Hn Hl. rewrite (TagFacts.split_words _ _ (head_words nm l Hn Hl)). cbn [join_spaced_attributes].
  now rewrite (join_attrs (R := readable)).
Qed.
(** So tags that differ in these spaces give the same element, wherever they
    stand. *)
Theorem C46_same_element : forall parent nm p n l l', named nm p n -> Forall attr_wf l -> Forall attr_wf l' ->
  Forall2 (attr_alike (Free false true false)) l l' ->
  (parent = None -> forall q, p = Some q -> In (lit "xmlns:" ++ q) (map a_key l)) ->
  exists e, parse_new_element (head_print nm l) [] 0 parent = Ok e /\
            parse_new_element (head_print nm l') [] 0 parent = Ok e.
Proof.
  intros parent nm p n l l' Hn H1 H2 A Hp. exists (head_elem parent nm l).
  pose proof (head_reads parent nm p n l Hn H1 Hp) as E1. split; [exact E1|].
  pose proof (alike_read _ parent nm p n l l' Hn H1 H2 A Hp) as E2. rewrite E1 in E2. now symmetry.
Qed.
(** Whole documents, with the tags that the tag check accepts. *)
Theorem C46_documents : forall x y, source_wf x -> source_wf y -> source_alike (Free false true false) x y ->
  parse_str (source_print x) = parse_str (source_print y).
Proof. exact (alike_parsed (Free false true false)). Qed.
(** The tag check rejects a tag whose first attribute has such spaces. *)
Theorem C46_first_spaced : forall nm a l w s2, xml_name nm -> attr_wf a -> Forall attr_wf l -> ws w ->
  s2 = [] \/ s2 = lit "/" -> ~ unspaced a -> ~ In 5760%N (a_space a ++ a_eq1 a) ->
  Forall (fun b => ~ In lt_ (a_raw b)) (a :: l) ->
  (exists x, check_element_tag (lit "<" ++ head_print nm (a :: l) ++ w ++ s2 ++ lit ">") = Err x) /\
  forall rest d, parse_str (lit "<" ++ head_print nm (a :: l) ++ w ++ s2 ++ lit ">" ++ rest) <> Ok d.
Proof.
  intros nm a l w s2 H1 H2 H3 H4 H5 H6 H7 H8. split; [now apply spaced_first_rejected|].
  intros rest d. now apply spaced_first_not_parsed.
Qed.
Theorem C46_spaced_refuted : exists x, parse_str (lit "<r b = ""2""/>") = Err x.
Proof. eexists. vm_compute. reflexivity. Qed.
Example C46_example : source_wf (ex_source squote) /\ source_wf (ex_source dquote) /\
  join_spaced_attributes (quote_aware_split (lit "r a=""1"" b ='x y' c= ""2""  d = ""="" ")) =
  [lit "r"; lit "a=""1"""; lit "b='x y'"; lit "c=""2"""; lit "d=""="""].
Proof.
  split; [apply source_wfb_ok; vm_compute; reflexivity|]. split; [apply source_wfb_ok; vm_compute; reflexivity|].
  vm_compute. reflexivity.
Qed.
Example C46_example_accepted : exists d, parse_str (lit "<r a=""1"" b = ""2"" c =""3""/>") = Ok d /\
  parse_str (lit "<r a=""1"" b=""2"" c=""3""/>") = Ok d.
Proof. eexists. split; vm_compute; reflexivity. Qed.
Example C46_first_spaced_example : attr_wf (at_ " " "b" " " " " dquote "2") /\ ~ unspaced (at_ " " "b" " " " " dquote "2") /\
  xml_name (lit "r") /\ lit "<" ++ head_print (lit "r") [at_ " " "b" " " " " dquote "2"] ++ [] ++ lit "/" ++ lit ">" = lit "<r b = ""2""/>".
Proof.
  split; [apply attr_wfb_ok; vm_compute; reflexivity|]. split; [intros [H _]; discriminate|].
  split; [apply xmlb_ok; vm_compute; reflexivity|reflexivity].
Qed.

(** * C47: duplicate attributes *)

(** Any tag: the components after the name are attributes; of those with the
    same name only the last one counts. *)
Theorem C47_last_wins : forall content buffer pos parent e, parse_new_element content buffer pos parent = Ok e ->
  exists nm comps l,
    join_spaced_attributes (quote_aware_split content) = nm :: comps /\
    Forall2 (fun comp kv => exists q raw, comp = fst kv ++ lit "=" ++ [q] ++ raw ++ [q] /\ ~ In cEq (fst kv) /\
               (q = dquote \/ q = squote) /\ unescape raw = Ok (snd kv)) comps l /\
    NoDup (map fst (e_attributes e)) /\
    (forall l1 k v l2, l = l1 ++ (k, v) :: l2 -> ~ In k (map fst l2) -> get_attr e k = Some v) /\
    (forall k, ~ In k (map fst l) -> get_attr e k = None).
Proof. exact tag_last. Qed.
(** Well-formed documents mean what they say: names, attributes (the last value
    of each), texts, comments, CDATA sections, in order. *)
Theorem C47_document_means : forall x, source_wf x -> exists d,
  parse_str (source_print x) = Ok d /\ source_means x d.
Proof. intros x W. exists (document_of x). split; [now apply source_parsed|now apply source_meant]. Qed.
Example C47_example : exists d, parse_str (lit "<r a=""1"" b='2' a=""3""/>") = Ok d /\
  e_attributes (d_root d) = [(lit "a", lit "3"); (lit "b", lit "2")].
Proof. eexists. split; vm_compute; reflexivity. Qed.
Example C47_example_means : source_wf (ex_source dquote) /\ exists d, parse_str (source_print (ex_source dquote)) = Ok d /\
  d_dtds d = [lit " n"] /\ get_attr (d_root d) (lit "b") = Some (lit "2") /\ List.length (e_children (d_root d)) = 4.
Proof. split; [exact ex_source_wf|]. eexists. split; [vm_compute; reflexivity|]. repeat split; vm_compute; reflexivity. Qed.
Print Assumptions C31_round_trip.
Print Assumptions C31_round_trip_default.
Print Assumptions C31_texts.
Print Assumptions C31_comment_refuted.
Print Assumptions C31_text_refuted.
Print Assumptions C31_adjacent_refuted.
Print Assumptions C31_namespace_refuted.
Print Assumptions C32_canonical.
Print Assumptions C44_quotes.
Print Assumptions C44_quotes_wf.
Print Assumptions C44_spaced_refuted.
Print Assumptions C45_layout.
Print Assumptions C45_all.
Print Assumptions C45_accepted.
Print Assumptions C46_joined.
Print Assumptions C46_same_element.
Print Assumptions C46_documents.
Print Assumptions C46_first_spaced.
Print Assumptions C46_spaced_refuted.
Print Assumptions C47_last_wins.
Print Assumptions C47_document_means.

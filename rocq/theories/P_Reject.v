(** Properties C62, C63: why a text is rejected, and what the error says. *)
From Coq Require Import List NArith ZArith Arith Bool Ascii String Lia.
From Verif Require Import Base Escape Dom Parse Errors BaseFacts Spec SpecDom SpecLex SpecParse SpecDoc DomFacts ApiFacts PosFacts SpecErr LoopFacts P_Children P_Errors.
Import ListNotations.

(** * C62: each error has its reason in the text *)

(** When a text is rejected, what the error names is what is wrong with the text,
    at the place the error names: [rejected] (SpecErr.v) lists the reasons. *)
Theorem C62_explained : forall s x, parse_str s = Err x -> rejected s x.
Proof. exact parse_rejects. Qed.
(** And a text with which something is wrong is rejected, for that reason. *)
Theorem C62_reported : forall s x, rejected s x -> exists y, parse_str s = Err y /\ same_report x y.
Proof. exact parse_rejected. Qed.

(** The kinds of errors that a text can cause. *)
Inductive parse_kind : error -> Prop :=
| pk_parsing m loc : m <> PPopEmpty -> m <> PUnclosedCData -> m <> PDeclSyntax -> m <> PDtdSyntax ->
    parse_kind (ParsingError m loc)
| pk_markup what loc : parse_kind (NotSupportedError what loc)
| pk_name nm : parse_kind (InvalidElementName nm)
| pk_attr nm : parse_kind (InvalidAttributeName nm).
Theorem C62_kinds : forall s x, parse_str s = Err x -> parse_kind x.
Proof.
  assert (EF : forall P t loc x, element_fault P t loc x -> parse_kind x) by
    (intros P t loc x H; destruct H as [|? ? ? ? ? ? ? ? B| | |]; [|destruct B| | |]; constructor; discriminate).
  intros s x H. apply parse_rejects in H. destruct H as [ | | | | | |? ? ? ? ? ? ? ? ? ? ? ? ? ? ? H| | |? ? ? ? ? ? ? ? ? ? ? H|];
    try (constructor; discriminate).
  - now apply EF in H.
  - destruct H as [ | | | | | | | | |? ? ? ? ? H|]; try (constructor; discriminate). now apply EF in H.
Qed.

Lemma element_fault_not P t loc x : element_fault P t loc x ->
  match x with ParsingError (PCloseMismatch _ _) _ | ParsingError PRootNotClosed _ | NotSupportedError _ _ => False | _ => True end.
Proof. intro H. destruct H as [|? ? ? ? ? ? ? ? B| | |]; [|destruct B| | |]; exact I. Qed.
(** A closing tag that closes nothing open: the error names the tag and the
    innermost open element. *)
Theorem C62_mismatch : forall s t n loc, parse_str s = Err (ParsingError (PCloseMismatch t n) loc) ->
  exists el names rest txt r rest' loc', loc = Some loc' /\ in_root s el (n :: names) rest /\ next_tag_is rest txt t r rest' /\
    place s r loc' /\ begins (lit "</") t /\ ~ closes t n.
Proof.
  intros s t n loc H. apply parse_rejects in H.
  inversion H as [ | | | | | |? ? ? ? ? ? ? ? ? ? ? ? ? ? ? H1| | |names rest txt t' r rest' loc' x A B C D|].
  - now apply element_fault_not in H1.
  - inversion D as [ | | | | | | | |n' names' E1 E2 E3 E4 E5|? ? ? ? ? E|].
    + subst. apply reads_path in A. destruct A as [el A]. exists el, names', rest, txt, r, rest', loc'. tauto.
    + now apply element_fault_not in E.
Qed.
(** The root element, or another one, is left open. *)
Theorem C62_not_closed : forall s loc, parse_str s = Err (ParsingError PRootNotClosed loc) ->
  exists el n names tail, in_root s el (n :: names) tail /\ no_tag tail.
Proof.
  intros s loc H. apply parse_rejects in H. inversion H as [ | | | | | |? ? ? ? ? ? ? ? ? ? ? ? ? ? ? H1| | |? ? ? ? ? ? ? ? ? ? ? H1|n names tail A B]; subst.
  - now apply element_fault_not in H1.
  - inversion H1 as [ | | | | | | | | |? ? ? ? ? E|]; subst. now apply element_fault_not in E.
  - apply reads_path in A. destruct A as [el A]. now exists el, n, names, tail.
Qed.
(** Markup that is not supported: the error quotes it. *)
Theorem C62_not_supported : forall s what loc, parse_str s = Err (NotSupportedError what loc) ->
  exists el names rest txt t r rest' loc', loc = Some loc' /\ in_root s el names rest /\ next_tag_is rest txt t r rest' /\ place s r loc' /\
    begins (lit "<!") t /\ ~ begins (lit "<!--") t /\ ~ begins (lit "<![CDATA[") t /\ shortened t what.
Proof.
  intros s what loc H. apply parse_rejects in H.
  inversion H as [ | | | | | |? ? ? ? ? ? ? ? ? ? ? ? ? ? ? H1| | |names rest txt t r rest' loc' x A B C D|]; subst.
  - now apply element_fault_not in H1.
  - inversion D as [ | | | | |what' E0 E1 E2 E3 E4| | | |? ? ? ? ? E|]; subst.
    + apply reads_path in A. destruct A as [el A]. exists el, names, rest, txt, t, r, rest', loc'. tauto.
    + now apply element_fault_not in E.
Qed.

Example C62_example :
  parse_str (lit "<r><a>x</a><b></r>") = Err (ParsingError (PCloseMismatch (lit "</r>") (lit "b")) (Some (1, 16))) /\
  parse_str (lit "<r><!ELEMENT a></r>") = Err (NotSupportedError (lit "<!ELEMENT a>") (Some (1, 5))) /\
  parse_str (lit "<r><a></a>") = Err (ParsingError PRootNotClosed None) /\
  parse_str (lit "<p:r/>") = Err (ParsingError (PUndefPrefix (lit "p")) (Some (1, 2))) /\
  parse_str (lit "<r a='1' b=""2"" c=3/>") = Err (ParsingError PInvalidSyntax (Some (1, 2))) /\
  parse_str (lit "<r/><s/>") = Err (ParsingError POnlyOneRoot (Some (1, 6))).
Proof. repeat split; vm_compute; reflexivity. Qed.

(** * C63: what the error displays *)

(** "line L, column C" with the numbers in decimal. *)
Definition says_place (loc : nat * nat) (d : str) : Prop :=
  exists l c, decimal l /\ decimal_value l = N.of_nat (fst loc) /\ decimal c /\ decimal_value c = N.of_nat (snd loc) /\
    d = lit "line " ++ l ++ lit ", column " ++ c.

Lemma line_col_says loc : says_place loc (line_col loc).
Proof.
  destruct (show_N_spec (N.of_nat (fst loc))) as [A B]. destruct (show_N_spec (N.of_nat (snd loc))) as [C D].
  exists (show_N (N.of_nat (fst loc))), (show_N (N.of_nat (snd loc))). tauto.
Qed.
Lemma parsing_new_plain m : ~ begins (lit "ParsingError: ") m -> parsing_error_new m = KParsing m.
Proof. intro H. unfold parsing_error_new. now rewrite trim_start_matches_fix. Qed.
Lemma parsing_new_nested m r : ~ begins (lit "ParsingError: ") (m ++ r) ->
  parsing_error_new (lit "ParsingError: " ++ m ++ r) = KParsing (m ++ r).
Proof. intro H. pose proof (C58_nested (m ++ r)) as K. rewrite (parsing_new_plain (m ++ r) H) in K. exact K. Qed.
Ltac plain := rewrite parsing_new_plain by (intros [? Z]; discriminate Z).
Lemma wrapped inner loc : ~ begins (lit "ParsingError: ") inner -> (forall r, ~ begins (lit "ParsingError: ") (inner ++ r)) ->
  error_display (maybe_wrapped inner (Some loc)) = lit "ParsingError: " ++ inner ++ syntax_error_on loc.
Proof.
  intros H1 H2. unfold maybe_wrapped. rewrite (parsing_new_plain inner H1). cbn [error_display].
  rewrite <- app_assoc. rewrite parsing_new_nested by apply H2. reflexivity.
Qed.

(** The error displayed for a rejected text, clause by clause of [rejected]. *)
Inductive displayed : error -> str -> Prop :=
| dp_no_content : displayed (ParsingError PNoContent None) (lit "ParsingError: no XML content")
| dp_not_closed : displayed (ParsingError PRootNotClosed None) (lit "ParsingError: root element not closed")
| dp_no_root : displayed (ParsingError PNoRootElement None) (lit "ParsingError: no root element")
| dp_name nm : displayed (InvalidElementName nm) (lit "InvalidElementName: '" ++ nm ++ lit "' is not a valid name")
| dp_attr nm : displayed (InvalidAttributeName nm)
    (lit "InvalidAttributeName: '" ++ nm ++ lit "' is not a valid attribute name")
| dp_markup what loc d : says_place loc d -> displayed (NotSupportedError what (Some loc))
    (lit "NotSupportedError: kiss-xml does not support '" ++ what ++ lit "' (error on " ++ d ++ lit ")")
| dp_error m loc d what : says_place loc d ->
    match m with
    | PNoClose => what = lit "'<' has not matching '>'"
    | PTextOutsideRoot => what = lit "Text outside the root element is not supported"
    | PDeclNotFirst => what = lit "<?xml ...?> declaration must at start of XML"
    | PStartsWithClose => what = lit "cannot start with closing tag"
    | POnlyOneRoot => what = lit "only 1 root element is allowed"
    | PNoRootElement => what = lit "no root element"
    | PInvalidElement => what = lit "Invalid XML Element"
    | PRootAlreadyClosed => what = lit "root element already closed"
    | PCloseMismatch t n => what = lit "closing tag " ++ t ++ lit " does not match <" ++ n ++ lit ">"
    | _ => False
    end ->
    displayed (ParsingError m (Some loc)) (lit "ParsingError: " ++ what ++ lit " (syntax error on " ++ d ++ lit ")")
| dp_comment loc d : says_place loc d ->
    displayed (ParsingError PInvalidComment (Some loc)) (lit "ParsingError: invalid comment syntax on " ++ d)
| dp_syntax m loc d what : says_place loc d ->
    match m with
    | PInvalidSyntax => what = []
    | PEmptyTag => what = lit ": empty tags not supported"
    | PAttrForm => what = lit ": attributes must be in the form 'key=""value""'"
    | PAttrNoContent => what = lit ": no content after ="
    | PAttrQuote => what = lit ": attribute value must be quoted with single or double quotes"
    | PUndefPrefix p => what = lit ": XML namespace prefix '" ++ p ++
        lit "' has no defined namespace (missing 'xmlns:" ++ p ++ lit "=""...""')"
    | _ => False
    end ->
    displayed (ParsingError m (Some loc)) (lit "ParsingError: invalid XML syntax on " ++ d ++ what).

Lemma displayed_element io P t loc x : element_fault P t loc x -> displayed x (error_text io x).
Proof.
  intro H. destruct H as [|? ? ? ? ? ? ? ? B| | |]; [|destruct B| | |]; unfold error_text; cbn [error_value parsing_error_value]; unfold invalid_syntax_on;
    try (constructor; fail); plain; cbn [error_display]; rewrite <- ?app_assoc;
    (apply dp_syntax; [apply line_col_says|reflexivity]).
Qed.
Theorem displayed_error io s x : parse_str s = Err x -> displayed x (error_text io x).
Proof.
  assert (Q : forall (a b c d : str), a ++ b ++ c ++ d = a ++ (b ++ c) ++ d) by (intros; now rewrite <- !app_assoc).
  intro H. apply parse_rejects in H.
  destruct H as [ | | | | | |? ? ? ? ? ? ? ? ? ? ? ? ? ? ? H| | |? ? ? ? ? ? ? ? ? ? ? H|];
    try (exact (displayed_element io _ _ _ _ H));
    try (unfold error_text; cbn [error_value parsing_error_value]; plain; cbn [error_display];
         first [constructor; fail
               |unfold invalid_syntax_on; rewrite <- (app_nil_r (line_col _)); apply dp_syntax; [apply line_col_says|reflexivity]
               |unfold syntax_error_on; apply dp_error; [apply line_col_says|reflexivity]]).
  assert (W : displayed (ParsingError PNoRootElement (Some loc)) (error_text io (ParsingError PNoRootElement (Some loc)))).
  { unfold error_text. cbn [error_value parsing_error_value]. rewrite wrapped by (intros; intros [? Z]; discriminate Z).
    apply dp_error; [apply line_col_says|reflexivity]. }
  destruct H as [ | | | | | | | | |? ? ? ? ? H|]; try exact W.
  - unfold error_text. cbn [error_value parsing_error_value]. plain. apply dp_comment. apply line_col_says.
  - unfold error_text. cbn [error_value parsing_error_value maybe_wrapped]. plain. apply dp_no_root.
  - unfold error_text. cbn [error_value]. apply dp_markup. apply line_col_says.
  - unfold error_text. cbn [error_value parsing_error_value]. rewrite wrapped by (intros; intros [? Z]; discriminate Z).
    apply dp_error; [apply line_col_says|reflexivity].
  - unfold error_text. cbn [error_value parsing_error_value]. plain. apply dp_error; [apply line_col_says|reflexivity].
  - unfold error_text. cbn [error_value parsing_error_value]. plain. cbn [error_display]. unfold syntax_error_on.
    replace (lit "closing tag " ++ t ++ lit " does not match <" ++ n ++ lit ">" ++ lit " (syntax error on " ++ line_col loc ++ lit ")")
      with ((lit "closing tag " ++ t ++ lit " does not match <" ++ n ++ lit ">") ++ lit " (syntax error on " ++ line_col loc ++ lit ")")
      by now rewrite <- !app_assoc.
    apply dp_error; [apply line_col_says|reflexivity].
  - exact (displayed_element io _ _ _ _ H).
Qed.

(** What an error caused by a text displays ([io] plays no role: such an error is
    never one of the operating system). *)
Theorem C63_displayed : forall io s x, parse_str s = Err x -> displayed x (error_text io x).
Proof. exact displayed_error. Qed.
(** The place that the displayed text names is that of the '<' of a tag, or that
    of the text outside the root element. *)
Theorem C63_place : forall io s x loc, parse_str s = Err x -> reported x = Some loc ->
  (exists a d b, error_text io x = a ++ lit "on " ++ d ++ b /\ says_place loc d) /\
  exists pos, located s pos (fst loc) (snd loc) /\
    (tag_starts s pos \/ text_starts s pos /\ x = ParsingError PTextOutsideRoot (Some loc)).
Proof.
  intros io s x [line col] H R. split; [|exact (error_located s x line col H R)].
  pose proof (displayed_error io s x H) as D. revert D. generalize (error_text io x). intros e D.
  destruct D as [ | | | | | what loc d P | m loc d what P K | loc d P | m loc d what P K];
    cbn [reported] in R; try discriminate R; try (injection R as ->).
  - exists (lit "NotSupportedError: kiss-xml does not support '" ++ what ++ lit "' (error "), d, (lit ")"). now rewrite <- !app_assoc.
  - exists (lit "ParsingError: " ++ what ++ lit " (syntax error "), d, (lit ")"). now rewrite <- !app_assoc.
  - exists (lit "ParsingError: invalid comment syntax "), d, []. now rewrite app_nil_r.
  - now exists (lit "ParsingError: invalid XML syntax "), d, what.
Qed.
(** The kind of the error comes first, once. *)
Theorem C63_prefix : forall io s x, parse_str s = Err x -> exists r,
  (error_text io x = lit "ParsingError: " ++ r /\ ~ begins (lit "ParsingError: ") r /\ exists m loc, x = ParsingError m loc) \/
  (error_text io x = lit "NotSupportedError: " ++ r /\ exists what loc, x = NotSupportedError what loc) \/
  (error_text io x = lit "InvalidElementName: " ++ r /\ exists nm, x = InvalidElementName nm) \/
  (error_text io x = lit "InvalidAttributeName: " ++ r /\ exists nm, x = InvalidAttributeName nm).
Proof.
  intros io s x H. pose proof (displayed_error io s x H) as D. revert D. generalize (error_text io x). intros e D.
  destruct D as [ | | | nm | nm | what loc d P | m loc d what P K | loc d P | m loc d what P K].
  - exists (lit "no XML content"). left. split; [reflexivity|]. split; [intros [? Z]; discriminate Z|eauto].
  - exists (lit "root element not closed"). left. split; [reflexivity|]. split; [intros [? Z]; discriminate Z|eauto].
  - exists (lit "no root element"). left. split; [reflexivity|]. split; [intros [? Z]; discriminate Z|eauto].
  - exists (lit "'" ++ nm ++ lit "' is not a valid name"). right. right. left. eauto.
  - exists (lit "'" ++ nm ++ lit "' is not a valid attribute name"). right. right. right. eauto.
  - exists (lit "kiss-xml does not support '" ++ what ++ lit "' (error on " ++ d ++ lit ")"). right. left. eauto.
  - exists (what ++ lit " (syntax error on " ++ d ++ lit ")"). left. split; [reflexivity|]. split; [|eauto].
    destruct m; try contradiction; subst what; intros [? Z]; discriminate Z.
  - exists (lit "invalid comment syntax on " ++ d). left. split; [reflexivity|]. split; [intros [? Z]; discriminate Z|eauto].
  - exists (lit "invalid XML syntax on " ++ d ++ what). left. split; [reflexivity|]. split; [intros [? Z]; discriminate Z|eauto].
Qed.
(** The message for a closing tag that does not match quotes the tag and names
    the innermost open element and the place. *)
Theorem C63_mismatch : forall io s x, parse_str s = Err x -> begins (lit "ParsingError: closing tag ") (error_text io x) ->
  exists el n names rest txt t r rest' loc d, in_root s el (n :: names) rest /\ next_tag_is rest txt t r rest' /\ place s r loc /\
    begins (lit "</") t /\ ~ closes t n /\ says_place loc d /\
    error_text io x = lit "ParsingError: closing tag " ++ t ++ lit " does not match <" ++ n ++ lit "> (syntax error on " ++ d ++ lit ")".
Proof.
  intros io s x H B. pose proof (displayed_error io s x H) as D. remember (error_text io x) as e eqn:Ee.
  destruct B as [u ->].
  remember (lit "ParsingError: closing tag " ++ u) as e' eqn:Eu.
  destruct D as [ | | | nm | nm | what loc d P | m loc d what P K | loc d P | m loc d what P K]; try discriminate Eu.
  destruct m as [ | | | | | | | | | | | |t n| | | | | | | | | ]; try contradiction; subst what; try discriminate Eu.
  destruct (C62_mismatch s t n (Some loc) H) as (el & names & rest & txt & r & rest' & loc' & E & A1 & A2 & A3 & A4 & A5).
  injection E as <-. exists el, n, names, rest, txt, t, r, rest', loc, d. repeat (split; [eassumption|]).
  rewrite <- !app_assoc. reflexivity.
Qed.

(** Errors of the rest of the API. *)
Theorem C63_casts : forall io n x,
  (as_element n = Err x -> error_text io x = lit "TypeCastError: Cannot cast " ++ cast_name n ++ lit " as Element") /\
  (as_text n = Err x -> error_text io x = lit "TypeCastError: Cannot cast " ++ cast_name n ++ lit " as Text") /\
  (as_comment n = Err x -> error_text io x = lit "TypeCastError: Cannot cast " ++ cast_name n ++ lit " as Comment") /\
  (as_cdata n = Err x -> error_text io x = lit "TypeCastError: Cannot cast " ++ cast_name n ++ lit " as CData").
Proof.
  intros io n x. repeat split; destruct n; intro H; try discriminate H; injection H as <-; reflexivity.
Qed.
(** [says_index i n t]: [t] says that index [i] is out of range, with the range
    given as 0 to [n]. *)
Definition says_index (i n : nat) (t : str) : Prop :=
  exists si sn, integer_text (Z.of_nat i) si /\ integer_text (Z.of_nat n) sn /\
    t = lit "Index " ++ si ++ lit " is out of bounds (valid range: 0 - " ++ sn ++ lit ")".
Lemma index_text io i n : (N.of_nat i < 2 ^ 63)%N -> n <= i -> says_index i n (error_text io (IndexOutOfBounds i 0 n)).
Proof.
  intros Hi Hn. destruct (C58_index (N.of_nat i) (N.of_nat n) Hi) as (si & sn & A & B & C); [lia|].
  exists si, sn. rewrite <- !nat_N_Z. repeat (split; [assumption|]). exact C.
Qed.
Theorem C63_index : forall io e i n, (N.of_nat i < 2 ^ 63)%N ->
  (List.length (children e) < i -> exists x, insert e i n = Err x /\ says_index i (List.length (children e)) (error_text io x)) /\
  (List.length (children e) <= i -> exists x, remove e i = Err x /\ says_index i (List.length (children e)) (error_text io x)) /\
  (List.length (child_elements e) <= i -> exists x,
     remove_element e i = Err x /\ says_index i (List.length (child_elements e)) (error_text io x)).
Proof.
  intros io e i n Hi. repeat split; intro H; eexists; (split; [now (apply C14_insert_out_of_bounds || apply C15_remove_out_of_bounds || apply C18_remove_element_out_of_bounds)|apply index_text; [easy|lia]]).
Qed.
(** The range named by [remove] contains an index that is refused. *)
Theorem C63_remove_range_refuted : exists x, remove default_elem 0 = Err x /\
  error_text [] x = lit "Index 0 is out of bounds (valid range: 0 - 0)".
Proof. eexists. split; [vm_compute; reflexivity|vm_compute; reflexivity]. Qed.
Theorem C63_names : forall io s,
  (~ valid_name s -> exists x, check_elem_name s = Err x /\
     error_text io x = lit "InvalidElementName: '" ++ s ++ lit "' is not a valid name") /\
  (~ valid_name s -> exists x, check_attr_name s = Err x /\
     error_text io x = lit "InvalidAttributeName: '" ++ s ++ lit "' is not a valid attribute name") /\
  (substring (lit "-->") s -> exists x, comment_new s = Err x /\
     error_text io x = lit "InvalidContent: Comments cannot contain '-->'") /\
  (substring (lit "]]>") s -> exists x, cdata_new s = Err x /\
     error_text io x = lit "InvalidContent: CDATA cannot contain ']]>' as content").
Proof.
  intros io s. repeat split; intro H; eexists.
  - unfold check_elem_name. rewrite (proj2 (name_regex_false s) H). now split.
  - unfold check_attr_name. rewrite (proj2 (name_regex_false s) H). now split.
  - unfold comment_new. apply contains_spec in H. rewrite H. now split.
  - unfold cdata_new. apply contains_spec in H. rewrite H. now split.
Qed.
Example C63_example :
  (exists x, parse_str (lit "<r><a>x</a><b></r>") = Err x /\
     error_text [] x = lit "ParsingError: closing tag </r> does not match <b> (syntax error on line 1, column 16)") /\
  (exists x, parse_str (lit "<r></r>text<!---->") = Err x /\
     error_text [] x = lit "ParsingError: no root element (syntax error on line 1, column 13)") /\
  (exists x, parse_str (lit "<p:r/>") = Err x /\
     error_text [] x = lit "ParsingError: invalid XML syntax on line 1, column 2: XML namespace prefix 'p' has no defined namespace (missing 'xmlns:p=""...""')") /\
  (exists x, parse_str (lit "<r><1/></r>") = Err x /\
     error_text [] x = lit "ParsingError: Invalid XML Element (syntax error on line 1, column 5)") /\
  (exists x, parse_str (lit "<r><" ++ [233%N] ++ lit "/></r>") = Err x /\
     error_text [] x = lit "InvalidElementName: '" ++ [233%N] ++ lit "' is not a valid name") /\
  (exists x, as_text (NComment []) = Err x /\ error_text [] x = lit "TypeCastError: Cannot cast Comment as Text").
Proof. repeat split; eexists; (split; [vm_compute; reflexivity|vm_compute; reflexivity]). Qed.
Print Assumptions C62_explained.
Print Assumptions C62_kinds.
Print Assumptions C62_mismatch.
Print Assumptions C62_not_closed.
Print Assumptions C62_not_supported.
Print Assumptions displayed_error.
Print Assumptions C63_displayed.
Print Assumptions C63_place.
Print Assumptions C63_prefix.
Print Assumptions C63_mismatch.
Print Assumptions C63_casts.
Print Assumptions C63_index.
Print Assumptions C63_remove_range_refuted.
Print Assumptions C63_names.

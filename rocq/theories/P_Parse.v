(** Properties of the parser: C33-C35, C38-C40, C42, C43, C48-C50. *)
From Coq Require Import List NArith Arith Bool Ascii String Lia.
From Verif Require Import Base Escape Dom Spec SpecDom SpecTree Parse SpecLex SpecParse
  DocFacts AcceptFacts ParsedFacts NsFacts DocProps PosFacts PrologFacts LexRun.
Import ListNotations.

Lemma parsed_accepts s d : parse_str s = Ok d -> accepts s d.
Proof. intro H. pose proof (parse_str_result s) as R. rewrite H in R. now inversion R. Qed.

(** * C33: termination *)

(** The bound the model puts on the number of iterations is never reached. *)
Theorem C33_parse_terminates : forall s, parse_str s <> Fuel.
Proof. exact parse_terminates. Qed.
(** Every tag found starts at or after the scanning position and ends after its
    start: the position strictly increases. *)
Theorem C33_progress : forall s from a b, next_tag s from = Ok (Some a, Some b) ->
  from <= a /\ a < b /\ b <= blen s.
Proof. exact next_tag_progress. Qed.
(** Allowing more iterations changes nothing. *)
Theorem C33_bound_irrelevant : forall f g s, f <= g ->
  (forall decl dtds n st p, prolog_loop f s decl dtds n (st, p) <> Fuel ->
     prolog_loop g s decl dtds n (st, p) = prolog_loop f s decl dtds n (st, p)) /\
  (forall sc st p t, content_loop f s sc (st, p) t <> Fuel ->
     content_loop g s sc (st, p) t = content_loop f s sc (st, p) t).
Proof. intros f g s H. split; intros; [now apply prolog_fuel|now apply content_fuel]. Qed.
Example C33_example : next_tag (lit "ab<c d='>'>") 1 = Ok (Some 2, Some 11).
Proof. reflexivity. Qed.

(** * C34: panics *)

Theorem C34_ascii_never_panics : forall s, all_ascii s -> ~ substring (lit "&#") s ->
  (exists d, parse_str s = Ok d) \/ (exists x, parse_str s = Err x).
Proof.
  intros s A N. destruct (parse_str s) as [d|x| |] eqn:E; [left; now exists d|right; now exists x|exfalso..].
  - now apply ascii_no_panic in E.
  - now apply parse_terminates in E.
Qed.
(** A panic comes from decoding, or abbreviating in a message, a piece of the
    input. *)
Theorem C34_panic_sources : forall s, parse_str s = Panic ->
  exists u, piece s u /\ (unescape u = Panic \/ abbreviate u 32 = Panic).
Proof. exact panic_piece. Qed.
(** Abbreviating panics exactly when it cuts a character: at byte 15 or 16 bytes
    before the end. *)
Theorem C34_abbreviate_panics : forall t, abbreviate t 32 = Panic <->
  32 < blen t /\ (~ boundary t 15 \/ ~ boundary t (blen t - 16)).
Proof. exact abbreviate_panics. Qed.
Example C34_ascii_example : let s := lit "<a b='&lt;'>&amp;</a>" in
  all_ascii s /\ ~ substring (lit "&#") s /\ exists d, parse_str s = Ok d.
Proof.
  split; [vm_compute; repeat constructor|]. split.
  - intro H. apply (proj2 (BaseFacts.contains_spec _ _)) in H. vm_compute in H. discriminate.
  - eexists. vm_compute. reflexivity.
Qed.
(** Both sources occur. *)
Theorem C34_unescape_refuted : parse_str (lit "<a>&amp;" ++ [9788%N] ++ lit "</a>") = Panic.
Proof. vm_compute. reflexivity. Qed.
Theorem C34_comment_refuted :
  parse_str (lit "<!--" ++ repeat 9788%N 20 ++ lit "--><a/>") = Panic /\
  (exists d, parse_str (lit "<!--" ++ repeat 97%N 60 ++ lit "--><a/>") = Ok d).
Proof. split; [vm_compute; reflexivity|eexists; vm_compute; reflexivity]. Qed.
Theorem C34_hash_refuted : parse_str (lit "<a>&#e9;b</a>") = Panic.
Proof. vm_compute. reflexivity. Qed.

(** * C35: balanced tags *)

(** The tags of an accepted input are those of the prolog, followed by those of
    one or more complete elements. *)
Theorem C35_balanced : forall s d, parse_str s = Ok d -> exists pr el tail,
  splits s (pr ++ el) tail /\ Forall (fun x => prolog_like (snd x)) pr /\
  roots_tags (map snd el) /\ starts_with_element el.
Proof. intros s d H. apply accepts_balanced with d, parsed_accepts, H. Qed.
(** The splitting of a text into tags is unique. *)
Theorem C35_splits_unique : forall s toks tail toks' tail', splits s toks tail -> splits s toks' tail' ->
  toks = toks' /\ tail = tail'.
Proof. exact splits_fun. Qed.

Definition ex_doc : str := lit "<?xml version='1.0'?>
<!-- hi --><r:a xmlns:r=""u"" xmlns='d'>x &lt; y<b k='>'/><!--c--><r:e><f>z</f></r:e></r:a>".
Definition ex_pr : list (str * str) :=
  [([], lit "<?xml version='1.0'?>"); ([10%N], lit "<!-- hi -->")].
Definition ex_el : list (str * str) :=
  [([], lit "<r:a xmlns:r=""u"" xmlns='d'>"); (lit "x &lt; y", lit "<b k='>'/>"); ([], lit "<!--c-->");
   ([], lit "<r:e>"); ([], lit "<f>"); (lit "z", lit "</f>"); ([], lit "</r:e>"); ([], lit "</r:a>")].
Ltac not_begin := let r := fresh in let H := fresh in intros [r H]; discriminate H.
Ltac not_end := let H := fresh in intro H; apply (proj1 (LexFacts.ends_spec _ _)) in H; vm_compute in H; discriminate.
Example C35_example_accepted : exists d, parse_str ex_doc = Ok d.
Proof. eexists. vm_compute. reflexivity. Qed.
Lemma ex_splits : splits ex_doc (ex_pr ++ ex_el) [].
Proof. lex_by. Qed.

Ltac no_quote_ws := vm_compute; repeat constructor.
Ltac opens w_ r_ := split; [not_begin|]; split; [not_begin|]; split; [discriminate|]; split; [no_quote_ws|];
  exists w_, r_; split; [reflexivity|]; split; [constructor|].
Lemma ex_opening_ra : opening (lit "<r:a xmlns:r=""u"" xmlns='d'>") (lit "r:a").
Proof. opens (@nil char) (lit " xmlns:r=""u"" xmlns='d'"). right. right. eexists _, _. split; [reflexivity|easy]. Qed.
Lemma ex_opening_b : opening (lit "<b k='>'/>") (lit "b").
Proof. opens (@nil char) (lit " k='>'/"). right. right. eexists _, _. split; [reflexivity|easy]. Qed.
Lemma ex_opening_re : opening (lit "<r:e>") (lit "r:e").
Proof. opens (@nil char) (@nil char). left. split; [easy|not_end]. Qed.
Lemma ex_opening_f : opening (lit "<f>") (lit "f").
Proof. opens (@nil char) (@nil char). left. split; [easy|not_end]. Qed.
Ltac closes := exists [], [], []; split; [reflexivity|]; split; [constructor|]; split; [constructor|now left].
(** The sample document consists of a prolog and one element. *)
Example C35_example_one_root : one_root ex_doc ex_pr ex_el.
Proof.
  split; [exists []; exact ex_splits|]. split.
  - constructor; [right; now eexists|]. constructor; [left; now eexists|]. constructor.
  - split.
    + cbn [ex_el map snd].
      apply (et_pair _ (lit "r:a") [lit "<b k='>'/>"; lit "<!--c-->"; lit "<r:e>"; lit "<f>"; lit "</f>"; lit "</r:e>"] (lit "</r:a>"));
        [exact ex_opening_ra|not_end| |closes].
      apply (ct_elem [lit "<b k='>'/>"] [lit "<!--c-->"; lit "<r:e>"; lit "<f>"; lit "</f>"; lit "</r:e>"]).
      { apply et_single with (lit "b"); [exact ex_opening_b|]. now exists (lit "<b k='>'"). }
      apply ct_markup; [now eexists|].
      apply (ct_elem [lit "<r:e>"; lit "<f>"; lit "</f>"; lit "</r:e>"] []); [|constructor].
      apply (et_pair _ (lit "r:e") [lit "<f>"; lit "</f>"] (lit "</r:e>")); [exact ex_opening_re|not_end| |closes].
      apply (ct_elem [lit "<f>"; lit "</f>"] []); [|constructor].
      apply (et_pair _ (lit "f") [] (lit "</f>")); [exact ex_opening_f|not_end|constructor|closes].
    + eexists _, _, _. split; [reflexivity|]. intros [H|H]; revert H; not_begin.
Qed.

(** * C38: root uniqueness *)

(** If a tag follows the root element of an accepted input then the root was not
    self-closing, only white space stands before that tag, and it opens another
    element that is not self-closing.  Anything else is rejected. *)
Theorem C38_after_root : forall s d pr el txt t rest tail, parse_str s = Ok d ->
  splits s (pr ++ el ++ (txt, t) :: rest) tail ->
  Forall (fun x => prolog_like (snd x)) pr -> element_tags (map snd el) -> starts_with_element el ->
  ws txt /\ (exists n, opening t n) /\ ~ self_closing t /\ 2 <= List.length el.
Proof. intros s d pr el txt t rest tail H. apply parsed_accepts in H. now apply (accepts_after_root s d). Qed.
(** A second root that is not self-closing is accepted: it replaces the first
    and inherits its children. *)
Theorem C38_second_root_refuted : exists d, parse_str (lit "<a>x</a><b>y</b>") = Ok d /\
  splits (lit "<a>x</a><b>y</b>") ([([], lit "<a>"); (lit "x", lit "</a>")] ++ [([], lit "<b>"); (lit "y", lit "</b>")]) [] /\
  elem_events (d_root d) = [EOpen (lit "b"); EText (lit "yx"); EClose].
Proof. eexists. split; [vm_compute; reflexivity|]. split; [lex_by|reflexivity]. Qed.
Example C38_rejected_examples : Forall (fun x => exists e, parse_str x = Err e)
  [lit "<a/><b/>"; lit "<a/><!--c-->"; lit "<a></a><b/>"; lit "<a></a>t<b></b>"; lit "<a></a><!--c-->"; lit "<a></a><![CDATA[c]]>"].
Proof. repeat constructor; eexists; vm_compute; reflexivity. Qed.

(** * C39: prefix namespaces *)

(** The namespace of a prefixed element is that of the nearest declaration of the
    prefix on itself or an ancestor.  (No attribute may be called
    "xmlns:xmlns:...": see C39_double_xmlns_refuted.) *)
Theorem C39_prefix : forall s d pr el e anc p, parse_str s = Ok d -> one_root s pr el ->
  chain (d_root d) (e :: anc) -> e_prefix e = Some p ->
  (forall q, In q anc -> get_attr q (lit "xmlns:" ++ lit "xmlns:" ++ p) = None) ->
  namespace e = nearest (lit "xmlns:" ++ p) (e :: anc).
Proof.
  intros s d pr el e anc p H O C P N. destruct (accepts_namespaces s d pr el (parsed_accepts _ _ H) O e anc C) as [E _].
  unfold namespace. rewrite E. unfold parsed_ns. rewrite P. cbn [nearest].
  assert (Nn : nearest (lit "xmlns:" ++ lit "xmlns:" ++ p) anc = None).
  { clear - N. induction anc as [|q anc IH]; [easy|]. cbn [nearest]. rewrite (N q (or_introl eq_refl)).
    apply IH. intros q' Hq. apply N. now right. }
  now rewrite Nn.
Qed.
(** A prefix on the root must be declared on the root. *)
Theorem C39_root_declared : forall s d pr el p, parse_str s = Ok d -> one_root s pr el ->
  e_prefix (d_root d) = Some p -> get_attr (d_root d) (lit "xmlns:" ++ p) <> None.
Proof.
  intros s d pr el p H O P.
  exact (proj2 (accepts_namespaces s d pr el (parsed_accepts _ _ H) O _ _ (ch_root _)) eq_refl p P).
Qed.
(** Without the proviso the claim is false. *)
Theorem C39_double_xmlns_refuted : exists d c,
  parse_str (lit "<r xmlns:p='u' xmlns:xmlns:p='v'><p:c/></r>") = Ok d /\
  children (d_root d) = [NElem c] /\ e_prefix c = Some (lit "p") /\ namespace c = Some (lit "v").
Proof. eexists _, _. split; [vm_compute; reflexivity|]. split; [reflexivity|]. now split. Qed.
Example C39_example : exists d a anc, parse_str ex_doc = Ok d /\ chain (d_root d) (a :: anc) /\
  name a = lit "e" /\ e_prefix a = Some (lit "r") /\ namespace a = Some (lit "u") /\ List.length anc = 1.
Proof.
  eexists _, _, _. split; [vm_compute; reflexivity|]. split.
  - eapply ch_child; [apply ch_root|]. cbn. right. right. right. left. reflexivity.
  - now repeat split.
Qed.
Example C39_undeclared : exists x, parse_str (lit "<p:r/>") = Err x.
Proof. eexists. vm_compute. reflexivity. Qed.

(** * C40: default namespace *)

Theorem C40_default : forall s d pr el e anc, parse_str s = Ok d -> one_root s pr el ->
  chain (d_root d) (e :: anc) -> e_prefix e = None ->
  namespace e = match get_attr e (lit "xmlns"), anc with
                | Some v, _ => Some v
                | None, [] => None
                | None, parent :: _ => match e_prefix parent with None => namespace parent | Some _ => None end
                end.
Proof.
  intros s d pr el e anc H O C P. destruct (accepts_namespaces s d pr el (parsed_accepts _ _ H) O e anc C) as [E _].
  unfold namespace. rewrite E. unfold parsed_ns. rewrite P. now destruct (get_attr e (lit "xmlns")), anc.
Qed.
(** A prefixed element in between hides the outer default namespace. *)
Theorem C40_hidden_refuted : exists d a b, parse_str (lit "<r xmlns='d' xmlns:p='u'><a/><p:q><b/></p:q></r>") = Ok d /\
  namespace (d_root d) = Some (lit "d") /\ chain (d_root d) [a; d_root d] /\ namespace a = Some (lit "d") /\
  (exists q, chain (d_root d) [b; q; d_root d]) /\ name b = lit "b" /\ namespace b = None.
Proof.
  eexists _, _, _. split; [vm_compute; reflexivity|]. split; [reflexivity|]. split.
  { eapply ch_child; [apply ch_root|]. cbn. left. reflexivity. }
  split; [reflexivity|]. split.
  { eexists. eapply ch_child; [eapply ch_child; [apply ch_root|]|]; cbn; [right; left; reflexivity|left; reflexivity]. }
  now split.
Qed.

(** * C42: XML declaration *)

(** [Declaration::from_str] accepts exactly "<?...?>" with white space around it
    and keeps what is between; it displays it back. *)
Theorem C42_from_str : forall s d, declaration_from_str s = Ok d <->
  exists w1 w2, ws w1 /\ ws w2 /\ s = w1 ++ lit "<?" ++ d ++ lit "?>" ++ w2.
Proof. exact declaration_accepts. Qed.
Theorem C42_display : forall s d, declaration_from_str s = Ok d ->
  exists w1 w2, ws w1 /\ ws w2 /\ s = w1 ++ declaration_to_string d ++ w2.
Proof.
  intros s d H. apply declaration_accepts in H. destruct H as (w1 & w2 & H1 & H2 & ->). exists w1, w2.
  split; [easy|]. split; [easy|]. unfold declaration_to_string. now rewrite <- !app_assoc.
Qed.
(** It panics exactly on "<?>". *)
Theorem C42_from_str_panics : forall s, declaration_from_str s = Panic <->
  exists w1 w2, ws w1 /\ ws w2 /\ s = w1 ++ lit "<?>" ++ w2.
Proof. exact declaration_panics. Qed.
Theorem C42_from_str_returns : forall s, declaration_from_str s <> Fuel.
Proof. exact declaration_returns. Qed.
(** The declaration of a parsed document is the text of the last declaration in
    the prolog; a declaration can only be the first tag, or the second if the
    first stands at the very beginning. *)
Theorem C42_parsed : forall s doc pr el tail, parse_str s = Ok doc -> splits s (pr ++ el) tail ->
  Forall (fun x => prolog_like (snd x)) pr -> starts_with_element el ->
  (forall d, d_declaration doc = Some d <->
    exists a txt b, pr = a ++ (txt, lit "<?" ++ d ++ lit "?>") :: b /\ begins (lit "xml") d /\
      Forall (fun x => ~ begins (lit "<?xml") (snd x)) b) /\
  (forall a txt t b, pr = a ++ (txt, t) :: b -> begins (lit "<?xml") t -> a = [] \/ exists t0, a = [([], t0)]).
Proof. intros s doc pr el tail H. apply accepts_declaration, parsed_accepts, H. Qed.
Example C42_example : exists d, parse_str ex_doc = Ok d /\ d_declaration d = Some (lit "xml version='1.0'").
Proof. eexists. split; vm_compute; reflexivity. Qed.
Theorem C42_angle_refuted : declaration_from_str (lit "<?>") = Panic.
Proof. reflexivity. Qed.
(** A declaration may come twice. *)
Example C42_twice : exists d, parse_str (lit "<?xml a?><?xml b?><r/>") = Ok d /\ d_declaration d = Some (lit "xml b").
Proof. eexists. split; vm_compute; reflexivity. Qed.

(** * C43: DTDs *)

Theorem C43_from_string : forall s d, dtd_from_string s = Ok d <->
  exists w1 w2, ws w1 /\ ws w2 /\ s = w1 ++ lit "<!DOCTYPE" ++ d ++ lit ">" ++ w2.
Proof. exact dtd_accepts. Qed.
Theorem C43_from_string_returns : forall s,
  (exists d, dtd_from_string s = Ok d) \/ (exists x, dtd_from_string s = Err x).
Proof. exact dtd_returns. Qed.
Theorem C43_parsed : forall s doc pr el tail, parse_str s = Ok doc -> splits s (pr ++ el) tail ->
  Forall (fun x => prolog_like (snd x)) pr -> starts_with_element el -> dtds_in pr (d_dtds doc).
Proof. intros s doc pr el tail H. apply accepts_dtds, parsed_accepts, H. Qed.
(** The serialized form of a document with a DTD is rejected. *)
Theorem C43_display_refuted : exists d x, parse_str (lit "<!DOCTYPE note><a/>") = Ok d /\ d_dtds d = [lit " note"] /\
  parse_str (doc_to_string d) = Err x.
Proof. eexists _, _. split; [vm_compute; reflexivity|]. split; [reflexivity|]. vm_compute. reflexivity. Qed.
Example C43_example : exists d, parse_str (lit "<!DOCTYPE a><!--x--><!DOCTYPE b [<!ENTITY c '>'>]><a/>") = Ok d /\
  d_dtds d = [lit " a"; lit " b [<!ENTITY c '>'>]"].
Proof. eexists. split; vm_compute; reflexivity. Qed.

(** * C48: parsed documents are well-formed *)

Theorem C48_parsed_valid : forall s d, parse_str s = Ok d -> elem_valid (d_root d) /\ tree_normal (d_root d).
Proof. intros s d H. apply accepts_valid with s, parsed_accepts, H. Qed.
Example C48_example : exists d, parse_str ex_doc = Ok d /\ List.length (children (d_root d)) = 4.
Proof. eexists. split; vm_compute; reflexivity. Qed.

(** * C49: text is kept verbatim *)

(** In document order, the elements, texts, comments and CDATA of the parsed
    document are those said by the tags and the text between them. *)
Theorem C49_verbatim : forall s d pr el, parse_str s = Ok d -> one_root s pr el ->
  exists l, says el l /\ elem_events (d_root d) = l.
Proof. intros s d pr el H. apply accepts_events, parsed_accepts, H. Qed.
Example C49_example : exists d, parse_str ex_doc = Ok d /\
  elem_events (d_root d) = [EOpen (lit "r:a"); EText (lit "x < y"); EOpen (lit "b"); EClose; EComment (lit "c");
    EOpen (lit "r:e"); EOpen (lit "f"); EText (lit "z"); EClose; EClose; EClose].
Proof. eexists. split; vm_compute; reflexivity. Qed.

(** * C50: error positions *)

Theorem C50_line_and_column : forall a c b l, last_line (a ++ [c]) l ->
  line_and_column (a ++ c :: b) (blen a) = (1 + newlines (a ++ [c]), 1 + List.length l).
Proof. exact line_and_column_spec. Qed.
(** The position reported by an error is that of the '<' of a tag, or of the
    first character of text outside the root. *)
Theorem C50_error_positions : forall s x line col, parse_str s = Err x -> reported x = Some (line, col) ->
  exists pos, located s pos line col /\
    (tag_starts s pos \/ text_starts s pos /\ x = ParsingError PTextOutsideRoot (Some (line, col))).
Proof. exact error_located. Qed.
Example C50_example : exists x, parse_str (lit "<a>
 <b></c></a>") = Err x /\ reported x = Some (2, 6).
Proof. eexists. split; vm_compute; reflexivity. Qed.
Print Assumptions C33_parse_terminates.
Print Assumptions C33_progress.
Print Assumptions C33_bound_irrelevant.
Print Assumptions C34_ascii_never_panics.
Print Assumptions C34_panic_sources.
Print Assumptions C34_abbreviate_panics.
Print Assumptions C34_unescape_refuted.
Print Assumptions C34_comment_refuted.
Print Assumptions C34_hash_refuted.
Print Assumptions C35_balanced.
Print Assumptions C35_splits_unique.
Print Assumptions C38_after_root.
Print Assumptions C38_second_root_refuted.
Print Assumptions C39_prefix.
Print Assumptions C39_root_declared.
Print Assumptions C39_double_xmlns_refuted.
Print Assumptions C40_default.
Print Assumptions C40_hidden_refuted.
Print Assumptions C42_from_str.
Print Assumptions C42_display.
Print Assumptions C42_from_str_panics.
Print Assumptions C42_from_str_returns.
Print Assumptions C42_parsed.
Print Assumptions C42_angle_refuted.
Print Assumptions C43_from_string.
Print Assumptions C43_from_string_returns.
Print Assumptions C43_parsed.
Print Assumptions C43_display_refuted.
Print Assumptions C48_parsed_valid.
Print Assumptions C49_verbatim.
Print Assumptions C50_line_and_column.
Print Assumptions C50_error_positions.

(** Exact unescape (C05, C06) and documents that were parsed: C59, C60. *)
From Coq Require Import List NArith Arith Bool Ascii String Lia.
From Verif Require Import Base Escape Dom Spec EscapeFacts SpecDom SerFacts Parse SpecLex SpecParse DocFacts AcceptFacts
  ParsedFacts SpecDoc PrintFacts PrintDoc FormFacts RoundFacts DocCheck P_Parse P_Doc Files SpecBytes SpecFiles FilesFacts P_Files
  SpecEsc UnescFacts SpecMore ReFacts CharFacts SynFacts.
Import ListNotations.

(** * C05, C06: unescape on every text *)

(** The result for every text, without any condition. *)
Theorem C05_exact : forall t r, unescape t = Ok r <-> unescapes t (Some r).
Proof. intros t. apply unescape_exact. Qed.
(** The texts on which it panics. *)
Theorem C06_panic_exact : forall t, unescape t = Panic <-> unescapes t None.
Proof. intros t. apply unescape_exact. Qed.
(** Whatever it does, it only replaces references by their characters. *)
Theorem C05_replaced : forall t r, unescape t = Ok r -> refs_replaced t r.
Proof. exact unescape_replaced. Qed.
(** The reference after a skipped one stays although both are well-formed. *)
Example C05_example_skip : unescapes (lit "&amp;&lt;" ++ [9788%N]) (Some (lit "&&lt;" ++ [9788%N])) /\
  refs_replaced (lit "&amp;&lt;" ++ [9788%N]) (lit "&&lt;" ++ [9788%N]).
Proof.
  assert (H : unescape (lit "&amp;&lt;" ++ [9788%N]) = Ok (lit "&&lt;" ++ [9788%N])) by (vm_compute; reflexivity).
  split; [now apply C05_exact|now apply C05_replaced].
Qed.
Example C06_example_exact : unescapes (lit "a&#e9;b") None.
Proof. apply C06_panic_exact. vm_compute. reflexivity. Qed.

(** * C59: what was parsed can be written and read back *)

Theorem C59_parsed_round_trip : forall s d pr el ind, parse_str s = Ok d -> one_root s pr el -> doctype_defs d = [] ->
  printable (root_element d) ->
  exists d', parse_str (doc_to_string_with_indent d ind) = Ok d' /\ doc_eqb d' d = true.
Proof. intros s d pr el ind H O N W. apply C31_round_trip. now apply (parsed_writable_doc s d pr el). Qed.
(** The second reading is stable: nothing changes any more. *)
Theorem C59_parsed_canonical : forall s d pr el, parse_str s = Ok d -> one_root s pr el -> doctype_defs d = [] ->
  printable (root_element d) -> exists d',
  (forall ind, parse_str (doc_to_string_with_indent d ind) = Ok d') /\
  (forall ind, doc_to_string_with_indent d' ind = doc_to_string_with_indent d ind).
Proof. intros s d pr el H O N W. apply C32_canonical. now apply (parsed_writable_doc s d pr el). Qed.

Lemma well_named_printable P e : (forall t, chars P t -> survives all_special t /\ survives text_special t) ->
  chars_elem P e -> well_named e -> printable e.
Proof.
  intro S. induction e as [e IH] using DomFacts.elem_ind'. intros H W. inversion H as [? H1 H2 H3 H4 H5 H6 H7]; subst.
  inversion W as [? W1 W2 W3]; subst. constructor; [easy|..].
  - intros k v Hi. split; [now apply (W2 k v)|]. apply S. now apply (H4 k v).
  - intros t Hi. apply S, H6. now left.
  - intros c Hi. apply IH; [easy|now apply H7|now apply W3].
Qed.
(** For ASCII text without '#', hence without numeric references, a condition on
    the names is enough. *)
Definition ascii_text (s : str) : Prop := Forall (fun c => ascii c /\ c <> 35%N) s.
Lemma ascii_survives t : chars (fun c => ascii c /\ c <> 35%N) t -> survives all_special t /\ survives text_special t.
Proof.
  intro Ht. assert (L : last_ascii t).
  { destruct t as [|c t] using rev_ind; [now left|]. right. exists t, c. split; [easy|].
    apply Forall_app in Ht. destruct Ht as [_ Ht]. apply Forall_cons_iff in Ht. easy. }
  destruct (C31_texts t) as [T1 T2]. split; [apply T2|apply T1]; now left.
Qed.
Lemma ascii_parsed s d : ascii_text s -> parse_str s = Ok d -> chars_elem (fun c => ascii c /\ c <> 35%N) (root_element d).
Proof.
  intros A H. apply (parsed_chars (fun c => ascii c /\ c <> 35%N)) in H; [apply H| |exact A].
  intros nm c [nm' c' E|h c' _ E|h c' _ E] Hn.
  - cbn in E. repeat (destruct E as [E|E]; [injection E as _ <-; split; [unfold ascii; lia|discriminate]|]). easy.
  - exfalso. apply Forall_cons_iff in Hn. now destruct Hn as [[_ Hn] _].
  - exfalso. apply Forall_cons_iff in Hn. now destruct Hn as [[_ Hn] _].
Qed.
Theorem C59_ascii : forall s d pr el ind, ascii_text s -> parse_str s = Ok d -> one_root s pr el -> doctype_defs d = [] ->
  well_named (root_element d) ->
  exists d', parse_str (doc_to_string_with_indent d ind) = Ok d' /\ doc_eqb d' d = true.
Proof.
  intros s d pr el ind A H O N W. apply (C59_parsed_round_trip s d pr el); try easy.
  apply (well_named_printable (fun c => ascii c /\ c <> 35%N)); [exact ascii_survives|now apply (ascii_parsed s)|easy].
Qed.

(** The condition on texts is needed: here every cycle of writing and reading
    adds a character reference. *)
Theorem C59_text_refuted : exists s d d', parse_str s = Ok d /\ doctype_defs d = [] /\ well_named (root_element d) /\
  parse_str (doc_to_string d) = Ok d' /\ doc_eqb d' d = false.
Proof.
  exists (lit "<a>&lt;&lt;" ++ [233%N] ++ lit "</a>"). eexists. eexists.
  split; [vm_compute; reflexivity|]. split; [reflexivity|]. split.
  { constructor; cbn.
    - apply (namedb_ok None). vm_compute. reflexivity.
    - easy.
    - intros c [E|[]]. discriminate. }
  split; vm_compute; reflexivity.
Qed.
Ltac names_by := constructor; cbn [e_prefix e_name e_attributes e_children];
  [ match goal with |- named _ ?p ?n => apply (namedb_ok p n); vm_compute; reflexivity end
  | let k := fresh in let v := fresh in let H := fresh in intros k v H; repeat (destruct H as [H|H];
      [injection H as <- <-; apply plainb_ok; vm_compute; reflexivity|]); destruct H
  | let c := fresh in let H := fresh in intros c H; repeat (destruct H as [H|H]; [try discriminate H; try (injection H as <-; names_by)|]); try destruct H ].
Example C59_example : exists d, parse_str ex_doc = Ok d /\ one_root ex_doc ex_pr ex_el /\ doctype_defs d = [] /\
  well_named (root_element d) /\ ascii_text ex_doc.
Proof.
  eexists. split; [vm_compute; reflexivity|]. split; [apply C35_example_one_root|]. split; [reflexivity|]. split.
  - names_by.
  - unfold ascii_text. apply Forall_forall. intros c Hc.
    assert (F : forallb (fun c => (c <? 128)%N && negb (c =? 35)%N) ex_doc = true) by (vm_compute; reflexivity).
    rewrite forallb_forall in F. apply F in Hc. apply andb_true_iff in Hc. destruct Hc as [H1 H2].
    apply N.ltb_lt in H1. apply negb_true_iff, N.eqb_neq in H2. now split.
Qed.
Example C59_example_printable : exists d, parse_str ex_doc = Ok d /\ printable (root_element d).
Proof.
  destruct C59_example as (d & H & _ & _ & W & A). exists d. split; [exact H|].
  apply (well_named_printable (fun c => ascii c /\ c <> 35%N)); [| |easy].
  - apply ascii_survives.
  - now apply (ascii_parsed ex_doc).
Qed.

(** * C60: parsing keeps characters *)

Theorem C60_characters : forall (P : char -> Prop) s d,
  (forall nm c, entity nm c -> Forall P nm -> P c) -> Forall P s -> parse_str s = Ok d -> chars_doc P d.
Proof. intros P s d R Hs H. now apply (parsed_chars P R s). Qed.
Lemma unicode_chars e : chars_elem scalar e -> unicode_elem e.
Proof.
  induction e as [e IH] using DomFacts.elem_ind'. intro H. inversion H as [? H1 H2 H3 H4 H5 H6 H7]; subst.
  constructor; try easy. intros c Hi. apply IH; [easy|now apply H7].
Qed.
Theorem C60_unicode : forall s d, text_ok s -> parse_str s = Ok d -> unicode_doc d.
Proof.
  intros s d Hs H. apply (C60_characters scalar) in H; [|intros nm c E _; now apply entity_scalar in E|exact Hs].
  destruct H as (H1 & H2 & H3). split; [exact H1|]. split; [exact H2|now apply unicode_chars].
Qed.
(** A file is read, written under any name with any indent, and read again. *)
Theorem C60_file_cycle : forall w p bs s d pr el ind q w', fs_denied w p = false -> lookup w p = Some (File bs) ->
  text_ok s -> bs = utf8 s -> parse_filepath w p = Ok d -> one_root s pr el -> doctype_defs d = [] -> printable (root_element d) ->
  write_to_filepath_with_indent d w q ind = (w', Ok tt) ->
  exists d', parse_filepath w' q = Ok d' /\ doc_eqb d' d = true.
Proof.
  intros w p bs s d pr el ind q w' D L T E H O N W Hw. rewrite (C52_file w p bs s) in H by easy.
  apply (C52_file_round_trip d w q ind w'); [now apply (parsed_writable_doc s d pr el)|now apply (C60_unicode s)|easy].
Qed.

Definition ex_disk : fs := mkFs [([lit "in"], File (utf8 ex_doc))] (fun _ => false) [Accepts 7; WInterrupted; Accepts 1000].
Example C60_example : exists d w', parse_filepath ex_disk [lit "in"] = Ok d /\ text_ok ex_doc /\
  write_to_filepath_with_indent d ex_disk [lit "new"; lit "out"] (lit "  ") = (w', Ok tt) /\ unicode_doc d.
Proof.
  assert (T : text_ok ex_doc).
  { apply Forall_forall. intros c Hc.
    assert (F : forallb (fun c => (c <? 128)%N) ex_doc = true) by (vm_compute; reflexivity).
    rewrite forallb_forall in F. apply F in Hc. apply N.ltb_lt in Hc. unfold scalar. lia. }
  destruct C59_example as (d & H & _). exists d.
  assert (H' : parse_filepath ex_disk [lit "in"] = Ok d).
  { rewrite (C52_file ex_disk [lit "in"] (utf8 ex_doc) ex_doc); easy. }
  eexists. split; [exact H'|]. split; [exact T|]. split; [|now apply (C60_unicode ex_doc)].
  revert H. vm_compute. intro E. injection E as <-. reflexivity.
Qed.

(** * C61: only the meaning of a source counts *)

(** Two well-formed sources are read as equal documents exactly if they have the
    same declaration, DTDs, elements, decoded attribute values, decoded texts,
    comments and CDATA sections.  Order of attributes, overridden values, ways of
    writing characters, quotes and layout do not matter. *)
Theorem C61_synonymous : forall x y, source_wf x -> source_wf y ->
  exists d d', parse_str (source_print x) = Ok d /\ parse_str (source_print y) = Ok d' /\
  (doc_eqb d d' = true <-> source_syn x y).
Proof.
  intros x y Wx Wy. exists (document_of x), (document_of y).
  pose proof (source_parsed x Wx) as Px. pose proof (source_parsed y Wy) as Py. split; [exact Px|]. split; [exact Py|].
  rewrite doc_eqb_same; [now apply syn_doc|apply elem_valid_ok; now apply (C48_parsed_valid _ _ Px)|apply elem_valid_ok; now apply (C48_parsed_valid _ _ Py)].
Qed.
Theorem C61_same_output : forall x y d d' ind, source_wf x -> source_wf y -> source_syn x y ->
  parse_str (source_print x) = Ok d -> parse_str (source_print y) = Ok d' ->
  doc_to_string_with_indent d ind = doc_to_string_with_indent d' ind.
Proof.
  intros x y d d' ind Wx Wy S Px Py. rewrite source_parsed in Px, Py by easy. injection Px as <-. injection Py as <-.
  apply doc_same_serialization. now apply syn_doc.
Qed.
(** <r b='0' b='2' a="&lt;">t &amp;<e/></r>   and   <r a='&#3c;' b="2"> t&#20;&#26;<e> &#20; </e></r> *)
Definition ex_one : source := Source None [] []
  (CElem (lit "r") [at_ " " "b" "" "" squote "0"; at_ " " "b" "" "" squote "2"; at_ " " "a" "" "" dquote "&lt;"] []
    (BItem (lit "t &amp;") (CEmpty (lit "e") [] []) (BEnd [])) []) [].
Definition ex_two : source := Source None [(lit " ", PComment (lit "c"))] (lit " ")
  (CElem (lit "r") [at_ " " "a" "" "" squote "&#3c;"; at_ " " "b" "" "" dquote "2"] (lit " ")
    (BItem (lit "t&#20;&#26;") (CElem (lit "e") [] [] (BEnd (lit " &#20; ")) (lit " ")) (BEnd (lit "  "))) []) (lit " end").
Example C61_example : source_wf ex_one /\ source_wf ex_two /\ source_syn ex_one ex_two.
Proof.
  split; [apply source_wfb_ok; vm_compute; reflexivity|]. split; [apply source_wfb_ok; vm_compute; reflexivity|].
  destruct (C61_synonymous ex_one ex_two) as (d & d' & H & H' & E); [apply source_wfb_ok; vm_compute; reflexivity..|].
  apply E. revert H H'. vm_compute. intros H H'. injection H as <-. injection H' as <-. reflexivity.
Qed.
Example C61_example_texts : source_print ex_one = lit "<r b='0' b='2' a=""&lt;"">t &amp;<e/></r>" /\
  source_print ex_two = lit " <!--c--> <r a='&#3c;' b=""2"" >t&#20;&#26;<e> &#20; </e >  </r> end".
Proof. split; vm_compute; reflexivity. Qed.
Print Assumptions C05_exact.
Print Assumptions C06_panic_exact.
Print Assumptions C05_replaced.
Print Assumptions C59_parsed_round_trip.
Print Assumptions C59_parsed_canonical.
Print Assumptions C59_ascii.
Print Assumptions C59_text_refuted.
Print Assumptions C60_characters.
Print Assumptions C60_unicode.
Print Assumptions C60_file_cycle.
Print Assumptions C61_synonymous.
Print Assumptions C61_same_output.

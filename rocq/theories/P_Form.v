(** C92: exactly which accepted texts are XML documents.  What XML says of tags and
    texts is in SpecForm.v. *)
From Coq Require Import List NArith Arith Bool Ascii String Lia.
From Verif Require Import Base BaseFacts Escape Dom Spec SpecDom DomFacts SerFacts Parse LexFacts LexRun SpecLex SpecParse SpecDoc DocCheck SpecXml XmlFacts XmlUnique XmlCheck P_Parse P_Xml
  ConfLex ConfDoc SpecForm FormTags.
Import ListNotations.

(** A text is accepted whose tags are those of the XML prolog [o], [l], and [el].  It
    is a well-formed document with this prolog if and only if there is no further root,
    each tag is a tag of XML, the texts between them are texts of XML, and there is
    nothing but white space before the root and after it.  That tags are balanced need
    not be asked. *)
Theorem C92_local : forall s d o l el tail, parse_str s = Ok d ->
  prolog_ok o l -> Forall (fun x => prolog_like (snd x)) (prolog_tags o l) -> splits s (prolog_tags o l ++ el) tail ->
  starts_with_element el -> ~ In 5760%N s ->
  ((exists x, well_formed x /\ xd_decl x = o /\ xd_prolog x = l /\ xml_text x = s) <->
   ~ another_root (map snd el) /\ xml_tags el /\ spaces tail).
Proof. exact form_local. Qed.
(** The same for a text without prolog. *)
Theorem C92_local_no_prolog : forall s d el tail, parse_str s = Ok d -> splits s el tail -> starts_with_element el -> ~ In 5760%N s ->
  ((exists x, well_formed x /\ xml_text x = s) <-> ~ another_root (map snd el) /\ xml_tags el /\ spaces tail).
Proof. exact form_plain_local. Qed.
(** There is no further root if and only if [el] are the tags of one element. *)
Theorem C92_exact : forall s d o l el tail, parse_str s = Ok d ->
  prolog_ok o l -> Forall (fun x => prolog_like (snd x)) (prolog_tags o l) -> splits s (prolog_tags o l ++ el) tail ->
  starts_with_element el -> ~ In 5760%N s ->
  ((exists x, well_formed x /\ xd_decl x = o /\ xd_prolog x = l /\ xml_text x = s) <->
   element_tags (map snd el) /\ xml_tags el /\ spaces tail).
Proof. exact form_exact. Qed.
Theorem C92_no_prolog : forall s d el tail, parse_str s = Ok d -> splits s el tail -> starts_with_element el -> ~ In 5760%N s ->
  ((exists x, well_formed x /\ xml_text x = s) <-> element_tags (map snd el) /\ xml_tags el /\ spaces tail).
Proof. exact form_plain. Qed.
(** The documents of C70 and C88 are well-formed. *)
Theorem C92_xml : forall x, xml_ok x -> well_formed x.
Proof. intros x (O1 & O2 & O3 & O4 & O5 & O6 & _ & O7). now repeat (split; [assumption|]). Qed.

(** * Examples *)

Ltac not_prolog := eexists _, _, _; split; [reflexivity|]; intros [[? Hp]|[? Hp]]; discriminate Hp.
Ltac no_char := let H := fresh in intro H; vm_compute in H; repeat (destruct H as [H|H]; [discriminate H|]); exact H.
(** The document with everything of C70. *)
Definition ex_root_tags : list (str * str) := mtoks (xd_gap ex_xml) (xd_root ex_xml).
Example C92_example : (exists d, parse_str (xml_text ex_xml) = Ok d) /\ prolog_ok (xd_decl ex_xml) (xd_prolog ex_xml) /\
  Forall (fun x => prolog_like (snd x)) (prolog_tags (xd_decl ex_xml) (xd_prolog ex_xml)) /\
  splits (xml_text ex_xml) (prolog_tags (xd_decl ex_xml) (xd_prolog ex_xml) ++ ex_root_tags) [10%N] /\ starts_with_element ex_root_tags /\
  ~ In 5760%N (xml_text ex_xml) /\ well_formed ex_xml /\ element_tags (map snd ex_root_tags) /\ xml_tags ex_root_tags.
Proof.
  assert (H : exists d, parse_str (xml_text ex_xml) = Ok d) by (eexists; vm_compute; reflexivity).
  assert (W : well_formed ex_xml) by (apply C92_xml; exact (proj1 C70_example)).
  assert (P : prolog_ok (xd_decl ex_xml) (xd_prolog ex_xml)) by (destruct W as (W1 & W2 & W3 & _); now split).
  assert (F : Forall (fun x => prolog_like (snd x)) (prolog_tags (xd_decl ex_xml) (xd_prolog ex_xml))).
  { unfold prolog_tags. cbn [ex_xml xd_decl xd_prolog map app fst snd]. constructor; [right; eexists; reflexivity|]. constructor; [left; eexists; reflexivity|]. constructor; [left; eexists; reflexivity|constructor]. }
  assert (S : splits (xml_text ex_xml) (prolog_tags (xd_decl ex_xml) (xd_prolog ex_xml) ++ ex_root_tags) [10%N]) by lex_by.
  assert (E : starts_with_element ex_root_tags) by not_prolog.
  assert (N : ~ In 5760%N (xml_text ex_xml)) by no_char.
  split; [exact H|]. split; [exact P|]. split; [exact F|]. split; [exact S|]. split; [exact E|]. split; [exact N|]. split; [exact W|].
  destruct H as [d H]. destruct (C92_exact _ d _ _ _ _ H P F S E N) as [K _]. destruct K as (K1 & K2 & _); [exists ex_xml; split; [exact W|]; split; [reflexivity|]; split; reflexivity|]. split; assumption.
Qed.
(** A prefix that is not declared: well-formed, but not a document of C88. *)
Definition ex_unbound : xdocument := XDocument None [] [] (MElem (lit "a") [] [] (CMore (tx "x") (MEmpty (lit "b") [attr_ "q:k" "v"] []) (CText [])) []) [] [10%N].
Example C92_plain_example : let s := lit "<a>x<b q:k=""v""/></a>" ++ [10%N] in
  let el := [([], lit "<a>"); (lit "x", lit "<b q:k=""v""/>"); ([], lit "</a>")] in
  (exists d, parse_str s = Ok d) /\ splits s el [10%N] /\ starts_with_element el /\ ~ In 5760%N s /\ well_formed ex_unbound /\ xml_text ex_unbound = s /\
  element_tags (map snd el) /\ xml_tags el.
Proof.
  intros s el. assert (H : exists d, parse_str s = Ok d) by (eexists; vm_compute; reflexivity).
  assert (W : well_formed ex_unbound) by (apply C92_xml, xml_okb_ok; vm_compute; reflexivity).
  assert (S : splits s el [10%N]) by lex_by. assert (E : starts_with_element el) by not_prolog. assert (N : ~ In 5760%N s) by no_char.
  split; [exact H|]. split; [exact S|]. split; [exact E|]. split; [exact N|]. split; [exact W|]. split; [reflexivity|].
  destruct H as [d H]. destruct (C92_no_prolog _ d _ _ H S E N) as [K _]. destruct K as (K1 & K2 & _); [exists ex_unbound; split; [exact W|reflexivity]|]. split; assumption.
Qed.

(** * Accepted texts that are not XML *)

(** [strange s]: [s] is accepted, but is not a well-formed document. *)
Definition strange (s : str) : Prop := (exists d, parse_str s = Ok d) /\ ~ exists x, well_formed x /\ xml_text x = s.
Lemma strange_by s el tail : (exists d, parse_str s = Ok d) -> splits s el tail -> starts_with_element el -> ~ In 5760%N s ->
  ~ (element_tags (map snd el) /\ xml_tags el /\ spaces tail) -> strange s.
Proof. intros [d H] S E N K. split; [now exists d|]. now rewrite (C92_no_prolog s d el tail). Qed.
Ltac strange_as el tail := apply (strange_by _ el tail); [eexists; vm_compute; reflexivity|lex_by|not_prolog|no_char|].
(** Text after the root. *)
Theorem C92_text_after_refuted : strange (lit "<a/>x").
Proof.
  strange_as [(@nil char, lit "<a/>")] (lit "x"). intros (_ & _ & S). inversion S as [|? ? Sc _]; subst. cbn in Sc. repeat (destruct Sc as [Sc|Sc]; [discriminate Sc|]). exact Sc.
Qed.
(** Two roots. *)
Theorem C92_two_roots_refuted : strange (lit "<a></a><b></b>").
Proof.
  strange_as [(@nil char, lit "<a>"); ([], lit "</a>"); ([], lit "<b>"); ([], lit "</b>")] (@nil char).
  intros (K & _). inversion K as [|t n body c O S B C]; subst. match goal with H : body ++ [c] = _ |- _ => rename H into E2 end.
  assert (c = lit "</b>") as ->. { change (body ++ [c] = [lit "</a>"; lit "<b>"] ++ [lit "</b>"]) in E2. now apply app_inj_tail in E2. }
  destruct O as (_ & _ & Nn & _ & w & r & Eo & _). destruct C as (w1 & w2 & o & Ec & _). destruct n as [|y n]; [easy|].
  assert (I1 : In y (lit "<a>")) by (rewrite Eo; apply in_or_app; right; apply in_or_app; right; now left).
  assert (I2 : In y (w1 ++ y :: n ++ w2 ++ o ++ lit ">")) by (apply in_or_app; right; now left).
  injection Ec as Ec. rewrite <- Ec in I2.
  assert (y = 62%N) as -> by (cbn in I1, I2; intuition congruence).
  apply (f_equal (fun l => count_occ N.eq_dec l 62%N)) in Ec. rewrite count_occ_app in Ec. cbn in Ec. rewrite !count_occ_app in Ec. cbn in Ec. lia.
Qed.
Lemma inner_chars el gap t txt t2 rest : xml_tags el -> el = (gap, t) :: (txt, t2) :: rest -> xml_chars txt.
Proof. intros (g & t' & r & -> & _ & _ & F) E. injection E as -> -> ->. inversion F as [|? ? [K _] _]; subst. exact K. Qed.
Lemma inner_tag el gap t txt t2 rest : xml_tags el -> el = (gap, t) :: (txt, t2) :: rest -> xml_tag t2.
Proof. intros (g & t' & r & -> & _ & _ & F) E. injection E as -> -> ->. inversion F as [|? ? [_ K] _]; subst. exact K. Qed.
(** "]]>" in a text. *)
Theorem C92_brackets_refuted : strange (lit "<a>x]]></a>").
Proof.
  strange_as [(@nil char, lit "<a>"); (lit "x]]>", lit "</a>")] (@nil char).
  intros (_ & X & _). destruct (inner_chars _ _ _ _ _ _ X eq_refl) as (l & E & _ & N). apply N. rewrite <- E. now exists (lit "x"), [].
Qed.
(** "&" that begins no reference. *)
Lemma amp_semicolon t : xml_chars t -> In 38%N t -> In 59%N t.
Proof.
  intros (l & -> & F & _). induction F as [|p l [_ K] F IH]; [easy|]. cbn [pieces_text flat_map]. intro I. apply in_app_or in I. apply in_or_app. destruct I as [I|I]; [left|right; now apply IH].
  destruct p as [c|nm|ds|ds]; cbn [piece_text] in *; [|apply in_or_app; right; apply in_or_app; right; now left..].
  exfalso. destruct I as [->|[]]. destruct (K _ eq_refl) as [_ N]. apply N. cbn. tauto.
Qed.
Theorem C92_ampersand_refuted : strange (lit "<a>x & y</a>").
Proof.
  strange_as [(@nil char, lit "<a>"); (lit "x & y", lit "</a>")] (@nil char).
  intros (_ & X & _). pose proof (amp_semicolon _ (inner_chars _ _ _ _ _ _ X eq_refl)) as K. cbn in K. intuition discriminate.
Qed.
(** "--" in a comment. *)
Theorem C92_comment_refuted : strange (lit "<a><!--x--y--></a>").
Proof.
  strange_as [(@nil char, lit "<a>"); ([], lit "<!--x--y-->"); ([], lit "</a>")] (@nil char).
  intros (_ & X & _). apply inner_tag with (2 := eq_refl) in X. destruct (bang_only _ (ex_intro _ _ eq_refl) X) as [(c & E & _ & N & _)|(c & E & _)]; [|discriminate E].
  unfold comment_text in E. change (lit "<!--" ++ lit "x--y" ++ lit "-->" = lit "<!--" ++ c ++ lit "-->") in E. apply app_inv_head, app_inv_tail in E. subst c. apply N. now exists (lit "x"), (lit "y").
Qed.
(** "/>" at the end of a closing tag. *)
Theorem C92_closing_refuted : strange (lit "<a></a/>").
Proof.
  strange_as [(@nil char, lit "<a>"); ([], lit "</a/>")] (@nil char).
  intros (_ & X & _). apply inner_tag with (2 := eq_refl) in X. apply end_only in X; [|now eexists]. destruct X as (nm & w & E & Q & W).
  change (lit "</" ++ lit "a/" ++ lit ">" = lit "</" ++ nm ++ w ++ lit ">") in E. apply app_inv_head in E. rewrite (app_assoc nm) in E. apply app_inv_tail in E.
  assert (I : In 47%N (nm ++ w)) by (rewrite <- E; cbn; tauto). apply in_app_or in I. destruct I as [I|I].
  - apply qname_head in Q. apply (name_next_stop _ _ Q I). cbn. tauto.
  - unfold spaces in W. rewrite Forall_forall in W. apply W in I. cbn in I. intuition discriminate.
Qed.
(** An attribute given twice. *)
Lemma name_a : is_name (lit "a").
Proof.
  assert (O : xml_ok (only (MEmpty (lit "a") [] []))) by (apply xml_okb_ok; vm_compute; reflexivity).
  destruct O as (_ & _ & _ & _ & _ & ((p & n & Q & _) & _) & _). apply qname_head. now exists p, n.
Qed.
Lemma attr_k v : xml_ok (only (MEmpty (lit "a") [attr_ "k" v] [])) -> attribute_ok (attr_ "k" v).
Proof. intros (_ & _ & _ & _ & _ & (_ & (F & _) & _) & _). now inversion F. Qed.
Theorem C92_twice_refuted : strange (lit "<a k=""1"" k=""2""/>").
Proof.
  strange_as [(@nil char, lit "<a k=""1"" k=""2""/>")] (@nil char).
  intros (_ & (g & t & r & E & _ & X & _) & _). injection E as <- <- <-. apply start_only in X; [|not_begin..]. destruct X as (nm & attrs & w & e & E & Q & (A & D & _) & W & He).
  change (lit "<" ++ lit "a" ++ flat_map attribute_text [attr_ "k" "1"; attr_ "k" "2"] ++ [] ++ lit "/>" = lit "<" ++ nm ++ flat_map attribute_text attrs ++ w ++ e) in E.
  apply app_inv_head in E. apply tag_unique in E.
  - destruct E as (_ & <- & _). inversion D as [|? ? N _]; subst. apply N. now left.
  - split; [exact name_a|]. split; [|constructor]. eapply Forall_impl; [apply attr_ok_shaped|]. constructor; [apply attr_k, xml_okb_ok; vm_compute; reflexivity|]. constructor; [apply attr_k, xml_okb_ok; vm_compute; reflexivity|constructor].
  - split; [now apply qname_head|]. split; [|exact W]. eapply Forall_impl; [|exact A]. apply attr_ok_shaped.
  - eexists _, _. split; [reflexivity|]. cbn. tauto.
  - destruct He as [-> | ->]; eexists _, _; (split; [reflexivity|]); cbn; tauto.
Qed.
(** And U+1680, which XML allows in names, and the crate takes for white space. *)
Theorem C92_ogham_refuted : let s := lit "<a" ++ [5760%N] ++ lit "></a>" in let el := [([], lit "<a" ++ [5760%N] ++ lit ">"); ([], lit "</a>")] in
  strange s /\ splits s el [] /\ element_tags (map snd el) /\ xml_tags el.
Proof.
  intros s el. assert (H : exists d, parse_str s = Ok d) by (eexists; vm_compute; reflexivity). assert (S : splits s el []) by lex_by.
  assert (E : starts_with_element el) by not_prolog.
  split; [|split; [exact S|split]].
  - split; [exact H|]. intros (x & W & Ex). destruct H as [d H]. destruct (accepted_goes s d [] el [] H S (Forall_nil _) E) as (c & G & Fc). rewrite <- Ex in G.
    destruct (no_prolog x c W G Fc) as [E1 E2].
    destruct (form_read s d x el [] H W) as (_ & Em & _); [rewrite E1, E2; constructor|rewrite E1, E2; exact S|exact E|exact Ex|].
    destruct W as (_ & _ & _ & _ & _ & O & _). destruct (xd_root x) as [nm attrs w|nm attrs w b w'|c0|c0|p]; [discriminate Em| |discriminate Em..].
    destruct O as ((_ & (A & _) & Sw) & _ & _).
    assert (Es : lit "<" ++ (lit "a" ++ [5760%N]) ++ lit ">" = lit "<" ++ nm ++ flat_map attribute_text attrs ++ w ++ lit ">")
      by exact (f_equal (fun l : list (str * str) => match l with [] => [] | y :: _ => snd y end) Em).
    assert (Ee : [([], lit "<a" ++ [5760%N] ++ lit ">")] ++ [([], lit "</a>")] = ((xd_gap x, start_text nm attrs w (lit ">")) :: ctoks b) ++ [(ctail b, end_text nm w')]) by exact Em.
    apply app_inj_tail in Ee. destruct Ee as [_ Ee]. apply (f_equal snd) in Ee. change (lit "</" ++ lit "a" ++ lit ">" = lit "</" ++ nm ++ w' ++ lit ">") in Ee.
    apply app_inv_head in Ee. rewrite (app_assoc nm) in Ee. apply app_inv_tail in Ee. apply app_inv_head in Es.
    assert (K : forall r, lit "a" ++ [5760%N] ++ r = lit "a" ++ flat_map attribute_text attrs ++ w ++ r -> False).
    { intros r K. apply app_inv_head in K. destruct A as [|a attrs (N & Sa & _) A]; cbn [flat_map app] in K.
      - destruct Sw as [|c1 w Sc Sw]; cbn [app] in K; [apply (f_equal (@List.length _)) in K; cbn in K; lia|]. injection K as <- _. cbn in Sc. intuition discriminate.
      - unfold attribute_text in K. destruct (at_space a) as [|c1 z]; [easy|]. cbn [app] in K. injection K as <- _. inversion Sa as [|? ? Sc _]; subst. cbn in Sc. intuition discriminate. }
    destruct nm as [|c1 nm].
    + cbn [app] in Es. destruct A as [|a attrs (N & Sa & _) A]; cbn [flat_map app] in Es.
      * destruct Sw as [|c2 w Sc Sw]; cbn [app] in Es; [discriminate Es|]. injection Es as <- _. cbn in Sc. intuition discriminate.
      * unfold attribute_text in Es. destruct (at_space a) as [|c1 z]; [easy|]. cbn [app] in Es. injection Es as <- _. inversion Sa as [|? ? Sc _]; subst. cbn in Sc. intuition discriminate.
    + cbn [app] in Ee. injection Ee as <- Ee. symmetry in Ee. apply app_eq_nil in Ee. destruct Ee as [-> _]. apply (K (lit ">")). rewrite <- app_assoc in Es. exact Es.
  - cbn [el map snd]. apply (et_pair _ (lit "a") [] (lit "</a>")); [|not_end|constructor|closes].
    opens (@nil char) [5760%N]. right. right. eexists _, _. split; [reflexivity|easy].
  - eexists _, _, _. split; [reflexivity|]. split; [constructor|].
    assert (O : xml_ok (only (MElem (lit "a" ++ [5760%N]) [] [] (CText []) []))) by (apply xml_okb_ok; vm_compute; reflexivity).
    destruct O as (_ & _ & _ & _ & _ & (((p & n & Q & _) & _) & _) & _).
    assert (O : xml_ok (only (MElem (lit "a") [] [] (CText []) []))) by (apply xml_okb_ok; vm_compute; reflexivity).
    destruct O as (_ & _ & _ & _ & _ & (((p2 & n2 & Q2 & _) & A) & _) & _). split.
    + apply xt_start. exists (lit "a" ++ [5760%N]), [], [], (lit ">"). split; [reflexivity|]. split; [now exists p, n|]. split; [apply A|]. split; [constructor|now left].
    + constructor; [|constructor]. split; [exists []; split; [reflexivity|]; split; [constructor|]; intros (a & b & E0); destruct a; discriminate E0|].
      apply xt_end. exists (lit "a"), []. split; [reflexivity|]. split; [now exists p2, n2|constructor].
Qed.
Print Assumptions C92_local.
Print Assumptions C92_local_no_prolog.
Print Assumptions C92_exact.
Print Assumptions C92_no_prolog.
Print Assumptions C92_xml.
Print Assumptions C92_text_after_refuted.
Print Assumptions C92_two_roots_refuted.
Print Assumptions C92_brackets_refuted.
Print Assumptions C92_ampersand_refuted.
Print Assumptions C92_comment_refuted.
Print Assumptions C92_closing_refuted.
Print Assumptions C92_twice_refuted.
Print Assumptions C92_ogham_refuted.

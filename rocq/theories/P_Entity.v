(** C90: references to the entities a document declares.  What they stand for is in
    SpecEntity.v. *)
From Coq Require Import List NArith Arith Bool Ascii String Lia.
From Verif Require Import Base BaseFacts Escape Dom Spec SpecDom DomFacts ApiFacts SerFacts Parse SpecLex SpecParse SpecDoc DocCheck SpecXml XmlFacts XmlCheck P_Parse P_Xml
  SpecConf ConfDoc P_Conf SpecEntity EntText EntFacts EntCount.
Import ListNotations.

(** The references stay as they are: what is read is what is said by the document in
    which they are written as text, with "&amp;".  This holds whether or not an
    entity of that name is declared, and whatever it is declared as. *)
Theorem C90_kept : forall x, named (markup_pieces (xd_root x)) -> xml_ok (literal x) -> plain_comments x -> fair_xml (literal x) ->
  exists d, parse_str (xml_text x) = Ok d /\ xml_says (literal x) d.
Proof. exact entities_kept. Qed.
(** It is the same tree that is read when they are written as text. *)
Theorem C90_same : forall x, named (markup_pieces (xd_root x)) -> xml_ok (literal x) -> plain_comments x -> fair_xml (literal x) ->
  exists d d', parse_str (xml_text x) = Ok d /\ parse_str (xml_text (literal x)) = Ok d' /\ doc_eqb d d' = true.
Proof.
  intros x N O P F. destruct (entities_kept x N O P F) as (d & H & S). destruct (fair_xml_told (literal x) O P F) as (d' & H' & S').
  exists d, d'. split; [exact H|]. split; [exact H'|]. apply (xml_says_same (literal x)); try easy; apply elem_valid_ok; [now apply (C48_parsed_valid _ _ H)|now apply (C48_parsed_valid _ _ H')].
Qed.
(** So with such a reference the document is not read as XML says, unless
    ampersands come in with what is declared. *)
Theorem C90_never : forall x, named (markup_pieces (xd_root x)) -> xml_ok (literal x) -> plain_comments x -> fair_xml (literal x) ->
  no_ampersand (xd_prolog x) -> (exists p, In p (markup_pieces (xd_root x)) /\ own p = true) ->
  ~ exists d, parse_str (xml_text x) = Ok d /\ entity_says x d.
Proof.
  intros x N O P F A I (d & H & y & X & S). destruct (entities_kept x N O P F) as (d' & H' & S'). rewrite H in H'. injection H' as <-.
  apply (entities_differ x y d); try easy; [apply O|apply F|now apply (C48_parsed_valid _ _ H)].
Qed.
(** Without such references nothing is replaced, and both readings are the same. *)
Theorem C90_none : forall x, (forall p, In p (markup_pieces (xd_root x)) -> own p = false) ->
  literal x = x /\ forall d, entity_says x d <-> xml_says x d.
Proof. intros x H. split; [now apply literal_none|now apply says_none]. Qed.

(** * Examples *)

Definition with_entities (l : list (str * list piece)) (m : markup) : xdocument :=
  XDocument None [([], MiscDoctype (Doctype (lit " ") (lit "r") None (lit " ")
    (Some (map (fun e => ([], DtEntity (lit " ") (fst e) (EdValue (lit " ") dquote (snd e)) [])) l, [], []))))] [] m [] [].
Definition ent (s : string) : piece := Ent (lit s).
(** An entity with an element, an entity that refers to another one, a reference in
    an attribute value. *)
Definition ex_entity : xdocument :=
  with_entities [(lit "n", tx "1"); (lit "who", tx "<b>you</b>"); (lit "hi", tx "Hi " ++ [ent "who"])]
    (MElem (lit "r") [Attribute (lit " ") (lit "k") [] [] dquote [ent "n"]] [] (CText ([ent "hi"] ++ tx "! " ++ [ent "lt"])) []).
Definition ex_replaced : xdocument :=
  with_entities [(lit "n", tx "1"); (lit "who", tx "<b>you</b>"); (lit "hi", tx "Hi " ++ [ent "who"])]
    (MElem (lit "r") [attr_ "k" "1"] [] (CMore (tx "Hi ") (MElem (lit "b") [] [] (CText (tx "you")) []) (CText (tx "! " ++ [ent "lt"]))) []).
Lemma text_eq E t c c' : expands_text E t c -> c = c' -> expands_text E t c'.
Proof. now intros H <-. Qed.
Lemma value_eq E t c c' : expands_value E t c -> c = c' -> expands_value E t c'.
Proof. now intros H <-. Qed.
Lemma content_eq E t c c' : expands_content E t c -> c = c' -> expands_content E t c'.
Proof. now intros H <-. Qed.
Definition namedb (l : list piece) : bool := forallb (fun p => match p with Ent nm => ncnameb nm | _ => true end) l.
Lemma namedb_ok l : namedb l = true -> named l.
Proof. unfold namedb. rewrite forallb_forall. intros H nm I. apply H in I. now apply ncnameb_ok. Qed.
Lemma silentb_ok R : contains (lit "&amp;") R || contains (lit "&#") R = false -> ~ substring (lit "&amp;") R /\ ~ substring (lit "&#") R.
Proof. rewrite orb_false_iff. intros [A B]. now apply contains_false in A, B. Qed.
Definition no_ampersandb (l : list (str * misc)) : bool :=
  forallb (fun e => negb (contains (lit "&amp;") (snd e) || contains (lit "&#") (snd e))) (entities l) &&
  forallb (fun a => match ad_default (snd a) with DfValue _ _ v => negb (existsb (N.eqb 38) (value_said v)) | _ => true end) (attdefs l).
Lemma no_ampersandb_ok l : no_ampersandb l = true -> no_ampersand l.
Proof.
  unfold no_ampersandb. rewrite andb_true_iff, !forallb_forall. intros [A B]. split.
  - intros nm R I. apply A in I. apply negb_true_iff in I. now apply silentb_ok.
  - intros nm a f q v I E J. apply B in I. cbn [snd] in I. rewrite E in I. apply negb_true_iff, not_true_iff_false in I. apply I.
    apply existsb_exists. exists 38%N. split; [easy|apply N.eqb_refl].
Qed.
(** The hypotheses of the theorems. *)
Definition keeps (x : xdocument) (s : str) : Prop :=
  xml_text x = s /\ named (markup_pieces (xd_root x)) /\ xml_ok (literal x) /\ plain_comments x /\ fair_xml (literal x) /\
  exists p, In p (markup_pieces (xd_root x)) /\ own p = true.
Lemma keeps_by x s : str_eqb (xml_text x) s && namedb (markup_pieces (xd_root x)) && toldb (literal x) (xml_text (literal x)) && existsb own (markup_pieces (xd_root x)) = true ->
  keeps x s.
Proof.
  rewrite !andb_true_iff. intros [[[T N] F] I]. apply str_eqb_eq in T. apply namedb_ok in N. apply told_by in F. destruct F as (_ & O & P & _ & F).
  apply existsb_exists in I. now split.
Qed.
Ltac keeps := apply keeps_by; vm_compute; reflexivity.
Ltac pieces := repeat first [apply xt_nil | apply xv_nil | eapply xt_piece; [reflexivity|] | eapply xv_piece; [reflexivity|]].
Lemma ex_expands : expands ex_entity ex_replaced.
Proof.
  split; [|reflexivity]. unfold ex_entity, ex_replaced, with_entities. cbn [xd_root xd_prolog]. apply xm_elem.
  - constructor; [|constructor]. split; [|reflexivity]. cbn [at_value attr_]. eapply value_eq.
    + eapply (xv_ref _ (lit "n") _ (tx "1")); [reflexivity|vm_compute; reflexivity|reflexivity| |now apply namedb_ok|pieces|pieces].
      apply (piecesb_ok [60; 38; 38]%N). vm_compute. reflexivity.
    + reflexivity.
  - apply xc_text. eapply text_eq.
    + eapply (xt_ref _ (lit "hi") _ (CText (tx "Hi " ++ [ent "who"]))); [reflexivity|vm_compute; reflexivity|reflexivity| |now apply namedb_ok| |pieces].
      * apply (proj2 markupb_ok). vm_compute. reflexivity.
      * apply xc_text. pieces.
        eapply (xt_ref _ (lit "who") _ (CMore [] (MElem (lit "b") [] [] (CText (tx "you")) []) (CText []))); [reflexivity|vm_compute; reflexivity|reflexivity| |now apply namedb_ok| |pieces].
        -- apply (proj2 markupb_ok). vm_compute. reflexivity.
        -- apply xc_more; [pieces|apply xm_elem; [constructor|apply xc_text; pieces]|apply xc_text; pieces].
    + reflexivity.
Qed.
Example C90_example : keeps ex_entity (lit "<!DOCTYPE r [<!ENTITY n ""1""><!ENTITY who ""<b>you</b>""><!ENTITY hi ""Hi &who;"">]><r k=""&n;"">&hi;! &lt;</r>") /\
  no_ampersand (xd_prolog ex_entity) /\ expands ex_entity ex_replaced /\
  xml_text (only (xd_root ex_replaced)) = lit "<r k=""1"">Hi <b>you</b>! &lt;</r>" /\ (exists d, entity_says ex_entity d) /\
  exists d, parse_str (xml_text ex_entity) = Ok d /\ get_attr (d_root d) (lit "k") = Some (lit "&n;") /\ e_children (d_root d) = [NText (lit "&hi;! <")].
Proof.
  split; [keeps|]. split; [apply no_ampersandb_ok; vm_compute; reflexivity|]. split; [apply ex_expands|]. split; [vm_compute; reflexivity|]. split.
  - assert (T : told ex_replaced (xml_text ex_replaced)) by is_told. destruct T as (_ & _ & _ & (d & _ & S) & _). exists d, ex_replaced. split; [apply ex_expands|exact S].
  - eexists. split; [vm_compute; reflexivity|]. split; vm_compute; reflexivity.
Qed.
(** An entity that is not declared: XML does not allow the document, but it is read. *)
Example C90_undeclared : let x := only (MElem (lit "r") [] [] (CText (tx "a" ++ [ent "nbsp"] ++ tx "b")) []) in
  keeps x (lit "<r>a&nbsp;b</r>") /\ ~ (exists y, expands x y) /\
  exists d, parse_str (xml_text x) = Ok d /\ e_children (d_root d) = [NText (lit "a&nbsp;b")].
Proof.
  cbv zeta. split; [keeps|]. split; [|eexists; split; vm_compute; reflexivity].
  intros (y & X & _). cbn [xd_root only] in X. inversion X as [|? ? ? ? ? ? ? _ C| | |]; subst. inversion C as [? ? T|]; subst. clear -T.
  inversion T as [|? ? ? _ T1|]; subst. inversion T1 as [|? ? ? O _|? ? ? ? ? ? _ R]; subst; discriminate.
Qed.
(** An entity that refers to itself: likewise. *)
Example C90_recursive : let x := with_entities [(lit "e", [ent "e"])] (MElem (lit "r") [] [] (CText [ent "e"]) []) in
  keeps x (lit "<!DOCTYPE r [<!ENTITY e ""&e;"">]><r>&e;</r>") /\
  exists d, parse_str (xml_text x) = Ok d /\ e_children (d_root d) = [NText (lit "&e;")].
Proof. cbv zeta. split; [keeps|]. eexists; split; vm_compute; reflexivity. Qed.
(** With ampersands in the declarations it can come out right: an entity that stands
    for the text of its own reference. *)
Definition ex_itself : xdocument :=
  with_entities [(lit "e", [Dec (lit "38")] ++ tx "#38;e;")] (MElem (lit "r") [] [] (CText [ent "e"]) []).
Theorem C90_ampersand_refuted : keeps ex_itself (lit "<!DOCTYPE r [<!ENTITY e ""&#38;#38;e;"">]><r>&e;</r>") /\
  exists d, parse_str (xml_text ex_itself) = Ok d /\ entity_says ex_itself d.
Proof.
  split; [keeps|]. pose (y := with_entities [(lit "e", [Dec (lit "38")] ++ tx "#38;e;")] (MElem (lit "r") [] [] (CText ([Dec (lit "38")] ++ tx "e;")) [])).
  destruct (parse_str (xml_text ex_itself)) as [d| | |] eqn:E; [|vm_compute in E; discriminate..]. exists d. split; [reflexivity|]. exists y. split.
  - split; [|reflexivity]. apply xm_elem; [constructor|]. apply xc_text. eapply text_eq.
    + eapply (xt_ref _ (lit "e") _ (CText ([Dec (lit "38")] ++ tx "e;"))); [reflexivity|vm_compute; reflexivity|reflexivity| |now apply namedb_ok|apply xc_text; pieces|pieces].
      apply (proj2 markupb_ok). vm_compute. reflexivity.
    + reflexivity.
  - vm_compute in E. injection E as <-. split; [reflexivity|]. split; [vm_compute; reflexivity|].
    match goal with |- says _ _ ?L => assert (T : tells no_declarations (whole_root y) L = Some []) by (vm_compute; reflexivity) end.
    apply (proj1 tells_ok) in T. destruct T as (k & K & S). rewrite app_nil_r in K. now rewrite K.
Qed.
Print Assumptions C90_kept.
Print Assumptions C90_same.
Print Assumptions C90_never.
Print Assumptions C90_none.
Print Assumptions C90_ampersand_refuted.

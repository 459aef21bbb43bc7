(** C88: exactly which XML documents are read as XML says.  What XML says is in
    SpecXml.v, which documents they are in SpecConf.v. *)
From Coq Require Import List NArith Arith Bool Ascii String Lia.
From Verif Require Import Base BaseFacts Escape Dom Spec SpecDom DomFacts SerFacts Parse SpecLex SpecParse SpecDoc DocCheck SpecXml XmlFacts XmlCheck P_Parse P_Xml
  SpecConf ConfDoc.
Import ListNotations.

(** A well-formed document is read as XML says if and only if it is fair. *)
Theorem C88_exact : forall x, xml_ok x -> plain_comments x -> (exists d, parse_str (xml_text x) = Ok d /\ xml_says x d) <-> fair_xml x.
Proof. exact conf_exact. Qed.
(** Every other one is rejected, makes the parser panic, or is read as something
    else. *)
Theorem C88_others : forall x, xml_ok x -> plain_comments x -> ~ fair_xml x <-> misread (xml_text x).
Proof.
  intros x O P. rewrite <- (conf_exact x O P). split.
  - intro N. now apply (misread_as x).
  - intros [_ M] (d & H & S). apply M. now exists x, d.
Qed.
(** The documents of C70 are among the fair ones. *)
Theorem C88_easy : forall x, xml_ok x -> easy_xml x -> fair_xml x.
Proof.
  intros x O E. apply conf_exact; [easy| |now apply C70_reads_xml].
  destruct E as [E _]. intros w c I. rewrite Forall_forall in E. apply E in I. split; apply I.
Qed.
(** The tree, and the tree only: what is read is equal to every valid document that
    says the same. *)
Theorem C88_only : forall x d d', xml_ok x -> plain_comments x -> fair_xml x -> parse_str (xml_text x) = Ok d ->
  xml_says x d' -> elem_ok (d_root d') -> doc_eqb d d' = true.
Proof.
  intros x d d' O C F P S V. destruct (fair_xml_told x O C F) as (d1 & P1 & S1). rewrite P in P1. injection P1 as <-.
  apply (xml_says_same x); [easy|easy| |easy]. apply elem_valid_ok. now apply (C48_parsed_valid _ _ P).
Qed.

(** * Examples *)

(** Checking that a document says what is written. *)
Definition tells_tag (sc : scope) (nm : str) (attrs : list attribute) (e : elem) : bool :=
  match qname_of nm with Some (p, n) => ostr_eqb p (e_prefix e) && str_eqb n (e_name e) | None => false end &&
  ostr_eqb (e_xmlns e) (declare attrs sc (e_prefix e)) &&
  forallb (fun a => match get_attr e (at_name a) with Some v => str_eqb v (value_said (at_value a)) | None => false end) attrs &&
  forallb (fun kv => existsb (fun a => str_eqb (at_name a) (fst kv)) attrs) (e_attributes e).
Lemma tells_tag_ok sc nm attrs e : tells_tag sc nm attrs e = true -> tag_says sc nm attrs e.
Proof.
  unfold tells_tag. rewrite !andb_true_iff. intros [[[H1 H2] H3] H4]. rewrite forallb_forall in H3, H4. split; [|split].
  - destruct (qname_of nm) as [[p n]|] eqn:E; [|easy]. apply andb_true_iff in H1. destruct H1 as [A B].
    apply ostr_eqb_eq in A. apply str_eqb_eq in B. subst. now apply qname_of_ok.
  - now apply ostr_eqb_eq.
  - assert (K : forall a, In a attrs -> get_attr e (at_name a) = Some (value_said (at_value a))).
    { intros a I. apply H3 in I. destruct (get_attr e (at_name a)) as [v|]; [|easy]. apply str_eqb_eq in I. now subst. }
    intros k v. split.
    + intro G. assert (I := aget_in _ _ _ G). apply H4 in I. apply existsb_exists in I. destruct I as (a & I & A).
      apply str_eqb_eq in A. cbn [fst] in A. exists a. split; [easy|]. split; [easy|]. apply K in I. rewrite A in I. congruence.
    + intros (a & I & <- & ->). now apply K.
Qed.
Fixpoint tells (sc : scope) (m : markup) (l : list node) : option (list node) :=
  match m, l with
  | MEmpty nm attrs _, NElem e :: l' =>
      if tells_tag sc nm attrs e && match e_children e with [] => true | _ => false end then Some l' else None
  | MElem nm attrs _ b _, NElem e :: l' =>
      if tells_tag sc nm attrs e && match tells_in (declare attrs sc) b (e_children e) with Some [] => true | _ => false end then Some l' else None
  | MComment c, NComment s :: l' => if str_eqb s (plain_said c) then Some l' else None
  | MCData c, NCData s :: l' => if str_eqb s (plain_said c) then Some l' else None
  | MPI _, _ => Some l
  | _, _ => None
  end
with tells_in (sc : scope) (b : content) (l : list node) : option (list node) :=
  match b with
  | CText t => drop_text l (text_says t)
  | CMore t m b =>
      match drop_text l (text_says t) with
      | Some l => match tells sc m l with Some l => tells_in sc b l | None => None end
      | None => None
      end
  end.
Lemma drop_text_inv t l r : drop_text l (text_says t) = Some r -> l = text_says t ++ r.
Proof.
  unfold text_says. destruct (forallb _ _); cbn [drop_text]; [destruct l; now intros [= <-]|]. destruct l as [|[e|s|s|s] l]; try easy.
  destruct (str_eqb _ s) eqn:E; [|easy]. apply str_eqb_eq in E. subst. cbn [drop_text]. destruct l; now intros [= <-].
Qed.
Lemma tells_ok : (forall m sc l r, tells sc m l = Some r -> exists k, l = k ++ r /\ says sc m k) /\
  (forall b sc l r, tells_in sc b l = Some r -> exists k, l = k ++ r /\ says_in sc b k).
Proof.
  apply markup_ind2.
  - intros nm attrs w sc [|[e|s|s|s] l] r; cbn [tells]; try easy. destruct (tells_tag sc nm attrs e) eqn:T; [|easy].
    destruct (e_children e) eqn:E; [|easy]. intros [= <-]. exists [NElem e]. split; [easy|]. constructor; [now apply tells_tag_ok|easy].
  - intros nm attrs w b IH w' sc [|[e|s|s|s] l] r; cbn [tells]; try easy. destruct (tells_tag sc nm attrs e) eqn:T; [|easy].
    destruct (tells_in _ _ _) as [[|? ?]|] eqn:E; try easy. intros [= <-]. apply IH in E. destruct E as (k & E & S). rewrite app_nil_r in E. subst k.
    exists [NElem e]. split; [easy|]. constructor; [now apply tells_tag_ok|easy].
  - intros c sc [|[e|s|s|s] l] r; cbn [tells]; try easy. destruct (str_eqb s _) eqn:E; [|easy]. apply str_eqb_eq in E. intros [= <-]. subst.
    eexists [_]. split; [reflexivity|constructor].
  - intros c sc [|[e|s|s|s] l] r; cbn [tells]; try easy. destruct (str_eqb s _) eqn:E; [|easy]. apply str_eqb_eq in E. intros [= <-]. subst.
    eexists [_]. split; [reflexivity|constructor].
  - intros p sc l r H. exists []. split; [destruct l; now injection H|constructor].
  - intros t sc l r H. exists (text_says t). split; [now apply drop_text_inv|constructor].
  - intros t m IHm b IHb sc l r. cbn [tells_in]. destruct (drop_text l _) as [l1|] eqn:E1; [|easy]. apply drop_text_inv in E1.
    destruct (tells sc m l1) as [l2|] eqn:E2; [|easy]. intro E3. apply IHm in E2. apply IHb in E3. destruct E2 as (k2 & -> & S2), E3 as (k3 & -> & S3).
    subst l. exists (text_says t ++ k2 ++ k3). split; [now rewrite <- !app_assoc|now constructor].
Qed.
(** [told x s]: [s] is the text of the well-formed document [x], and is read as XML
    says; so [x] is fair. *)
Definition told (x : xdocument) (s : str) : Prop :=
  xml_text x = s /\ xml_ok x /\ plain_comments x /\ (exists d, parse_str s = Ok d /\ xml_says x d) /\ fair_xml x.
Definition plain_commentsb (x : xdocument) : bool :=
  forallb (fun p => match snd p with MiscComment c => negb (starts_with (lit ">") c) && negb (starts_with (lit "->") c) | _ => true end) (xd_prolog x).
Lemma plain_commentsb_ok x : plain_commentsb x = true -> plain_comments x.
Proof.
  unfold plain_commentsb. rewrite forallb_forall. intros H w c I. apply H in I. cbn [snd] in I. rewrite andb_true_iff, !negb_true_iff in I.
  destruct I as [I1 I2]. split; intro B; apply begins_starts in B; congruence.
Qed.
Definition toldb (x : xdocument) (s : str) : bool :=
  str_eqb (xml_text x) s && xml_okb x && plain_commentsb x &&
  match parse_str s with
  | Ok d => ostr_eqb (d_declaration d) (option_map decl_inside (xd_decl x)) && (if list_eq_dec (list_eq_dec N.eq_dec) (d_dtds d) (map doctype_inside (doctype_decls (xd_prolog x))) then true else false) &&
      match tells no_declarations (whole_root x) [NElem (d_root d)] with Some [] => true | _ => false end
  | _ => false
  end.
Lemma told_by x s : toldb x s = true -> told x s.
Proof.
  unfold toldb. rewrite !andb_true_iff. intros [[[T O] C] H]. apply str_eqb_eq in T. apply xml_okb_ok in O. apply plain_commentsb_ok in C.
  assert (P : exists d, parse_str s = Ok d /\ xml_says x d).
  { destruct (parse_str s) as [d| | |]; try easy. exists d. split; [easy|]. rewrite !andb_true_iff in H. destruct H as [[H1 H2] H3].
    split; [now apply ostr_eqb_eq|]. split; [now destruct (list_eq_dec _ _ _)|].
    destruct (tells _ _ _) as [[|? ?]|] eqn:E; try easy. apply (proj1 tells_ok) in E. destruct E as (k & E & S). rewrite app_nil_r in E. now subst k. }
  subst s. split; [reflexivity|]. split; [exact O|]. split; [exact C|]. split; [exact P|]. now apply conf_exact.
Qed.
Ltac is_told := apply told_by; vm_compute; reflexivity.

(** The document with everything of C70. *)
Example C88_example : told ex_xml (xml_text ex_xml).
Proof. is_told. Qed.
(** Not every condition of C70 is needed.  White space between tags may have any
    line ends. *)
Example C88_windows : told (only (MElem (lit "a") [] [] (CMore (map Chr [13; 10; 32]%N) (MEmpty (lit "b") [attr_ "k" "1"] []) (CText (map Chr [13; 10]%N))) []))
  (lit "<a>" ++ [13; 10; 32]%N ++ lit "<b k=""1""/>" ++ [13; 10]%N ++ lit "</a>").
Proof. is_told. Qed.
(** The reference for the tabulator. *)
Example C88_tab : told (only (MElem (lit "a") [Attribute (lit " ") (lit "k") [] [] dquote [Dec (lit "9")]] [] (CText (Dec (lit "09") :: tx "x")) []))
  (lit "<a k=""&#9;"">&#09;x</a>").
Proof. is_told. Qed.
(** The prefix "xml", if it is declared. *)
Example C88_prefix_xml : told (only (MEmpty (lit "xml:a") [attr_ "xmlns:xml" "http://www.w3.org/XML/1998/namespace"] []))
  (lit "<xml:a xmlns:xml=""http://www.w3.org/XML/1998/namespace""/>").
Proof. is_told. Qed.
(** The default namespace taken back on an element with a prefix. *)
Example C88_taken_back : told (only (MElem (lit "p:a") [attr_ "xmlns:p" "u"; attr_ "xmlns" ""] [] (CText (tx "t")) [])) (lit "<p:a xmlns:p=""u"" xmlns="""">t</p:a>").
Proof. is_told. Qed.
(** Quotes and angles in pairs in a comment inside the DTD. *)
Example C88_dtd_pairs : told (with_comment " <""x""> ") (lit "<!DOCTYPE a [<!-- <""x""> -->]><a/>").
Proof. is_told. Qed.

(** White space before and after "=". *)
Definition spaced (k v : string) : attribute := Attribute (lit " ") (lit k) (lit " ") (lit " ") dquote (tx v).
Example C88_equals : told (only (MEmpty (lit "a") [attr_ "k" "v"; spaced "l" "w"] [])) (lit "<a k=""v"" l = ""w""/>").
Proof. is_told. Qed.
(** But not for the first attribute: so this document is not fair. *)
Theorem C88_equals_refuted : ~ fair_xml (only (MEmpty (lit "a") [spaced "l" "w"; attr_ "k" "v"] [])) /\ misread (lit "<a l = ""w"" k=""v""/>").
Proof.
  assert (M : misread (lit "<a l = ""w"" k=""v""/>")) by misread_by (only (MEmpty (lit "a") [spaced "l" "w"; attr_ "k" "v"] [])).
  split; [|exact M]. apply C88_others; [apply xml_okb_ok; vm_compute; reflexivity|now apply plain_commentsb_ok|exact M].
Qed.
(** A long comment before the root whose shortened form would cut a character, if it
    is not the first; if it is, the parser panics (C23). *)
Definition commented (l : list str) : xdocument := XDocument None (map (fun c => ([], MiscComment c)) l) [] (MEmpty (lit "a") [] []) [] [].
Definition umlauts : str := repeat 228%N 20.
Example C88_second_comment : told (commented [lit "x"; umlauts]) (lit "<!--x--><!--" ++ umlauts ++ lit "--><a/>").
Proof. is_told. Qed.
Theorem C88_first_comment_refuted : ~ fair_xml (commented [umlauts]) /\ misread (lit "<!--" ++ umlauts ++ lit "--><a/>").
Proof.
  assert (M : misread (lit "<!--" ++ umlauts ++ lit "--><a/>")) by misread_by (commented [umlauts]).
  split; [|exact M]. apply C88_others; [apply xml_okb_ok; vm_compute; reflexivity|now apply plain_commentsb_ok|exact M].
Qed.
(** A comment that begins with ">": of these two documents, which only differ in the
    comment, one is rejected and one is read right, as "<!x" begins what the crate
    takes for a declaration. *)
Theorem C88_plain_refuted :
  misread (lit "<!--> --><a/>") /\
  (let x := commented [lit "><!x "] in xml_ok x /\ ~ plain_comments x /\ exists d, parse_str (xml_text x) = Ok d /\ xml_says x d).
Proof.
  split; [misread_by (commented [lit "> "])|]. cbv zeta. split; [apply xml_okb_ok; vm_compute; reflexivity|]. split.
  - intro P. destruct (P [] (lit "><!x ")) as [P1 _]; [now left|]. apply P1. now exists (lit "<!x ").
  - eexists. split; [vm_compute; reflexivity|]. split; [reflexivity|]. split; [reflexivity|]. constructor; [|reflexivity].
    apply tells_tag_ok. vm_compute. reflexivity.
Qed.
Print Assumptions C88_exact.
Print Assumptions C88_others.
Print Assumptions C88_easy.
Print Assumptions C88_only.
Print Assumptions C88_equals_refuted.
Print Assumptions C88_first_comment_refuted.
Print Assumptions C88_plain_refuted.

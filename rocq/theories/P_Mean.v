(** Property C67: the document read from a text is the one the text stands for,
    in every respect.  The vocabulary is that of SpecMean.v. *)
From Coq Require Import List NArith Arith Bool Ascii String Lia Permutation.
From Verif Require Import Base Escape Dom Parse Spec SpecDom SpecLex SpecParse SpecDoc SpecEsc LexFacts DocFacts SerFacts SpecErr
  ReadFacts LoopFacts SpecMean MeanFacts P_Parse.
Import ListNotations.

(** The declaration, the DTDs, and every element, name, attribute, namespace and
    leaf of the document are those the text stands for. *)
Theorem C67_document : forall s d pr el, parse_str s = Ok d -> one_root s pr el -> stands_for pr el d.
Proof. intros s d pr el H O. apply accepts_stands with s; [now apply parsed_accepts|easy]. Qed.
(** A text stands for one document only, up to the order of attributes. *)
Theorem C67_unique : forall pr el d d', stands_for pr el d -> stands_for pr el d' -> doc_same d d'.
Proof. exact stands_for_fun. Qed.
(** So a text that can be read to its end gives the document it stands for. *)
Theorem C67_exact : forall s pr el d', one_root s pr el -> read_through s -> stands_for pr el d' ->
  exists d, parse_str s = Ok d /\ doc_same d d'.
Proof.
  intros s pr el d' O R M. apply parse_accepts in R. destruct R as [d H]. exists d. split; [easy|].
  apply C67_unique with pr el; [|easy]. now apply C67_document with s.
Qed.
(** The tree depends only on the items of the text: two texts with the same items
    give the same tree, whatever their prologs, the white space and the quotes in
    their tags and the way characters are escaped. *)
Theorem C67_items : forall s d pr el s' d' pr' el' is, parse_str s = Ok d -> one_root s pr el ->
  parse_str s' = Ok d' -> one_root s' pr' el' -> items el is -> items el' is -> elem_same (d_root d) (d_root d').
Proof.
  intros s d pr el s' d' pr' el' is H O H' O' I I'.
  destruct (C67_document _ _ _ _ H O) as (_ & _ & is1 & I1 & E1). destruct (C67_document _ _ _ _ H' O') as (_ & _ & is2 & I2 & E2).
  rewrite <- (items_fun _ _ I _ I1) in E1. rewrite <- (items_fun _ _ I' _ I2) in E2. now apply element_unique with is.
Qed.
(** The items of a text are determined, and an accepted text has some. *)
Theorem C67_items_unique : forall toks is is', items toks is -> items toks is' -> is = is'.
Proof. intros toks is is' H H'. now apply items_fun with toks. Qed.

(** The sample document and its items. *)
Definition ex_items : list item :=
  [IOpen (lit "r:a") [(lit "xmlns:r", lit "u"); (lit "xmlns", lit "d")]; ILeaf (NText (lit "x < y"));
   IOpen (lit "b") [(lit "k", lit ">")]; IClose; ILeaf (NComment (lit "c"));
   IOpen (lit "r:e") []; IOpen (lit "f") []; ILeaf (NText (lit "z")); IClose; IClose; IClose].
Ltac no_eq := let H := fresh in intro H; repeat (destruct H as [H|H]; [discriminate H|]); destruct H.
Ltac start b0 := eapply (start_tag_by _ _ _ _ _ b0); [reflexivity|reflexivity|not_begin|not_begin|vm_compute; reflexivity|
  vm_compute; reflexivity|].
Example C67_example_items : items ex_el ex_items.
Proof.
  apply (it_tok _ _ _ [] [_]); [apply xi_white; constructor|apply gi_open; [start (lit "r:a xmlns:r=""u"" xmlns='d'")|not_end]|].
  { repeat constructor;
      [apply (attr_reads_by (lit "xmlns:r") (lit "u") (lit "u") 34%N)|apply (attr_reads_by (lit "xmlns") (lit "d") (lit "d") 39%N)];
      (reflexivity || no_eq). }
  apply (it_tok _ _ _ [_] [_; _]).
  { apply xi_text; [intro W; inversion W; discriminate|apply unescapes_by; vm_compute; reflexivity|].
    intros [_ W]. inversion W. discriminate. }
  { apply gi_single; [start (lit "b k='>'/")|now exists (lit "<b k='>'")].
    repeat constructor. apply (attr_reads_by (lit "k") (lit ">") (lit ">") 39%N); (reflexivity || no_eq). }
  apply (it_tok _ _ _ [] [_]); [apply xi_white; constructor|apply (gi_comment (lit "c"))|].
  apply (it_tok _ _ _ [] [_]); [apply xi_white; constructor|apply gi_open; [start (lit "r:e"); constructor|not_end]|].
  apply (it_tok _ _ _ [] [_]); [apply xi_white; constructor|apply gi_open; [start (lit "f"); constructor|not_end]|].
  apply (it_tok _ _ _ [_] [_]).
  { apply xi_text; [intro W; inversion W; discriminate|apply unescapes_by; vm_compute; reflexivity|].
    intros [_ W]. inversion W. discriminate. }
  { apply gi_close with (lit "f"). closes. }
  apply (it_tok _ _ _ [] [_]); [apply xi_white; constructor|apply gi_close with (lit "r:e"); closes|].
  apply (it_tok _ _ _ [] [_] []); [apply xi_white; constructor|apply gi_close with (lit "r:a"); closes|constructor].
Qed.
Example C67_example : exists d, parse_str ex_doc = Ok d /\ one_root ex_doc ex_pr ex_el /\ stands_for ex_pr ex_el d /\
  element_of_items [] (d_root d) ex_items.
Proof.
  eexists. split; [vm_compute; reflexivity|]. split; [exact C35_example_one_root|].
  match goal with |- stands_for _ _ ?d /\ _ => assert (M : stands_for ex_pr ex_el d) end.
  { apply C67_document with ex_doc; [vm_compute; reflexivity|exact C35_example_one_root]. }
  split; [exact M|]. destruct M as (_ & _ & is & I & E). now rewrite <- (items_fun _ _ C67_example_items _ I) in E.
Qed.
Print Assumptions C67_document.
Print Assumptions C67_unique.
Print Assumptions C67_exact.
Print Assumptions C67_items.
Print Assumptions C67_items_unique.

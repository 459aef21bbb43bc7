(** Property C69: the document read from any accepted text, with however many
    roots, is the one the text stands for.  The vocabulary is that of SpecMany.v. *)
From Coq Require Import List NArith Arith Bool Ascii String Lia Permutation.
From Verif Require Import Base Escape Dom Parse Spec SpecDom SpecLex SpecParse SpecDoc SpecEsc LexFacts LexRun DocFacts AcceptFacts SerFacts
  SpecErr ReadFacts LoopFacts SpecMean MeanFacts SpecMany ManyFacts P_Parse P_Mean.
Import ListNotations.

Theorem C69_document : forall s d pr el, parse_str s = Ok d -> some_roots s pr el -> stands_for_roots pr el d.
Proof. intros s d pr el H O. apply accepts_stands_roots with s; [now apply parsed_accepts|easy]. Qed.
(** Every accepted text has a prolog and roots, and only one way to cut it so. *)
Theorem C69_total : forall s d, parse_str s = Ok d -> exists pr el, some_roots s pr el /\ stands_for_roots pr el d.
Proof.
  intros s d H. destruct (C35_balanced _ _ H) as (pr & el & tail & Sp & P & R & SE).
  assert (O : some_roots s pr el) by (split; [now exists tail|easy]). exists pr, el. split; [easy|now apply C69_document with s].
Qed.
Theorem C69_cut_unique : forall s pr el pr' el', some_roots s pr el -> some_roots s pr' el' -> pr = pr' /\ el = el'.
Proof.
  intros s pr el pr' el' ((tail & Sp) & P & _ & SE) ((tail' & Sp') & P' & _ & SE').
  destruct (splits_fun _ _ _ _ _ Sp Sp') as [E _]. now apply prolog_cut.
Qed.
(** A text stands for one document only, up to the order of attributes. *)
Theorem C69_unique : forall pr el d d', stands_for_roots pr el d -> stands_for_roots pr el d' -> doc_same d d'.
Proof. exact stands_for_roots_fun. Qed.
Theorem C69_exact : forall s pr el d', some_roots s pr el -> read_through s -> stands_for_roots pr el d' ->
  exists d, parse_str s = Ok d /\ doc_same d d'.
Proof.
  intros s pr el d' O R M. apply parse_accepts in R. destruct R as [d H]. exists d. split; [easy|].
  apply C69_unique with pr el; [|easy]. now apply C69_document with s.
Qed.
(** With one root this is the document of C67. *)
Theorem C69_one_root : forall s d pr el d', parse_str s = Ok d -> one_root s pr el ->
  some_roots s pr el /\ (stands_for pr el d' -> doc_same d d') /\ (stands_for_roots pr el d' -> doc_same d d').
Proof.
  intros s d pr el d' H O.
  assert (O' : some_roots s pr el) by (destruct O as (H1 & H2 & H3 & H4); split; [easy|]; split; [easy|]; split; [now apply ro_one|easy]).
  split; [easy|]. split; intro M.
  - apply C67_unique with pr el; [now apply C67_document with s|easy].
  - apply C69_unique with pr el; [now apply C69_document with s|easy].
Qed.

(** Two roots: the element [c] of the first ends up in the default namespace of the
    second, and the texts that meet are joined in the wrong order. *)
Definition two_roots : str := lit "<a>p<c/>x</a>
<b xmlns='u'>y</b>".
Definition two_el : list (str * str) :=
  [([], lit "<a>"); (lit "p", lit "<c/>"); (lit "x", lit "</a>"); ([10%N], lit "<b xmlns='u'>"); (lit "y", lit "</b>")].
Lemma two_some_roots : some_roots two_roots [] two_el.
Proof.
  split; [exists []; lex_by|]. split; [constructor|]. split.
  - apply (ro_more [lit "<a>"; lit "<c/>"; lit "</a>"] [lit "<b xmlns='u'>"; lit "</b>"]); [|apply ro_one].
    + apply (et_pair _ (lit "a") [lit "<c/>"] (lit "</a>")); [|not_end| |closes].
      * opens (@nil char) (@nil char). left. split; [easy|not_end].
      * apply (ct_elem [lit "<c/>"] []); [|constructor]. apply et_single with (lit "c"); [|now exists (lit "<c")].
        opens (@nil char) (lit "/"). right. left. easy.
    + apply (et_pair _ (lit "b") [] (lit "</b>")); [|not_end|constructor|closes].
      opens (@nil char) (lit " xmlns='u'"). right. right. eexists _, _. split; [reflexivity|easy].
  - eexists _, _, _. split; [reflexivity|]. intros [H|H]; revert H; not_begin.
Qed.
Example C69_example : exists d, parse_str two_roots = Ok d /\ some_roots two_roots [] two_el /\ stands_for_roots [] two_el d /\
  e_name (d_root d) = lit "b" /\ e_xmlns (d_root d) = Some (lit "u") /\
  match children (d_root d) with
  | [NText p; NElem c; NText yx] => p = lit "p" /\ e_name c = lit "c" /\ e_xmlns c = Some (lit "u") /\ yx = lit "yx"
  | _ => False
  end.
Proof.
  eexists. split; [vm_compute; reflexivity|]. split; [exact two_some_roots|].
  split; [apply C69_document with two_roots; [vm_compute; reflexivity|exact two_some_roots]|]. vm_compute. repeat split.
Qed.
Print Assumptions C69_document.
Print Assumptions C69_total.
Print Assumptions C69_cut_unique.
Print Assumptions C69_unique.
Print Assumptions C69_exact.
Print Assumptions C69_one_root.

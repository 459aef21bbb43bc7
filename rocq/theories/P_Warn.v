(** Property C66: the warnings printed on stderr. *)
From Coq Require Import List NArith Arith Bool Ascii String Lia.
From Verif Require Import Base Escape Dom Parse Spec SpecDom SpecLex SpecParse SpecDoc SpecEsc LexFacts SpecErr ReadFacts LoopFacts Warn SpecWarn WarnFacts.
Import ListNotations.

(** Printing does not change the result. *)
Theorem C66_result : forall s, snd (parse_str_w s) = parse_str s.
Proof. exact parse_w_result. Qed.
(** Every text has a longest readable beginning of its prolog, with unique
    warnings; they are what is printed, whether the text is accepted or not. *)
Theorem C66_printed : forall s, exists toks, prolog_tags s toks /\ warns toks (fst (parse_str_w s)) /\
  forall l, warns toks l -> l = fst (parse_str_w s).
Proof.
  intro s. destruct (parse_w_warns s) as (toks & P & W). exists toks. split; [easy|]. split; [easy|].
  intros l Hl. exact (warns_fun _ _ _ Hl W).
Qed.
Theorem C66_warnings : forall s toks, prolog_tags s toks -> warns toks (fst (parse_str_w s)).
Proof. exact parse_warnings. Qed.
(** Only comments and other "<!...>" before the root element make it print. *)
Theorem C66_silent : forall s toks, prolog_tags s toks ->
  (forall x, In x toks -> begins (lit "<?xml") (snd x) \/ begins (lit "<!DOCTYPE") (snd x)) ->
  fst (parse_str_w s) = [].
Proof.
  intros s toks P H. apply C66_warnings in P. symmetry. apply (warns_fun toks); [|exact P]. clear P.
  induction toks as [|[txt t] toks IH] using rev_ind; [constructor|].
  change (@nil str) with (@nil str ++ []). apply wn_tag.
  - apply IH. intros x Hx. apply H. apply in_or_app. now left.
  - destruct (H (txt, t)) as [B|B]; [apply in_or_app; right; now left|now apply tw_declaration|now apply tw_doctype].
Qed.
(** Serialization warns once about an indent that is neither a single tab nor
    spaces, quoting it, and otherwise not at all. *)
Theorem C66_document_indent : forall d i, snd (doc_to_string_w d i) = doc_to_string_with_indent d i /\
  (good_indent i -> fst (doc_to_string_w d i) = []) /\ (~ good_indent i -> fst (doc_to_string_w d i) = [i]).
Proof. exact doc_to_string_w_spec. Qed.
Theorem C66_element_indent : forall e i, snd (elem_to_string_w e i) = elem_to_string_with_indent e i /\
  (good_indent i -> fst (elem_to_string_w e i) = []) /\ (~ good_indent i -> fst (elem_to_string_w e i) = [i]).
Proof. exact elem_to_string_w_spec. Qed.

Example C66_example :
  fst (parse_str_w (lit "<?xml version='1.0'?><!-- one --><!ELEMENT a (b)><!-- two --><!DOCTYPE a><a/>")) =
  [lit "WARNING: Encountered comment <!-- one --> outside of root element. Comments outside of the root are not supported and will be ignored.";
   lit "WARNING: Ignoring <!ELEMENT a (b)> (not supported outside root element)"] /\
  fst (parse_str_w (lit "<!ENTITY x 'y'></a>")) = [lit "WARNING: Ignoring <!ENTITY x 'y'> (not supported outside root element)"] /\
  fst (parse_str_w (lit "<!DOCTYPE a><a><!-- inside --></a>")) = [] /\
  (forall d, fst (doc_to_string_w d (lit " x")) = [lit " x"]).
Proof.
  split; [vm_compute; reflexivity|]. split; [vm_compute; reflexivity|]. split; [vm_compute; reflexivity|].
  intro d. apply C66_document_indent. intros [H|H]; [discriminate|]. inversion H as [|? ? _ H']. inversion H' as [|? ? E]. discriminate.
Qed.
Print Assumptions C66_result.
Print Assumptions C66_printed.
Print Assumptions C66_warnings.
Print Assumptions C66_silent.
Print Assumptions C66_document_indent.
Print Assumptions C66_element_indent.

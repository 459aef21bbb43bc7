(** Property C68: exactly which documents survive being written and read back.
    "Writable" is defined in SpecDoc.v. *)
From Coq Require Import List NArith Arith Bool Ascii String Lia.
From Verif Require Import Base Escape Dom Spec SpecDom SerFacts Parse SpecLex SpecParse SpecDoc SpecMore DocCheck RoundFacts TripFacts P_Doc.
Import ListNotations.

(** Written with this indent and read again, the document is the same. *)
Definition comes_back (d : document) (ind : str) : Prop :=
  exists d', parse_str (doc_to_string_with_indent d ind) = Ok d' /\ doc_eqb d' d = true.
(** A document with ordinary names comes back if and only if it is writable. *)
Theorem C68_exact : forall d ind, elem_ok (root_element d) -> well_named (root_element d) ->
  (comes_back d ind <-> writable_doc d).
Proof.
  intros d ind Ho W. split.
  - intros (d' & P & E). now apply trip_writable with ind d'.
  - apply C31_round_trip.
Qed.
(** The indent does not matter. *)
Theorem C68_indent : forall d ind ind', elem_ok (root_element d) -> well_named (root_element d) ->
  comes_back d ind -> comes_back d ind'.
Proof. intros d ind ind' Ho W H. apply C68_exact; [easy..|]. now apply C68_exact in H. Qed.
(** A document with a DTD never comes back. *)
Theorem C68_dtd_lost : forall d ind, elem_ok (root_element d) -> well_named (root_element d) ->
  doctype_defs d <> [] -> ~ comes_back d ind.
Proof. intros d ind Ho W D H. apply C68_exact in H; [|easy..]. now destruct H as (_ & H & _). Qed.
(** At any depth, what the texts, comments, CDATA sections and attributes of a
    document that comes back are like. *)
Theorem C68_contents : forall d ind e anc, elem_ok (root_element d) -> well_named (root_element d) -> comes_back d ind ->
  chain (root_element d) (e :: anc) ->
  e_xmlns e = namespace_rule e anc /\ text_normal (e_children e) /\
  (forall t, In (NText t) (e_children e) -> t <> [] /\ survives text_special t) /\
  (forall k v, In (k, v) (e_attributes e) -> survives all_special v) /\
  (forall c, In (NComment c) (e_children e) -> comment_wf c) /\ (forall c, In (NCData c) (e_children e) -> cdata_wf c).
Proof.
  intros d ind e anc Ho Wn H C. apply C68_exact in H; [|easy..]. destruct H as (_ & _ & _ & W & _).
  assert (X : forall l, chain (root_element d) l -> match l with [] => True | e :: anc => writable anc e end).
  { induction 1 as [|c p l _ IH Hc]; [easy|]. inversion IH; subst. auto. }
  specialize (X _ C). cbn in X. inversion X as [? ? Hn Ha Hx Ht Htx Hc Hcd Hk]; subst. repeat (split; [easy|]). split; [|easy].
  intros k v Hi. now apply (Ha k v).
Qed.

Lemma well_named_writable anc e : writable anc e -> well_named e.
Proof. revert anc. induction e as [e IH] using DomFacts.elem_ind'. intros anc W. inversion W as [? ? Hn Ha Hx Ht Htx Hc Hcd Hk]; subst. constructor; [easy|intros k v Hi; now apply (Ha k v)|].
  intros c Hi. apply (IH c Hi (e :: anc)). now apply Hk.
Qed.
Example C68_example : comes_back ex_document (lit " ") /\ elem_ok (root_element ex_document) /\ well_named (root_element ex_document).
Proof.
  pose proof C31_example as W. split; [now apply C31_round_trip|]. split; [apply W|]. destruct W as (_ & _ & _ & W & _).
  now apply well_named_writable in W.
Qed.
(** Documents with ordinary names that are not writable, and do not come back. *)
Ltac no_child := let H := fresh in intros ? H; repeat (destruct H as [H|H]; [discriminate H|]); destruct H.
Ltac ordinary := split; [constructor; [constructor|constructor|no_child]|];
  split; [constructor; [apply (namedb_ok None); vm_compute; reflexivity|intros ? ? []|no_child]|].
Ltac lost := intros (d & P & E); vm_compute in P; first [discriminate P | injection P as <-; vm_compute in E; discriminate E].
Example C68_dtd_example : let d := mkDoc None [lit " r"] (mkElem (lit "r") [] [] None None []) in
  elem_ok (root_element d) /\ well_named (root_element d) /\ ~ comes_back d (lit "  ").
Proof. cbv zeta. ordinary. lost. Qed.
Example C68_blank_example : let d := ex_of [NText (lit " ")] [] in
  elem_ok (root_element d) /\ well_named (root_element d) /\ ~ comes_back d (lit "  ").
Proof. cbv zeta. ordinary. lost. Qed.
Example C68_text_example : let d := ex_of [NText [38%N; 233%N]] [] in
  elem_ok (root_element d) /\ well_named (root_element d) /\ ~ comes_back d (lit "  ").
Proof. cbv zeta. ordinary. lost. Qed.
Example C68_adjacent_example : let d := ex_of [NText (lit "x"); NText (lit "y")] [] in
  elem_ok (root_element d) /\ well_named (root_element d) /\ ~ comes_back d (lit "  ").
Proof. cbv zeta. ordinary. lost. Qed.
(** The condition on names cannot be dropped: an element whose name contains '<' is
    not writable in the sense above, and comes back all the same. *)
Theorem C68_names_refuted : let d := mkDoc None [] (mkElem (lit "a<b") [] [] None None []) in
  elem_ok (root_element d) /\ comes_back d (lit "  ") /\ ~ writable_doc d.
Proof.
  cbv zeta. split; [constructor; [constructor|constructor|no_child]|]. split.
  - eexists. split; vm_compute; reflexivity.
  - intros (_ & _ & _ & W & _). apply well_named_writable in W.
    assert (Hn : named (lit "a<b") None (lit "a<b")) by now inversion W.
    destruct (PrintFacts.named_xml _ _ _ Hn) as [Hx _]. apply PrintFacts.xml_name_chars in Hx.
    inversion Hx as [|? ? _ F]; subst. inversion F as [|? ? Hc _]; subst.
    apply PrintFacts.name_char_odd in Hc. intuition congruence.
Qed.
Print Assumptions C68_exact.
Print Assumptions C68_indent.
Print Assumptions C68_dtd_lost.
Print Assumptions C68_contents.
Print Assumptions C68_names_refuted.

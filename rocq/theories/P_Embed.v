(** Property C82: putting texts together is putting trees together. *)
From Coq Require Import List NArith Arith Bool Ascii String Lia.
From Verif Require Import Base Escape Dom Parse Spec SpecDom SpecLex SpecParse SpecDoc LexFacts LexRun DocFacts SerFacts P_Parse SpecLocal
  SpecEmbed EmbedFacts.
Import ListNotations.

(** A text accepted by the parser is cut after one of the tags of its root element,
    except the last.  The cut is a place among the children of some element of the
    tree.  Any accepted text that is one element with nothing around it may be put
    there: the result is accepted, and its tree has the element of that text at that
    place, with the namespaces that hold there.  Nothing else changes. *)
Theorem C82_embed : forall u v pr a b d, parse_str (u ++ v) = Ok d -> cut u v pr a b ->
  exists path c x y, element_at (d_root d) path = Some c /\ children c = x ++ y /\
    forall s el d2, parse_str s = Ok d2 -> alone s el ->
    exists e d3, parse_str (u ++ s ++ v) = Ok d3 /\ moved (lineage (d_root d) path []) (d_root d2) e /\
      doc_same d3 (mkDoc (d_declaration d) (d_dtds d) (put_element path (other_children c (x ++ NElem e :: y)) (d_root d))).
Proof.
  intros u v pr a b d H C. destruct (embedding _ _ _ _ _ _ H C) as (path & c & x & y & E1 & E2 & K). exists path, c, x, y.
  split; [exact E1|]. split; [exact E2|]. intros s el d2 H2 A. destruct (K _ _ _ H2 A) as (e & d3 & K1 & _ & K2 & K3).
  exists e, d3. auto.
Qed.
(** If no namespaces are declared on the elements around that place then the
    element is the one that is read from the text on its own, and the methods
    [insert] and [append] give the same tree. *)
Theorem C82_insert : forall u v pr a b d, parse_str (u ++ v) = Ok d -> cut u v pr a b ->
  exists path c x y, element_at (d_root d) path = Some c /\ children c = x ++ y /\
    (Forall declares_nothing (lineage (d_root d) path []) -> forall s el d2, parse_str s = Ok d2 -> alone s el ->
      exists c' d3, parse_str (u ++ s ++ v) = Ok d3 /\
        insert c (List.length x) (NElem (d_root d2)) = Ok c' /\ (y = [] -> append c (NElem (d_root d2)) = Ok c') /\
        children c' = x ++ NElem (d_root d2) :: y /\
        doc_same d3 (mkDoc (d_declaration d) (d_dtds d) (put_element path c' (d_root d)))).
Proof.
  intros u v pr a b d H C. destruct (embedding _ _ _ _ _ _ H C) as (path & c & x & y & E1 & E2 & K). exists path, c, x, y.
  split; [exact E1|]. split; [exact E2|]. intros F s el d2 H2 A. destruct (K _ _ _ H2 A) as (e & d3 & _ & K1 & K2 & K3).
  destruct (K1 F) as (-> & I1 & I2). exists (other_children c (x ++ NElem (d_root d2) :: y)), d3.
  split; [exact K2|]. split; [exact I1|]. split; [|split; [reflexivity|exact K3]]. intro Y. rewrite (I2 Y). now subst y.
Qed.
(** The tags of the result are those of both texts. *)
Theorem C82_tags : forall u v s pr a b el, cut u v pr a b -> alone s el -> one_root (u ++ s ++ v) pr (a ++ el ++ b).
Proof. exact embed_tags. Qed.

(** Where a namespace is declared, [append] is not enough: it hands it on to the
    element that is added but not to the elements inside it. *)
Theorem C82_append_refuted : exists d d2 d3 c', parse_str (lit "<a xmlns='u'></a>") = Ok d /\
  parse_str (lit "<b><c/></b>") = Ok d2 /\ parse_str (lit "<a xmlns='u'><b><c/></b></a>") = Ok d3 /\
  append (d_root d) (NElem (d_root d2)) = Ok c' /\ elem_eqb c' (d_root d3) = false.
Proof.
  eexists _, _, _, _. split; [vm_compute; reflexivity|]. split; [vm_compute; reflexivity|]. split; [vm_compute; reflexivity|].
  split; vm_compute; reflexivity.
Qed.
(** After the last tag there is no place for a second element, and text around the
    element is not part of it. *)
Theorem C82_after_last_refuted : exists d d2, parse_str (lit "<a></a>" ++ []) = Ok d /\ parse_str (lit "<b/>") = Ok d2 /\
  exists x, parse_str (lit "<a></a>" ++ lit "<b/>" ++ []) = Err x.
Proof.
  eexists _, _. split; [vm_compute; reflexivity|]. split; [vm_compute; reflexivity|]. eexists. vm_compute. reflexivity.
Qed.
(** What comes before the root element of a text cannot be put inside another. *)
Theorem C82_prolog_refuted : exists d d2, parse_str (lit "<a>" ++ lit "</a>") = Ok d /\
  parse_str (lit "<!DOCTYPE b><b/>") = Ok d2 /\
  exists x, parse_str (lit "<a>" ++ lit "<!DOCTYPE b><b/>" ++ lit "</a>") = Err x.
Proof.
  eexists _, _. split; [vm_compute; reflexivity|]. split; [vm_compute; reflexivity|]. eexists. vm_compute. reflexivity.
Qed.

(** A small text, inside the sample document and inside itself. *)
Definition ex_small : str := lit "<f><r:g/>t</f>".
Definition ex_small_el : list (str * str) := [([], lit "<f>"); ([], lit "<r:g/>"); (lit "t", lit "</f>")].
Lemma ex_opening_g : opening (lit "<r:g/>") (lit "r:g").
Proof. opens (@nil char) (lit "/"). right. now left. Qed.
Example C82_example_alone : alone ex_small ex_small_el /\ exists d, parse_str ex_small = Ok d.
Proof.
  split; [|eexists; vm_compute; reflexivity].
  assert (S : splits ex_small ex_small_el []) by lex_by.
  split; [|split; [apply S|now eexists]]. split; [now exists []|]. split; [constructor|]. split.
  - apply (et_pair _ (lit "f") [lit "<r:g/>"] (lit "</f>")); [exact ex_opening_f|not_end| |closes].
    apply (ct_elem [lit "<r:g/>"] []); [|constructor]. apply et_single with (lit "r:g"); [exact ex_opening_g|now exists (lit "<r:g")].
  - eexists _, _, _. split; [reflexivity|]. intros [H|H]; revert H; not_begin.
Qed.
Definition ex_u : str := lit "<?xml version='1.0'?>
<!-- hi --><r:a xmlns:r=""u"" xmlns='d'>x &lt; y<b k='>'/><!--c--><r:e>".
Definition ex_v : str := lit "<f>z</f></r:e></r:a>".
Example C82_example_cut : (exists d, parse_str (ex_u ++ ex_v) = Ok d) /\ cut ex_u ex_v ex_pr (firstn 4 ex_el) (skipn 4 ex_el) /\
  exists d3, parse_str (ex_u ++ ex_small ++ ex_v) = Ok d3 /\
    elem_to_string [] [] false (d_root d3) = lit "<r:a xmlns=""d"" xmlns:r=""u"">x &lt; y<b k=""&gt;""/><!--c--><r:e><f><r:g/>t</f><f>z</f></r:e></r:a>".
Proof.
  split; [eexists; vm_compute; reflexivity|]. split.
  - split; [exact C35_example_one_root|]. split; [|split; discriminate].
    assert (S : splits ex_u (ex_pr ++ firstn 4 ex_el) []) by lex_by. apply S.
  - eexists. split; vm_compute; reflexivity.
Qed.
Example C82_example_plain : exists d, parse_str (lit "<f><r:g/>" ++ lit "t</f>") = Ok d /\
  cut (lit "<f><r:g/>") (lit "t</f>") [] (firstn 2 ex_small_el) (skipn 2 ex_small_el) /\
  Forall declares_nothing (lineage (d_root d) [] []).
Proof.
  eexists. split; [vm_compute; reflexivity|]. split.
  - split; [exact (proj1 (proj1 C82_example_alone))|]. split; [|split; discriminate].
    assert (S : splits (lit "<f><r:g/>") ([] ++ firstn 2 ex_small_el) []) by lex_by. apply S.
  - cbn. constructor; [|constructor]. intros k v I. destruct I.
Qed.
Print Assumptions C82_embed.
Print Assumptions C82_insert.
Print Assumptions C82_tags.
Print Assumptions C82_append_refuted.
Print Assumptions C82_after_last_refuted.
Print Assumptions C82_prolog_refuted.

(** C93: white space between tags.  What "the same but for white space" and "the texts
    between the tags of an element" mean is in SpecWhite.v. *)
From Coq Require Import List NArith Arith Bool Ascii String.
From Verif Require Import Base Escape Dom Parse Spec SpecDom SerFacts LexRun SpecLex SpecParse SpecMean P_Parse SpecWhite WhiteFacts.
Import ListNotations.

(** The text of the root element of an accepted document is made of the texts between
    its tags, in order, each one either whole (if it is more than white space, once its
    references are replaced) or not at all. *)
Theorem C93_text : forall s d pr el, parse_str s = Ok d -> one_root s pr el -> exists vs, decoded el vs /\
  elem_text (d_root d) = flat_map (fun v => if white v then [] else v) vs.
Proof. exact white_text. Qed.
(** So is the text of each element: of the texts between its own tags. *)
Theorem C93_every_element : forall s d pr el c, parse_str s = Ok d -> one_root s pr el -> inside (d_root d) c ->
  exists x own y vs, el = x ++ own ++ y /\ tags_of own c /\ decoded own vs /\
    elem_text c = flat_map (fun v => if white v then [] else v) vs.
Proof. exact white_every. Qed.
(** Nothing is lost if and only if no two tags are separated by white space alone. *)
Theorem C93_kept : forall s d pr el vs, parse_str s = Ok d -> one_root s pr el -> decoded el vs ->
  (elem_text (d_root d) = List.concat vs <-> Forall (fun v => ~ blank v) vs).
Proof. exact white_kept. Qed.
(** Writing more, less or other white space where there is only white space between
    tags changes nothing: the text is still accepted, with an equal document. *)
Theorem C93_spacing : forall s d pr el s' el' tail', parse_str s = Ok d -> one_root s pr el ->
  splits s' (pr ++ el') tail' -> respaced el el' -> exists d', parse_str s' = Ok d' /\ doc_same d' d.
Proof. exact white_between. Qed.
(** All such changes are covered: the tags of the changed text are the same tags. *)
Theorem C93_respaced : forall el el', respaced el el' -> forall s pr tail, splits s (pr ++ el) tail ->
  splits (written (pr ++ el') ++ tail) (pr ++ el') tail.
Proof. exact respaced_splits. Qed.

(** * Examples *)

(** The document of the crate's documentation. *)
Definition ex_tree : str := lit "<tree>
  <speak>bark!</speak>
  <branch/>
  I'm a tree!
</tree>".
Definition nl2 : str := 10%N :: lit "  ".
Definition ex_tree_el : list (str * str) :=
  [([], lit "<tree>"); (nl2, lit "<speak>"); (lit "bark!", lit "</speak>"); (nl2, lit "<branch/>"); (nl2 ++ lit "I'm a tree!" ++ [10%N], lit "</tree>")].
Example C93_example : exists d, parse_str ex_tree = Ok d /\ one_root ex_tree [] ex_tree_el /\
  decoded ex_tree_el [nl2; lit "bark!"; nl2; nl2 ++ lit "I'm a tree!" ++ [10%N]] /\
  elem_text (d_root d) = lit "bark!" ++ nl2 ++ lit "I'm a tree!" ++ [10%N] /\
  (exists l, e_children (d_root d) = l ++ [NText (nl2 ++ lit "I'm a tree!" ++ [10%N])]) /\
  exists c, In (NElem c) (e_children (d_root d)) /\ inside (d_root d) c /\ elem_text c = lit "bark!".
Proof.
  eexists. split; [vm_compute; reflexivity|]. split; [|split; [repeat (constructor; [vm_compute; reflexivity|]); constructor|split; [vm_compute; reflexivity|split]]].
  - assert (S : splits ex_tree ex_tree_el []) by lex_by. split; [exists []; exact S|]. split; [constructor|]. split.
    + apply (et_pair _ (lit "tree") [lit "<speak>"; lit "</speak>"; lit "<branch/>"] (lit "</tree>")); [|not_end| |closes].
      { opens (@nil char) (@nil char). left. split; [easy|not_end]. }
      apply (ct_elem [lit "<speak>"; lit "</speak>"] [lit "<branch/>"]).
      * apply (et_pair _ (lit "speak") [] (lit "</speak>")); [|not_end|constructor|closes]. opens (@nil char) (@nil char). left. split; [easy|not_end].
      * apply (ct_elem [lit "<branch/>"] []); [|constructor]. apply et_single with (lit "branch"); [|now exists (lit "<branch")].
        opens (@nil char) (lit "/"). right. now left.
    + eexists _, _, _. split; [reflexivity|]. intros [H|H]; revert H; not_begin.
  - cbn [d_root e_children]. match goal with |- exists l, [?a; ?b; ?c] = _ => exists [a; b]; reflexivity end.
  - cbn [d_root e_children]. eexists. split; [left; reflexivity|]. split; [right; cbn [descendants]; left; reflexivity|reflexivity].
Qed.
(** The same tags in one line. *)
Definition ex_line_el : list (str * str) :=
  [([], lit "<tree>"); ([], lit "<speak>"); (lit "bark!", lit "</speak>"); ([9%N], lit "<branch/>"); (nl2 ++ lit "I'm a tree!" ++ [10%N], lit "</tree>")].
Example C93_example_spacing : respaced ex_tree_el ex_line_el /\
  written ex_line_el = lit "<tree><speak>bark!</speak>" ++ [9%N] ++ lit "<branch/>" ++ nl2 ++ lit "I'm a tree!" ++ [10%N] ++ lit "</tree>" /\
  exists d d', parse_str ex_tree = Ok d /\ parse_str (written ex_line_el) = Ok d' /\ doc_same d' d.
Proof.
  assert (R : respaced ex_tree_el ex_line_el).
  { assert (W : ws nl2) by (repeat (constructor; [reflexivity|]); constructor).
    constructor; [split; [reflexivity|now left]|]. constructor; [split; [reflexivity|right; split; [exact W|constructor]]|]. constructor; [split; [reflexivity|now left]|].
    constructor; [split; [reflexivity|right; split; [exact W|constructor; [reflexivity|constructor]]]|]. constructor; [split; [reflexivity|now left]|constructor]. }
  split; [exact R|]. split; [vm_compute; reflexivity|]. destruct C93_example as (d & H & O & _). exists d.
  assert (S : splits ex_tree ([] ++ ex_tree_el) []) by lex_by. pose proof (C93_respaced _ _ R _ _ _ S) as S'. rewrite app_nil_r in S'.
  destruct (C93_spacing _ _ _ _ _ _ _ H O S' R) as (d' & H' & E). exists d'. split; [exact H|]. split; [exact H'|exact E].
Qed.
(** "If an XML element contains text, then whitespace will be all preserved on parse"
    does not hold: this element contains text, and the space between two words of it is
    lost. *)
Definition ex_words : str := lit "<p>Hello <b>big</b> <i>world</i></p>".
Theorem C93_documented_refuted : exists d, parse_str ex_words = Ok d /\
  In (NText (lit "Hello ")) (e_children (d_root d)) /\ elem_text (d_root d) = lit "Hello bigworld" /\
  doc_to_string d = lit "<p>Hello <b>big</b><i>world</i></p>" ++ [10%N].
Proof. eexists. split; [vm_compute; reflexivity|]. split; [left; reflexivity|]. split; vm_compute; reflexivity. Qed.
(** A space written as a reference is lost as well. *)
Theorem C93_reference_refuted : exists d, parse_str (lit "<p>Hello <b>big</b>&#20;<i>world</i></p>") = Ok d /\
  elem_text (d_root d) = lit "Hello bigworld".
Proof. eexists. split; vm_compute; reflexivity. Qed.
Print Assumptions C93_text.
Print Assumptions C93_every_element.
Print Assumptions C93_kept.
Print Assumptions C93_spacing.
Print Assumptions C93_respaced.
Print Assumptions C93_documented_refuted.
Print Assumptions C93_reference_refuted.

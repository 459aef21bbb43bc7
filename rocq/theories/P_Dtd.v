(** C43, continued: documents with a DTD are never read back. *)
From Coq Require Import List NArith Arith Bool Ascii String Lia.
From Verif Require Import Base Escape Dom Spec SpecDom Parse SpecLex SpecParse SpecDoc ParseFacts DocFacts AcceptFacts PrintDoc SerFacts RoundFacts TripFacts DocCheck Files SpecBytes SpecFiles FilesFacts P_Files P_Parse.
Import ListNotations.

(** The DTD says something before any "<": with XML's DTDs this is the name of the root
    element. *)
Definition names_something (dtd : str) : Prop :=
  exists a c b, dtd = a ++ [c] ++ b /\ no_tag (a ++ [c]) /\ is_whitespace c = false.

Lemma long_text u z w s : no_tag u -> begins [lt_] s -> u ++ z = w ++ s -> no_tag w -> exists x, w = u ++ x.
Proof.
  revert w. induction u as [|c u IH]; intros w U [r ->] E W; [now exists w|]. destruct w as [|c' w]; cbn [app] in E.
  - injection E as -> _. destruct U. now left.
  - injection E as <- E. destruct (IH w) as [x ->]; [intro H; apply U; now right|now exists r|exact E|intro H; apply W; now right|]. now exists x.
Qed.
Lemma text_seen a c z w t l rest : no_tag (a ++ [c]) -> lexed ((a ++ [c]) ++ z) ((w, t) :: l) rest -> In c w.
Proof.
  intros N L. inversion L as [|txt s t' rest' toks tail N' T L']; subst.
  destruct (long_text (a ++ [c]) z w s) as [x ->]; [exact N|now apply (tag_at_lt s t rest')|easy|exact N'|].
  rewrite <- app_assoc. apply in_or_app. right. now left.
Qed.
Lemma not_ws c w : is_whitespace c = false -> In c w -> ~ blank_or_empty w.
Proof. intros H I B. unfold blank_or_empty in B. rewrite Forall_forall in B. rewrite B in H; easy. Qed.
Lemma prolog_blank st p n decl dtds toks decl' dtds' : prolog st p n decl dtds toks decl' dtds' -> Forall (fun x => blank_or_empty (fst x)) toks.
Proof. induction 1; constructor; easy. Qed.
Lemma dtd_rejected d ind x l : elem_ok (root_element d) -> (forall decl, declaration d = Some decl -> decl_wf decl) ->
  doctype_defs d = x :: l -> names_something x -> forall d', parse_str (doc_to_string_with_indent d ind) <> Ok d'.
Proof.
  intros O Dc Dt (a & c & b & -> & N & C) d' P. apply parsed_accepts in P. destruct (doc_written d ind O) as (i & _ & E).
  rewrite Dt in E. cbn [flat_map] in E.
  inversion P as [toks txt root rest decl0 dtds0 b0 e0 body0 tail0 m0 r0 ks0 L Pr B R]; subst. apply prolog_blank in Pr.
  assert (F : Forall (fun x => blank_or_empty (fst x)) (toks ++ [(txt, root)])) by (apply Forall_app; split; [easy|now constructor]).
  destruct (declaration d) as [decl|] eqn:Ed; cbn [decl_text app] in E.
  - specialize (Dc decl eq_refl). rewrite E in L. rewrite <- !app_assoc in L.
    assert (Z : forall q z w t m rest0, lexed (lit "<?" ++ decl ++ lit "?>" ++ q ++ z) ((w, t) :: m) rest0 -> t = lit "<?" ++ decl ++ lit "?>" /\ lexed (q ++ z) m rest0).
    { intros q z w t m rest0 L0. inversion L0 as [|? s t' rest' ? ? N' T L' E0]; subst. destruct w as [|w0 w].
      - cbn [app] in E0. subst s. destruct (tag_at_fun _ _ _ _ _ T (decl_at decl (q ++ z) Dc)) as [-> ->]. easy.
      - exfalso. apply N'. left. cbn in E0. now injection E0. }
    destruct toks as [|[w t] toks]; cbn [app] in L.
    + apply (Z [10%N]) in L as [-> _]. destruct R as [R _]. apply R. destruct Dc as ([y ->] & _). now exists (y ++ lit "?>").
    + apply (Z [10%N]) in L as [_ L]. destruct (toks ++ [(txt, root)]) as [|[w' t'] m] eqn:Em; [now destruct toks|].
      assert (L2 : exists z, lexed (((10%N :: a) ++ [c]) ++ z) ((w', t') :: m) rest).
      { eexists. cbn [app] in L |- *. repeat rewrite <- app_assoc. cbn [app] in L |- *. exact L. }
      destruct L2 as [z L2]. apply text_seen in L2; [|intros [Hx|Hx]; [discriminate|now apply N]].
      cbn [app] in F. rewrite Em in F. apply Forall_cons_iff in F as [_ F]. apply Forall_cons_iff in F as [F _]. now apply (not_ws c w').
  - rewrite E in L. destruct (toks ++ [(txt, root)]) as [|[w' t'] m] eqn:Em; [now destruct toks|].
    assert (L2 : exists z, lexed ((a ++ [c]) ++ z) ((w', t') :: m) rest).
    { eexists. repeat rewrite <- app_assoc in L. repeat rewrite <- app_assoc. cbn [app] in L |- *. exact L. }
    destruct L2 as [z L2]. apply text_seen in L2; [|exact N]. apply Forall_cons_iff in F as [F _]. now apply (not_ws c w').
Qed.

(** What is written of a document with a DTD is never accepted: not even as another
    document. *)
Theorem C43_written : forall d ind x l, elem_ok (root_element d) -> (forall decl, declaration d = Some decl -> decl_wf decl) ->
  doctype_defs d = x :: l -> names_something x -> forall d', parse_str (doc_to_string_with_indent d ind) <> Ok d'.
Proof. exact dtd_rejected. Qed.
(** So loading a document with a DTD and saving it makes a file that cannot be loaded. *)
Theorem C43_parsed_written : forall s d ind x l, parse_str s = Ok d -> doctype_defs d = x :: l -> names_something x ->
  forall d', parse_str (doc_to_string_with_indent d ind) <> Ok d'.
Proof.
  intros s d ind x l P Dt N. apply (C43_written d ind x l); [apply elem_valid_ok; now apply (C48_parsed_valid _ _ P)| |exact Dt|exact N].
  intros decl Hd. apply (accepted_decl s d); [now apply parsed_accepts|exact Hd].
Qed.
Theorem C43_file : forall d w p ind w' x l, elem_ok (root_element d) -> unicode_doc d -> (forall decl, declaration d = Some decl -> decl_wf decl) ->
  doctype_defs d = x :: l -> names_something x -> write_to_filepath_with_indent d w p ind = (w', Ok tt) -> forall d', parse_filepath w' p <> Ok d'.
Proof. intros d w p ind w' x l O U Dc Dt N H. rewrite (C52_file_back d w p ind w' O U H). now apply (C43_written d ind x l). Qed.
Example C43_example_written : exists d, parse_str (lit "<?xml version='1.0'?><!DOCTYPE b [<!ENTITY c '>'>]><b/>") = Ok d /\
  doctype_defs d = [lit " b [<!ENTITY c '>'>]"] /\ unicode_doc d /\ names_something (lit " b [<!ENTITY c '>'>]") /\
  exists x, parse_str (doc_to_string d) = Err x.
Proof.
  eexists. split; [vm_compute; reflexivity|]. split; [reflexivity|]. split; [apply unicode_docb_ok; vm_compute; reflexivity|]. split.
  - exists (lit " "), 98%N, (lit " [<!ENTITY c '>'>]"). split; [reflexivity|]. split; [|reflexivity]. intros [H|[H|[]]]; discriminate.
  - eexists. vm_compute. reflexivity.
Qed.
(** The condition is needed: an empty DTD, which XML forbids, leaves a blank line. *)
Theorem C43_empty_refuted : exists d d', parse_str (lit "<!DOCTYPE><b/>") = Ok d /\ doctype_defs d = [[]] /\ parse_str (doc_to_string d) = Ok d'.
Proof. eexists _, _. split; [vm_compute; reflexivity|]. split; [reflexivity|]. vm_compute. reflexivity. Qed.
Print Assumptions C43_written.
Print Assumptions C43_parsed_written.
Print Assumptions C43_file.
Print Assumptions C43_empty_refuted.

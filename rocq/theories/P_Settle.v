(** C95: what comes back of texts side by side, empty texts and blank texts. *)
From Coq Require Import List NArith Arith Bool Ascii String Lia.
From Verif Require Import Base Escape Dom Parse Spec SpecDom SerFacts SpecLex SpecParse SpecDoc DocCheck Files SpecBytes SpecFiles FilesFacts P_Files SpecWhite SpecMade P_Made SpecSettle SettleFacts.
Import ListNotations.

(** A written document is read back with texts side by side joined and with what is then
    empty or white space left out, and otherwise as it was, whatever the indent: if what
    is left can be written, the rest does not matter. *)
Theorem C95_back : forall d ind, elem_ok (root_element d) -> writable_doc (settled_doc d) ->
  exists d', parse_str (doc_to_string_with_indent d ind) = Ok d' /\ doc_eqb d' (settled_doc d) = true.
Proof. exact settled_back. Qed.
(** The same for files. *)
Theorem C95_file : forall d w p ind w', elem_ok (root_element d) -> unicode_doc d -> writable_doc (settled_doc d) ->
  write_to_filepath_with_indent d w p ind = (w', Ok tt) -> exists d', parse_filepath w' p = Ok d' /\ doc_eqb d' (settled_doc d) = true.
Proof. intros d w p ind w' O U W H. rewrite (C52_file_back d w p ind w' O U H). now apply C95_back. Qed.
(** So it is read back as it was exactly if there was nothing to join or to leave out. *)
Theorem C95_exact : forall d ind d', elem_ok (root_element d) -> writable_doc (settled_doc d) ->
  parse_str (doc_to_string_with_indent d ind) = Ok d' -> (doc_eqb d' d = true <-> at_rest (root_element d)).
Proof. exact settled_exact. Qed.
(** A program that uses only ordinary arguments, or empty texts, can remove and put in
    what it likes: what it saved is loaded as the joined tree. *)
Theorem C95_made : forall K any d ind, ordinary (filled K) -> made K any (root_element d) -> declares_all K (root_element d) ->
  doctype_defs d = [] -> (forall decl, declaration d = Some decl -> decl_wf decl) ->
  exists d', parse_str (doc_to_string_with_indent d ind) = Ok d' /\ doc_eqb d' (settled_doc d) = true.
Proof. exact settled_made. Qed.
(** After that there is nothing left to join. *)
Theorem C95_once : forall e, at_rest (settled e) /\ (settled e = e <-> at_rest e).
Proof. intro e. split; [apply settled_rest|apply settled_still]. Qed.
(** The nodes that are not texts stay, in order, and of the texts of an element nothing
    but white space is lost. *)
Theorem C95_others : forall e, filter (fun n => negb (Dom.is_text n)) (children (settled e)) =
  map settled_node (filter (fun n => negb (Dom.is_text n)) (children e)).
Proof. exact settled_others. Qed.
Theorem C95_ink : forall e, inked (flat_map text_of (children (settled e))) = inked (flat_map text_of (children e)).
Proof. exact settled_ink. Qed.

(** * Examples *)

(** A comment is removed from between two texts, and an empty text put in: the text is
    one when it is loaded. *)
Definition ex_gone : elem := ok_elem (bind (remove ex_mixed 1) (fun r => Ok (snd r))).
Definition ex_put : elem := set_children ex_gone ([NText (lit "x")] ++ [NText []] ++ []).
Example C95_example : ordinary (filled maybe_empty) /\ made maybe_empty true ex_gone /\ declares_all maybe_empty ex_gone /\
  children ex_gone = [NText (lit "x"); NText (lit "y")] /\ children (settled ex_gone) = [NText (lit "xy")] /\
  made maybe_empty true ex_put /\ children ex_put = [NText (lit "x"); NText []] /\ children (settled ex_put) = [NText (lit "x")].
Proof.
  split; [exact no_K_ordinary|].
  assert (X : forall t, ascii_text t -> made_node maybe_empty true (NText t)) by (intros t T; now constructor).
  assert (M : made maybe_empty true ex_mixed).
  { apply (m_new maybe_empty true (lit "a") None None None None (Some [NText (lit "x"); NComment (lit "c"); NText (lit "y")])); [now apply plain|easy|easy|easy| |now vm_compute].
    intros l n [= <-] [<-|[<-|[<-|[]]]]; [now apply X, ascii_dec| |now apply X, ascii_dec].
    apply (mn_comment maybe_empty true (lit "c")); [now apply commentb_ok|now vm_compute]. }
  assert (G : made maybe_empty true ex_gone).
  { apply (m_does maybe_empty true ex_mixed); [exact M|]. apply (do_remove maybe_empty true ex_mixed 1 (NComment (lit "c"))); [now left|now vm_compute]. }
  split; [exact G|]. split; [easy|]. split; [vm_compute; reflexivity|]. split; [vm_compute; reflexivity|].
  split; [|split; vm_compute; reflexivity]. apply (m_does maybe_empty true ex_gone); [exact G|].
  apply (do_text maybe_empty true ex_gone [NText (lit "x")] (lit "y")); [vm_compute; reflexivity|constructor|now left].
Qed.
(** A document that was read, after all comments in it are removed, at two levels; the
    second <b> has no children left. *)
Definition ex_read : elem := root_element (ok_doc (parse_str (lit "<a>x<!--c-->y<b>one <!--c-->two</b><b><!--c--></b></a>"))).
Definition ex_bare : document := doc_new (ok_elem (bind (remove_all is_comment ex_read) (fun r => Ok (fst r)))).
Example C95_example_read : unicode_doc ex_bare /\ elem_ok (root_element ex_bare) /\ writable_doc (settled_doc ex_bare) /\ ~ at_rest (root_element ex_bare) /\
  children (root_element ex_bare) <> children (settled (root_element ex_bare)) /\
  map text_of (children (settled (root_element ex_bare))) = [lit "xy"; []; []] /\
  doc_eqb (ok_doc (parse_str (doc_to_string ex_bare))) (settled_doc ex_bare) = true /\
  doc_eqb (ok_doc (parse_str (doc_to_string ex_bare))) ex_bare = false.
Proof.
  split; [apply unicode_docb_ok; vm_compute; reflexivity|]. split.
  { assert (H : forall e, (forall c, In (NElem c) (e_children e) -> elem_ok c) -> e_attributes e = [] -> e_context e = [] -> elem_ok e).
    { intros e Hc Ha Hx. constructor; [rewrite Ha; constructor|rewrite Hx; constructor|exact Hc]. }
    apply H; [|vm_compute; reflexivity|vm_compute; reflexivity]. vm_compute. intros c Hc.
    repeat (destruct Hc as [Hc|Hc]; [first [discriminate Hc|injection Hc as <-; apply H; [|reflexivity|reflexivity]; cbn; intros c Hc; repeat (destruct Hc as [Hc|Hc]; [discriminate Hc|]); destruct Hc]|]). destruct Hc. }
  split; [apply writable_docb_ok; vm_compute; reflexivity|]. split.
  - intro R. apply settled_still in R. apply (f_equal (fun e => List.length (children e))) in R. vm_compute in R. discriminate R.
  - split; [vm_compute; discriminate|]. split; [vm_compute; reflexivity|]. split; vm_compute; reflexivity.
Qed.
(** Two texts that come back each for itself need not come back when they are side by
    side: what is left must be writable. *)
Theorem C95_joined_refuted : exists s t, survives text_special s /\ survives text_special t /\ ~ survives text_special (s ++ t).
Proof.
  exists (lit "<<"), [233%N]. split; [vm_compute; reflexivity|]. split; [vm_compute; reflexivity|]. vm_compute. discriminate.
Qed.
Print Assumptions C95_back.
Print Assumptions C95_file.
Print Assumptions C95_exact.
Print Assumptions C95_made.
Print Assumptions C95_once.
Print Assumptions C95_others.
Print Assumptions C95_ink.
Print Assumptions C95_joined_refuted.

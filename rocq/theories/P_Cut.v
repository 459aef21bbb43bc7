(** C94: texts, files and streams that were cut off. *)
From Coq Require Import List NArith Arith Bool Ascii String Lia.
From Verif Require Import Base Escape Dom Parse Spec SpecDom SerFacts LexRun SpecLex SpecParse SpecDoc DocCheck Files SpecBytes SpecFiles FilesFacts P_Doc P_Files P_Parse SpecWhite SpecCut CutFacts.
Import ListNotations.

(** A beginning of an accepted text with one root element is accepted if and only if it
    goes up to the end of the root element; then it is read as the same document.
    Otherwise it is rejected, with one of the errors for texts that end early. *)
Theorem C94_cut : forall s d pr el p q, parse_str s = Ok d -> one_root s pr el -> s = p ++ q ->
  (begins (written (pr ++ el)) p /\ parse_str p = Ok d) \/
  (~ begins (written (pr ++ el)) p /\ exists x, parse_str p = Err x /\ ends_early x).
Proof. exact cut_exact. Qed.
(** A written document can lose the line end after it, but no more. *)
Theorem C94_written : forall d ind, writable_doc d -> exists d', doc_eqb d' d = true /\
  forall p q, doc_to_string_with_indent d ind = p ++ q ->
    ((q = [] \/ q = [10%N]) /\ parse_str p = Ok d') \/ ((2 <= List.length q)%nat /\ exists x, parse_str p = Err x /\ ends_early x).
Proof. exact cut_written. Qed.
(** No written document is the beginning of another one, whatever their indents. *)
Theorem C94_prefix_free : forall d1 d2 i1 i2 u, writable_doc d1 -> writable_doc d2 ->
  doc_to_string_with_indent d2 i2 = doc_to_string_with_indent d1 i1 ++ u -> u = [].
Proof. exact cut_prefix_free. Qed.
(** So documents written one after the other can be told apart: from the whole text
    follows how many there are, and each of them. *)
Theorem C94_sequence : forall l1 l2 : list (document * str), Forall (fun x => writable_doc (fst x)) l1 -> Forall (fun x => writable_doc (fst x)) l2 ->
  flat_map (fun x => doc_to_string_with_indent (fst x) (snd x)) l1 = flat_map (fun x => doc_to_string_with_indent (fst x) (snd x)) l2 ->
  Forall2 (fun x y => doc_eqb (fst x) (fst y) = true) l1 l2.
Proof. exact cut_sequence. Qed.
(** Files and streams, cut after any byte. *)
Theorem C94_file : forall d ind w p bs rest, writable_doc d -> unicode_doc d -> lookup w p = Some (File bs) -> fs_denied w p = false ->
  utf8 (doc_to_string_with_indent d ind) = bs ++ rest ->
  ((rest = [] \/ rest = [10%N]) /\ exists d', parse_filepath w p = Ok d' /\ doc_eqb d' d = true) \/
  ((2 <= List.length rest)%nat /\ exists x, parse_filepath w p = Err x /\ (x = IOError \/ ends_early x)).
Proof. exact cut_file. Qed.
Theorem C94_stream : forall d ind l bs rest, writable_doc d -> unicode_doc d -> delivers l bs ->
  utf8 (doc_to_string_with_indent d ind) = bs ++ rest ->
  ((rest = [] \/ rest = [10%N]) /\ exists d', parse_stream l = Ok d' /\ doc_eqb d' d = true) \/
  ((2 <= List.length rest)%nat /\ exists x, parse_stream l = Err x /\ (x = IOError \/ ends_early x)).
Proof. exact cut_stream. Qed.
(** After a call that saves a document, successful or not, the file is as it was before
    (only if the call failed), or is read as the document, or cannot be read; it is never
    read as another document than these. *)
Theorem C94_save : forall d ind w p w' r, writable_doc d -> unicode_doc d -> write_to_filepath_with_indent d w p ind = (w', r) ->
  (r = Ok tt /\ exists d', parse_filepath w' p = Ok d' /\ doc_eqb d' d = true) \/
  (r = Err IOError /\
    (lookup w' p = lookup w p \/ (exists d', parse_filepath w' p = Ok d' /\ doc_eqb d' d = true) \/
     exists x, parse_filepath w' p = Err x /\ (x = IOError \/ ends_early x))).
Proof. exact cut_save. Qed.

(** * Examples *)

(** The sample document of C35, cut after the root's last child. *)
Example C94_example : one_root ex_doc ex_pr ex_el /\ (exists d, parse_str ex_doc = Ok d) /\
  let p := firstn (List.length ex_doc - 6)%nat ex_doc in
  ex_doc = p ++ lit "</r:a>" /\ ~ begins (written (ex_pr ++ ex_el)) p /\ parse_str p = Err (ParsingError PRootNotClosed None).
Proof.
  split; [exact C35_example_one_root|]. split; [exact C35_example_accepted|]. cbv zeta. split; [vm_compute; reflexivity|]. split; [|vm_compute; reflexivity].
  intros [u E]. apply (f_equal (@List.length _)) in E. rewrite app_length in E. vm_compute in E. lia.
Qed.
(** A document with characters of several bytes, cut within a character, within a tag and
    before the line end. *)
Definition with_file (bs : list N) : fs := mkFs [([lit "f"], File bs)] (fun _ => false) [].
Definition small : document := mkDoc None [] (mkElem (lit "a") [NText [233%N]] [] None None []).
Example C94_example_file : writable_doc small /\ unicode_doc small /\ utf8 (doc_to_string small) = (utf8 (lit "<a>") ++ [195; 169] ++ utf8 (lit "</a>") ++ [10])%N /\
  parse_filepath (with_file (utf8 (lit "<a>") ++ [195%N])) [lit "f"] = Err IOError /\
  (exists x, parse_filepath (with_file (utf8 (lit "<a>") ++ [195; 169; 60]%N)) [lit "f"] = Err x /\ ends_early x) /\
  exists d', parse_filepath (with_file (utf8 (lit "<a>") ++ [195; 169]%N ++ utf8 (lit "</a>"))) [lit "f"] = Ok d' /\ doc_eqb d' small = true.
Proof.
  split; [apply writable_docb_ok; vm_compute; reflexivity|]. split; [apply unicode_docb_ok; vm_compute; reflexivity|]. split; [vm_compute; reflexivity|]. split; [vm_compute; reflexivity|]. split.
  - eexists. split; [vm_compute; reflexivity|]. right. right. eexists. tauto.
  - eexists. split; vm_compute; reflexivity.
Qed.
(** Saving is not atomic: when writing fails half way, what was in the file before is
    lost. *)
Definition ex_disk : fs := mkFs [([lit "f"], File (utf8 (lit "<old/>")))] (fun _ => false) [Accepts 5; WriteFails].
Theorem C94_atomic_refuted : (exists d, parse_filepath ex_disk [lit "f"] = Ok d) /\ exists w' x,
  write_to_filepath small ex_disk [lit "f"] = (w', Err IOError) /\ parse_filepath w' [lit "f"] = Err x.
Proof. split; [eexists; vm_compute; reflexivity|]. eexists _, _. split; [vm_compute; reflexivity|]. vm_compute. reflexivity. Qed.
(** A text with two root elements, which is accepted, can lose the second one. *)
Theorem C94_two_roots_refuted : exists d d', parse_str (lit "<a></a><b></b>") = Ok d /\ parse_str (lit "<a></a>") = Ok d' /\
  name (root_element d) = lit "b" /\ name (root_element d') = lit "a".
Proof. eexists _, _. split; [vm_compute; reflexivity|]. split; [vm_compute; reflexivity|]. split; reflexivity. Qed.
(** But they cannot be read one after the other: the second replaces the first, without
    notice, and takes over its children. *)
Theorem C94_append_refuted : let d1 := mkDoc None [] (mkElem (lit "a") [NText (lit "x")] [] None None []) in
  let d2 := mkDoc None [] (mkElem (lit "b") [NText (lit "y")] [] None None []) in
  writable_doc d1 /\ writable_doc d2 /\ exists d, parse_str (doc_to_string d1 ++ doc_to_string d2) = Ok d /\
    name (root_element d) = lit "b" /\ elem_text (root_element d) = lit "yx".
Proof.
  cbv zeta. split; [apply writable_docb_ok; vm_compute; reflexivity|]. split; [apply writable_docb_ok; vm_compute; reflexivity|].
  eexists. split; [vm_compute; reflexivity|]. split; reflexivity.
Qed.
Print Assumptions C94_cut.
Print Assumptions C94_written.
Print Assumptions C94_prefix_free.
Print Assumptions C94_sequence.
Print Assumptions C94_file.
Print Assumptions C94_stream.
Print Assumptions C94_save.
Print Assumptions C94_atomic_refuted.
Print Assumptions C94_two_roots_refuted.
Print Assumptions C94_append_refuted.

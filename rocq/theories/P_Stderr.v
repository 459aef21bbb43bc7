(** Property C96: the text on stderr. *)
From Coq Require Import List NArith Arith Bool Ascii String Lia.
From Verif Require Import Base Escape Dom Parse Spec SpecDom SpecLex SpecDoc SpecErr Warn SpecWarn WarnFacts Stderr SpecStderr StderrFacts.
Import ListNotations.

(** Writing prints nothing for an indent that is one tab or spaces, and one message otherwise. *)
Theorem C96_document : forall extend printable d i,
  (good_indent i -> stderr_document extend printable d i = []) /\
  (~ good_indent i -> stderr_document extend printable d i = indent_message extend printable i).
Proof.
  intros extend printable d i. destruct (doc_to_string_w_spec d i) as (_ & G & B). unfold stderr_document. split; intro H.
  - now rewrite (G H).
  - rewrite (B H). apply app_nil_r.
Qed.
Theorem C96_element : forall extend printable e i,
  (good_indent i -> stderr_element extend printable e i = []) /\
  (~ good_indent i -> stderr_element extend printable e i = indent_message extend printable i).
Proof.
  intros extend printable e i. destruct (elem_to_string_w_spec e i) as (_ & G & B). unfold stderr_element. split; intro H.
  - now rewrite (G H).
  - rewrite (B H). apply app_nil_r.
Qed.
(** The message, with the indent between double quotes. *)
Theorem C96_message : forall extend printable, ascii_like extend printable -> forall i, Forall is_char i ->
  exists b, shows_all i b /\ indent_message extend printable i = lit "WARNING: """ ++ b ++
    lit """ is not a valid indentation. Must be either 1 tab or any number of spaces. The default of 2 spaces will be used instead" ++ [10%N].
Proof. exact message_shows. Qed.
(** This is one line without control characters, whatever the indent. *)
Theorem C96_line : forall extend printable, ascii_like extend printable -> forall i,
  exists m, indent_message extend printable i = m ++ [10%N] /\ Forall visible m.
Proof. exact message_line. Qed.
(** It tells which indent was given, also in the midst of other output. *)
Theorem C96_tells : forall extend printable, ascii_like extend printable -> forall i j u v,
  Forall is_char i -> Forall is_char j ->
  indent_message extend printable i ++ u = indent_message extend printable j ++ v -> i = j.
Proof. exact message_tells. Qed.
(** Reading a text without control characters prints one line for each warning. *)
Theorem C96_clean : forall s, Forall visible s -> exists toks l, prolog_tags s toks /\ warns toks l /\
  stderr_parse s = flat_map (fun m => m ++ [10%N]) l /\ Forall (Forall visible) l.
Proof. exact clean_lines. Qed.
(** No control character is printed that the text does not contain. *)
Theorem C96_chars : forall s c, In c (stderr_parse s) -> In c s \/ c = 10%N \/ visible c.
Proof. exact stderr_chars. Qed.
(** The output tells the warnings: no two different lists of warnings are printed alike, although
    they quote the text with its line ends. *)
Theorem C96_parse_tells : forall s s', stderr_parse s = stderr_parse s' -> fst (parse_str_w s) = fst (parse_str_w s').
Proof. exact stderr_tells. Qed.
(** But line by line they cannot be told, and the author of a text chooses what is printed: any line
    at all, in a text that is accepted without error. *)
Theorem C96_any_line : forall l, ~ substring (lit "]]>") l ->
  (exists d, parse_str (forged l ++ lit "<a/>") = Ok d) /\
  exists u v, stderr_parse (forged l ++ lit "<a/>") = u ++ [10%N] ++ l ++ [10%N] ++ v.
Proof. intros l H. split; [now apply forged_accepted|now apply forged_printed]. Qed.

Definition ascii_only (c : char) : bool := ((32 <=? c) && (c <? 127))%N.
Example C96_tables : ascii_like (fun _ => false) ascii_only.
Proof. intros c _. now split. Qed.
Example C96_example_indent : forall d,
  stderr_document (fun _ => false) ascii_only d ([9; 9; 27; 10]%N ++ lit """\") =
  lit "WARNING: ""\t\t\u{1b}\n\""\\"" is not a valid indentation. Must be either 1 tab or any number of spaces. The default of 2 spaces will be used instead" ++ [10%N].
Proof.
  intro d. rewrite (proj2 (C96_document _ _ d _)); [vm_compute; reflexivity|].
  intros [H|H]; [discriminate|]. inversion H as [|? ? E]. discriminate.
Qed.
Example C96_example_forged :
  stderr_parse (forged (lit "ERROR: disk full") ++ lit "<a/>") =
  lit "WARNING: Ignoring <![CDATA[" ++ [10%N] ++ lit "ERROR: disk full" ++ [10%N] ++ lit "]]> (not supported outside root element)" ++ [10%N].
Proof. vm_compute. reflexivity. Qed.
(** A forged warning looks like a real one, line by line. *)
Theorem C96_line_refuted : ~ forall s m, substring ([10%N] ++ lit "WARNING: Ignoring " ++ m ++ [10%N]) ([10%N] ++ stderr_parse s) -> In (lit "WARNING: Ignoring " ++ m) (fst (parse_str_w s)).
Proof.
  intro H. specialize (H (forged (lit "WARNING: Ignoring <!x>") ++ lit "<a/>") (lit "<!x>")).
  assert (K : In (lit "WARNING: Ignoring " ++ lit "<!x>") (fst (parse_str_w (forged (lit "WARNING: Ignoring <!x>") ++ lit "<a/>")))).
  { apply H. exists ([10%N] ++ lit "WARNING: Ignoring <![CDATA["), (lit "]]> (not supported outside root element)" ++ [10%N]). vm_compute. reflexivity. }
  vm_compute in K. destruct K as [K|[]]. discriminate K.
Qed.
Example C96_example_clean : Forall visible (lit "<!-- a --><!ELEMENT a ANY><a/>") /\
  stderr_parse (lit "<!-- a --><!ELEMENT a ANY><a/>") =
  lit "WARNING: Encountered comment <!-- a --> outside of root element. Comments outside of the root are not supported and will be ignored." ++ [10%N] ++
  lit "WARNING: Ignoring <!ELEMENT a ANY> (not supported outside root element)" ++ [10%N].
Proof. split; [apply visible_by|]; vm_compute; reflexivity. Qed.
Print Assumptions C96_document.
Print Assumptions C96_element.
Print Assumptions C96_message.
Print Assumptions C96_line.
Print Assumptions C96_tells.
Print Assumptions C96_clean.
Print Assumptions C96_chars.
Print Assumptions C96_parse_tells.
Print Assumptions C96_any_line.
Print Assumptions C96_line_refuted.

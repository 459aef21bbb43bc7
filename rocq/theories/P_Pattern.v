(** Property C78: the patterns as they are written in the source. *)
From Coq Require Import List NArith Arith Bool Ascii String Lia.
From Verif Require Import Base Escape Dom Parse Patterns SpecPattern PatternFacts.
Import ListNotations.

(** * They are patterns, and read as expected *)

Theorem C78_reads :
  compile attr_name_source = Some name_reading /\ compile elem_name_source = Some name_reading /\
  compile whitespace_source = Some whitespace_reading /\ compile blank_source = Some blank_reading /\
  compile tag_source = Some tag_reading.
Proof. repeat split; vm_compute; reflexivity. Qed.

(** The reader of patterns also says no. *)
Example C78_reads_not :
  map compile [lit "("; lit "a)"; lit "[a"; lit "*a"; lit "[z-a]"; lit "\"; lit "[]"; lit "\x{110000}"; lit "\xG0"; lit "a{2}"] =
  repeat None 10.
Proof. vm_compute. reflexivity. Qed.
Example C78_reads_more :
  compile (lit "a|b*?(c\.)+") =
  Some (POr (all_of [one 97%N]) (all_of [PStar (one 98%N); several (all_of [one 99%N; one 46%N])])) /\
  compile (lit "(?ms)^.$") = Some (all_of [PBegin true; any_char; PEnd true]) /\
  compile (lit "[^a-c_]") = Some (all_of [PClass (Regex.mkCls true [(97, 99); (95, 95)]%N)]).
Proof. repeat split; vm_compute; reflexivity. Qed.

(** * The checks of the crate are the patterns *)

Theorem C78_attr_name : forall name, check_attr_name name = Ok tt <-> found attr_name_source name.
Proof. intro name. rewrite <- name_found. unfold check_attr_name. now destruct (name_regex name). Qed.
Theorem C78_elem_name : forall name, check_elem_name name = Ok tt <-> found elem_name_source name.
Proof. intro name. change elem_name_source with attr_name_source. rewrite <- name_found. unfold check_elem_name. now destruct (name_regex name). Qed.
Theorem C78_whitespace : forall text, text_is_whitespace text = true <-> found whitespace_source text.
Proof. exact whitespace_found. Qed.
Theorem C78_blank : forall text, real_text text = Ok None <-> found blank_source text.
Proof.
  intro text. rewrite <- blank_found. unfold real_text. destruct (is_blank text); [easy|].
  now destruct (unescape text).
Qed.
Theorem C78_tag : forall text, check_element_tag text = Ok tt <-> found tag_source text.
Proof. exact tag_found. Qed.

(** * What can be seen from outside *)

Theorem C78_set_attr : forall e k v, fst (set_attr e k v) = Ok tt <-> found attr_name_source k.
Proof.
  intros e k v. rewrite <- name_found. unfold set_attr, check_attr_name. now destruct (name_regex k).
Qed.
Theorem C78_new : forall name, (exists e, new_from_name name = Ok e) <-> found elem_name_source name.
Proof.
  intro name. change elem_name_source with attr_name_source. rewrite <- name_found. unfold new_from_name, check_elem_name.
  destruct (name_regex name); cbn; [|now split; [intros [e E]|]]. split; [easy|]. intros _. now eexists.
Qed.

(** * In plain words *)

Theorem C78_white_space : forall c, is_whitespace c = true <-> In c white_space.
Proof. exact white_table. Qed.
Theorem C78_name_says : forall name, found attr_name_source name <->
  exists c r, name = c :: r /\ (In c (lit "_abcdefghijklmnopqrstuvwxyzABCDEFGHIJKLMNOPQRSTUVWXYZ")) /\
    forall x, In x r -> ~ In x white_space.
Proof.
  intro name. rewrite <- name_found. destruct name as [|c r]; cbn [name_regex].
  - split; [easy|]. now intros (c & r & ? & _).
  - rewrite andb_true_iff, forallb_forall. assert (is_name_start c = true <-> In c (lit "_abcdefghijklmnopqrstuvwxyzABCDEFGHIJKLMNOPQRSTUVWXYZ")) as ->.
    { unfold is_name_start, in_range. rewrite !orb_true_iff, !andb_true_iff, !N.leb_le, !N.eqb_eq. cbn [lit list_ascii_of_string map In].
      cbn. lia. }
    split.
    + intros [A B]. exists c, r. split; [easy|]. split; [easy|]. intros x I W. apply white_table in W. specialize (B x I). now rewrite W in B.
    + intros (c' & r' & [= <- <-] & A & B). split; [easy|]. intros x I. specialize (B x I). rewrite <- white_table in B. now destruct (is_whitespace x).
Qed.
Theorem C78_whitespace_says : forall text, found whitespace_source text <-> text <> [] /\ forall c, In c text -> In c white_space.
Proof.
  intro text. rewrite <- whitespace_found. unfold text_is_whitespace. destruct text as [|c t]; [now split; [|intros [H _]]|].
  rewrite forallb_forall. split.
  - intro H. split; [easy|]. intros x I. apply white_table. auto.
  - intros [_ H] x I. apply white_table. auto.
Qed.
Theorem C78_blank_says : forall text, found blank_source text <-> forall c, In c text -> In c white_space.
Proof.
  intro text. rewrite <- blank_found. unfold is_blank. rewrite forallb_forall. split; intros H x I; apply white_table; auto.
Qed.

(** * Examples *)

Example C78_names_example : found attr_name_source (lit "a<&:=/>""'") /\ ~ found attr_name_source (lit "a b") /\
  ~ found attr_name_source (lit "1a") /\ ~ found attr_name_source [] /\ ~ found attr_name_source (lit "a" ++ [0x2003%N]) /\
  ~ found attr_name_source [233%N].
Proof.
  rewrite <- !name_found. repeat split; vm_compute; easy.
Qed.
Example C78_white_example : found whitespace_source [0x85; 0xA0; 0x3000]%N /\ ~ found whitespace_source [] /\ found blank_source [] /\
  ~ found blank_source [0x200B]%N.
Proof. rewrite <- !whitespace_found, <- !blank_found. repeat split; vm_compute; easy. Qed.
Example C78_tag_example : found tag_source (lit "junk <a b=""1""> junk") /\ found tag_source (lit "</a>") /\
  ~ found tag_source (lit "<1>") /\ ~ found tag_source (lit "< a>") /\ ~ found tag_source (lit "<a b>").
Proof. rewrite <- !tag_found. repeat split; vm_compute; easy. Qed.
(** The beginning and the end of a line are not the beginning and the end of the
    text. *)
Example C78_lines : ~ found whitespace_source (lit " " ++ [10%N] ++ lit "a") /\ ~ found blank_source (lit "a" ++ [10%N] ++ lit " ").
Proof. rewrite <- !whitespace_found, <- !blank_found. split; vm_compute; easy. Qed.
Print Assumptions C78_reads.
Print Assumptions C78_attr_name.
Print Assumptions C78_elem_name.
Print Assumptions C78_whitespace.
Print Assumptions C78_blank.
Print Assumptions C78_tag.
Print Assumptions C78_set_attr.
Print Assumptions C78_new.
Print Assumptions C78_white_space.
Print Assumptions C78_name_says.
Print Assumptions C78_whitespace_says.
Print Assumptions C78_blank_says.

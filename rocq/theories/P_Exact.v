(** Property C64: exactly which texts are accepted, which rejected, and which make
    the parser panic.  The vocabulary is that of SpecErr.v. *)
From Coq Require Import List NArith Arith Bool Ascii String Lia.
From Verif Require Import Base Escape Dom Parse Spec SpecDom SpecLex SpecParse SpecDoc SpecEsc LexFacts SpecErr ReadFacts LoopFacts.
Import ListNotations.

(** A text is accepted if and only if it can be read to its end. *)
Theorem C64_accepted : forall s, (exists d, parse_str s = Ok d) <-> read_through s.
Proof. exact parse_accepts. Qed.
(** It is rejected if and only if something is wrong where reading stops. *)
Theorem C64_rejected : forall s, (exists x, parse_str s = Err x) <-> exists x, rejected s x.
Proof.
  intro s. split; intros [x H].
  - exists x. now apply parse_rejects.
  - apply parse_rejected in H. destruct H as (y & H & _). now exists y.
Qed.
(** The error is the one described, up to the choice among several invalid
    attribute names of one tag. *)
Theorem C64_error : forall s x, parse_str s = Err x -> rejected s x /\ forall y, rejected s y -> same_report y x.
Proof.
  intros s x H. split; [now apply parse_rejects|]. intros y Hy. apply parse_rejected in Hy. destruct Hy as (z & Hz & S). congruence.
Qed.
(** The parser panics if and only if it comes to a text or value with a reference
    that cannot be decoded, or to a tag that cannot be shortened for a message. *)
Theorem C64_panics : forall s, parse_str s = Panic <-> crashes s.
Proof. exact parse_crashes. Qed.
(** The description of the three cases is complete and without overlap. *)
Theorem C64_cases : forall s,
  (read_through s \/ (exists x, rejected s x) \/ crashes s) /\
  ~ (read_through s /\ exists x, rejected s x) /\ ~ (read_through s /\ crashes s) /\ ~ ((exists x, rejected s x) /\ crashes s).
Proof.
  intro s. split.
  - pose proof (parse_reads s) as P. destruct (parse_str s) as [d|x| |]; [now left|right; left; now exists x|right; now right|contradiction].
  - split; [|split].
    + intros [A [x B]]. apply parse_accepts in A. apply parse_rejected in B. destruct A as [d A]. destruct B as (y & B & _). congruence.
    + intros [A B]. apply parse_accepts in A. apply parse_crashes in B. destruct A as [d A]. congruence.
    + intros [[x A] B]. apply parse_rejected in A. apply parse_crashes in B. destruct A as (y & A & _). congruence.
Qed.

(** A text that is accepted, with a prolog, attributes, references, comments and
    CDATA; one that is rejected; three that panic. *)
Example C64_example :
  read_through (lit "<?xml version='1.0'?><!-- c --><!DOCTYPE r> <p:r xmlns:p=""u"" a='&lt;'>t&amp;<b/><!--x--><![CDATA[<]]></p:r> ") /\
  (exists x, rejected (lit "<r><a></r>") x) /\
  crashes (lit "<r>&#263c; a</r>") /\
  crashes (lit "<r a='&#263c; a'/>") /\
  crashes (lit "<!--" ++ repeat 233%N 15 ++ lit "--><r/>").
Proof.
  split; [|split; [|split; [|split]]].
  - apply C64_accepted. eexists. vm_compute. reflexivity.
  - apply C64_rejected. eexists. vm_compute. reflexivity.
  - apply C64_panics. vm_compute. reflexivity.
  - apply C64_panics. vm_compute. reflexivity.
  - apply C64_panics. vm_compute. reflexivity.
Qed.
Print Assumptions C64_accepted.
Print Assumptions C64_rejected.
Print Assumptions C64_error.
Print Assumptions C64_panics.
Print Assumptions C64_cases.

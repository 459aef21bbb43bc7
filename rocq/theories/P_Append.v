(** Property C65: an error or panic does not depend on the text after it, unless
    the text ends too early. *)
From Coq Require Import List NArith Arith Bool Ascii String Lia.
From Verif Require Import Base Escape Dom Parse Spec SpecDom SpecLex SpecParse SpecDoc SpecEsc LexFacts SpecErr ReadFacts LoopFacts AppendFacts.
Import ListNotations.

(** Whatever is added to a text that makes the parser panic, it panics. *)
Theorem C65_panic : forall s u, parse_str s = Panic -> parse_str (s ++ u) = Panic.
Proof. exact panic_more. Qed.
(** An error stays the same whatever is added, if and only if the text does not
    end within a tag or before the root element is closed. *)
Theorem C65_error : forall s x, parse_str s = Err x ->
  (~ incomplete s <-> forall u, exists y, parse_str (s ++ u) = Err y /\ same_report x y).
Proof. exact final_error. Qed.
(** In a text that does end so, something can be added after which the parser
    does not report the same error. *)
Theorem C65_change : forall s x, incomplete s -> parse_str s = Err x ->
  exists u, forall y, parse_str (s ++ u) = Err y -> ~ same_report x y.
Proof. exact incomplete_changes. Qed.
(** Such a text is always rejected, with one of four messages. *)
Theorem C65_incomplete : forall s, incomplete s -> exists x, parse_str s = Err x /\
  (x = ParsingError PNoContent None \/ x = ParsingError PRootNotClosed None \/
   exists loc, x = ParsingError PNoClose (Some loc) \/ x = ParsingError PInvalidSyntax (Some loc)).
Proof. exact incomplete_reports. Qed.
(** A beginning of an accepted text is accepted itself or ends too early. *)
Theorem C65_prefix : forall s u d, parse_str (s ++ u) = Ok d -> (exists d', parse_str s = Ok d') \/ incomplete s.
Proof. exact prefix_outcome. Qed.
(** Text without '<' after an accepted text is ignored. *)
Theorem C65_trailing : forall s u d, parse_str s = Ok d -> no_tag u -> parse_str (s ++ u) = Ok d.
Proof. exact trailing_text. Qed.

(** "<r><a></r>" fails for good: whatever is added, the message is the same.
    "<r><a" and "<r><a>" are only incomplete.  "<r/>" followed by text is accepted. *)
Example C65_example :
  (forall u, exists y, parse_str (lit "<r><a></r>" ++ u) = Err y /\
     same_report (ParsingError (PCloseMismatch (lit "</r>") (lit "a")) (Some (1, 8))) y) /\
  incomplete (lit "<r><a") /\ incomplete (lit "<r><a>") /\ (exists d, parse_str (lit "<r/> & more") = Ok d).
Proof.
  assert (M : forall s x, parse_str s = Err x -> (forall loc, ~ (x = ParsingError PNoContent None \/ x = ParsingError PRootNotClosed None \/
     x = ParsingError PNoClose (Some loc) \/ x = ParsingError PInvalidSyntax (Some loc))) -> ~ incomplete s).
  { intros s x E H I. destruct (C65_incomplete _ I) as (y & E' & C). rewrite E in E'. injection E' as <-.
    destruct C as [C|[C|[loc [C|C]]]]; [apply (H (0, 0))|apply (H (0, 0))|apply (H loc)|apply (H loc)]; auto. }
  split; [|split; [|split]].
  - assert (E : parse_str (lit "<r><a></r>") = Err (ParsingError (PCloseMismatch (lit "</r>") (lit "a")) (Some (1, 8)))) by (vm_compute; reflexivity).
    apply (C65_error _ _ E). apply (M _ _ E). intros loc [C|[C|[C|C]]]; discriminate.
  - assert (exists d, parse_str (lit "<r><a" ++ lit "/></r>") = Ok d) as [d E] by (eexists; vm_compute; reflexivity).
    apply C65_prefix in E. destruct E as [[d' E]|I]; [|exact I]. vm_compute in E. discriminate.
  - assert (exists d, parse_str (lit "<r><a>" ++ lit "</a></r>") = Ok d) as [d E] by (eexists; vm_compute; reflexivity).
    apply C65_prefix in E. destruct E as [[d' E]|I]; [|exact I]. vm_compute in E. discriminate.
  - eexists. vm_compute. reflexivity.
Qed.
Print Assumptions C65_panic.
Print Assumptions C65_error.
Print Assumptions C65_change.
Print Assumptions C65_incomplete.
Print Assumptions C65_prefix.
Print Assumptions C65_trailing.

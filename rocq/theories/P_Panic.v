(** Property C80: which calls can panic.  [crashes] (SpecErr.v) describes the texts on
    which [parse_str] panics, [unescapes t None] (SpecEsc.v) those on which
    [unescape] does. *)
From Coq Require Import List NArith Arith Bool Ascii String Lia.
From Verif Require Import Base Escape Dom Nodes Parse Files Spec SpecDom SpecLex SpecParse SpecDoc SpecEsc Orders SpecOrders OrdersFacts
  SpecPanic PanicFacts DomFacts NodeFacts PosFacts ParseFacts LexFacts UnescFacts SpecErr ReadFacts LoopFacts.
Import ListNotations.

(** A program made of calls of the API panics only if one of the texts it parses
    makes the parser panic, or if a change the program makes itself panics.  No
    other call does, whatever tree it is made on and whatever it is given. *)
Theorem C80_programs : forall s o, fair o -> run o s = Panic ->
  (exists text, In text (texts s) /\ crashes text) \/ (exists f e, In f (changes s) /\ f e = Panic).
Proof. exact run_panics. Qed.
(** Nor does a call go on for ever. *)
Theorem C80_programs_end : forall s o, fair o -> run o s = Fuel -> exists f e, In f (changes s) /\ f e = Fuel.
Proof. exact run_ends. Qed.
(** So a program that parses nothing but ASCII texts without "&#", and whose own
    changes do not panic, ends with an element or an error, ... *)
Theorem C80_ascii_programs : forall s o, fair o -> Forall (fun text => all_ascii text /\ ~ substring (lit "&#") text) (texts s) ->
  Forall (fun f => forall e, returns (f e)) (changes s) -> returns (run o s).
Proof. exact run_ascii. Qed.
(** ... and one that parses nothing always does. *)
Theorem C80_programs_without_parsing : forall s o, fair o -> texts s = [] -> changes s = [] -> returns (run o s).
Proof. exact run_quiet. Qed.

(** The calls that can panic, and exactly when. *)
Theorem C80_panicking_calls : forall s,
  (parse_str s = Panic <-> crashes s) /\ (unescape s = Panic <-> unescapes s None) /\
  (comment_from s = Panic <-> substring (lit "-->") s) /\ (cdata_from s = Panic <-> substring (lit "]]>") s) /\
  (declaration_from_str s = Panic <-> exists w1 w2, ws w1 /\ ws w2 /\ s = w1 ++ lit "<?>" ++ w2) /\
  (forall l, parse_stream l = Panic <-> exists bs text, read_to_end l = Ok bs /\ string_of bs = Ok text /\ crashes text) /\
  (forall w p, parse_filepath w p = Panic <-> exists text, read_to_string w p = Ok text /\ crashes text).
Proof. exact panicking_calls. Qed.
(** All other calls return, on every tree: making, ... *)
Theorem C80_constructors : forall nm t a x p l s,
  returns (element_new nm t a x p l) /\ returns (new_from_name nm) /\ returns (comment_new s) /\ returns (cdata_new s) /\
  (forall old, returns (fst (comment_set_content old s)) /\ returns (fst (cdata_set_text old s))) /\
  returns (dtd_from_string s) /\ returns declaration_new.
Proof. exact constructors_return. Qed.
(** ... changing, ... *)
Theorem C80_changing : forall e n l i t k v m p q,
  returns (append e n) /\ returns (append_all e l) /\ returns (insert e i n) /\ returns (set_text e t) /\
  returns (fst (set_attr e k v)) /\ returns (remove e i) /\ returns (remove_element e i) /\
  returns (remove_by e p) /\ returns (remove_all p e) /\ returns (remove_all_elements q e) /\
  returns (remove_elements e q) /\ returns (remove_elements_by_name e m) /\
  (forall f, (forall c, returns (f c)) -> returns (first_element_by_name_mut e m f)).
Proof. exact changing_returns. Qed.
(** ... looking, ... *)
Theorem C80_looking : forall e n n' m p q r,
  returns (first_element_by_name e m) /\ returns (search_elements e q) /\ returns (search_elements_by_name e m) /\
  returns (search_text e p) /\ returns (search_comments e r) /\
  returns (as_element n) /\ returns (as_text n) /\ returns (as_comment n) /\ returns (as_cdata n) /\
  returns (node_type_of n) /\ returns (clone_node_lit n) /\ returns (node_eq n n') /\ (forall e', returns (elem_eq_lit e e')).
Proof. exact looking_returns. Qed.
(** ... writing files. *)
Theorem C80_writing : forall d out w p ind,
  returns (snd (write_to_file_with_indent d out ind)) /\ returns (snd (write_to_file d out)) /\
  returns (snd (write_to_filepath_with_indent d w p ind)) /\ returns (snd (write_to_filepath d w p)).
Proof. exact writing_returns. Qed.

(** Examples: a program whose last call fails, and one whose parsing panics. *)
Example C80_example :
  let s := Insert (AppendAll (RemoveElement (Append (NewFromName (lit "a")) (Made (RootOf (lit "<b><c/></b>")))) 0)
             (Then (Leaf (NText (lit "t")) ltac:(discriminate)) (Then (Made (NewFromName (lit "d"))) Nothing))) 7
             (Leaf (NComment (lit "x")) ltac:(discriminate)) in
  texts s = [lit "<b><c/></b>"] /\ changes s = [] /\ run list_order s = Err (IndexOutOfBounds 7 0 2).
Proof. vm_compute. easy. Qed.
Example C80_panic :
  let s := Append (NewFromName (lit "a")) (Made (RootOf (lit "<a>&amp;" ++ [9788%N] ++ lit "</a>"))) in
  run list_order s = Panic /\ texts s = [lit "<a>&amp;" ++ [9788%N] ++ lit "</a>"].
Proof. vm_compute. easy. Qed.
Example C80_change : exists f f_ok,
  run list_order (UpdateFirst (Append (NewFromName (lit "a")) (Made (NewFromName (lit "b")))) (lit "b") f f_ok) = Panic.
Proof. exists (fun _ => Panic), (fun _ _ _ => I). reflexivity. Qed.
Print Assumptions C80_programs.
Print Assumptions C80_programs_end.
Print Assumptions C80_ascii_programs.
Print Assumptions C80_programs_without_parsing.
Print Assumptions C80_panicking_calls.
Print Assumptions C80_constructors.
Print Assumptions C80_changing.
Print Assumptions C80_looking.
Print Assumptions C80_writing.

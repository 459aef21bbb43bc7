(** The messages printed on stderr.  The functions of Parse.v and Dom.v that print
    something are given again, with what they print. *)
From Coq Require Import List NArith Arith Bool Ascii String.
From Verif Require Import Base Escape Dom Regex ParseTree Parse.
Import ListNotations.

(** A result with the messages printed before it, in order. *)
Definition run (A : Type) : Type := (list str * outcome A)%type.
Definition quiet {A} (x : outcome A) : run A := ([], x).
Definition say {A} (m : str) (r : run A) : run A := (m :: fst r, snd r).
(** A computation that prints nothing, and one that goes on with its result. *)
Definition and_then {A B} (x : outcome A) (f : A -> run B) : run B :=
  match x with
  | Ok a => f a
  | Err e => quiet (Err e)
  | Panic => quiet Panic
  | Fuel => quiet Fuel
  end.

(** src/lib.rs:421 *)
Definition comment_warning (what : str) : str :=
  lit "WARNING: Encountered comment " ++ what ++
  lit " outside of root element. Comments outside of the root are not supported and will be ignored.".
(** src/lib.rs:430 *)
Definition ignored_warning (slc : str) : str :=
  lit "WARNING: Ignoring " ++ slc ++ lit " (not supported outside root element)".

(** src/lib.rs:387-447, the loop up to the root element: [prolog_loop] of Parse.v
    with lines 420-422 and 430. *)
Fixpoint prolog_loop_w (fuel : nat) (buffer : str) (decl : option str) (dtds : list str)
  (no_comment_warn : nat) (span : nat * nat) : run (option str * list str * (nat * nat)) :=
  match fuel with
  | O => quiet Fuel
  | S fuel' =>
      and_then (next_tag buffer (snd span)) (fun tag =>
      match tag with
      | (None, _) => quiet (Err (ParsingError PNoContent None))
      | (Some tag_start, None) => quiet (Err (perr PNoClose buffer tag_start))
      | (Some tag_start, Some tag_end) =>
          and_then (slice buffer (snd span) tag_start) (fun text_between =>
          and_then (real_text text_between) (fun rt =>
          match rt with
          | Some _ => quiet (Err (perr PTextOutsideRoot buffer (snd span)))
          | None =>
              and_then (slice buffer tag_start tag_end) (fun slc =>
              if starts_with (lit "<?xml") slc then
                if negb (fst span =? 0) then quiet (Err (perr PDeclNotFirst buffer tag_start))
                else
                  and_then (declaration_from_str slc) (fun d =>
                  prolog_loop_w fuel' buffer (Some d) dtds no_comment_warn (tag_start, tag_end))
              else if starts_with (lit "<!--") slc then
                let next := prolog_loop_w fuel' buffer decl dtds (S no_comment_warn) (tag_start, tag_end) in
                if no_comment_warn =? 0
                then and_then (abbreviate slc 32) (fun what => say (comment_warning what) next)
                else next
              else if starts_with (lit "<!DOCTYPE") slc then
                and_then (dtd_from_string slc) (fun d =>
                prolog_loop_w fuel' buffer decl (dtds ++ [d]) no_comment_warn (tag_start, tag_end))
              else if starts_with (lit "<!") slc then
                say (ignored_warning slc)
                  (prolog_loop_w fuel' buffer decl dtds no_comment_warn (tag_start, tag_end))
              else if starts_with (lit "</") slc then quiet (Err (perr PStartsWithClose buffer tag_start))
              else
                and_then (map_err (check_element_tag slc)
                           (fun _ => perr PInvalidSyntax buffer tag_start)) (fun _c =>
                quiet (Ok (decl, dtds, (tag_start, tag_end)))))
          end))
      end)
  end.

(** src/lib.rs:381-602 [parse_str]; nothing is printed after the root element is
    found (:447-602). *)
Definition parse_str_w (buffer : str) : run document :=
  let fuel := S (blen buffer) in
  let p := prolog_loop_w fuel buffer None [] 0 (0, 0) in
  (fst p,
   do r <- snd p;
   let '(decl, dtds, span) := r in
   do root_slice <- slice buffer (fst span) (snd span);
   do tag_def <- strip_tag root_slice;
   do root <- parse_new_element tag_def buffer (fst span) None;
   do t <- pt_push pt_new root;
   let selfclosing_root := ends_with (lit "/>") root_slice in
   do t <- (if selfclosing_root then pt_pop t else Ok t);
   do t <- content_loop fuel buffer selfclosing_root span t;
   if negb (pt_empty_stack t) then Err (ParsingError PRootNotClosed None)
   else
     do e <- pt_to_dom t;
     Ok (doc_new_with_decl_dtd e decl (Some dtds))).

(** The warning of src/dom.rs:133 and :1547 quotes the indent with [{:?}], which
    writes unprintable characters as escapes by the tables of the standard library;
    here a warning is represented by the indent it quotes. *)
Definition indent_warnings := list str.
(** src/dom.rs:1543-1551 [to_string_with_indent] of an Element.  Lines 1415-1486 call
    [to_string_with_indent] on text, comments and CDATA only, which print nothing. *)
Definition elem_to_string_w (e : elem) (indent : str) : indent_warnings * str :=
  if validate_indent indent then ([], elem_to_string [] indent false e)
  else ([indent], elem_to_string [] default_indent false e).
Definition node_to_string_w (n : node) (indent : str) : indent_warnings * str :=
  match n with
  | NElem e => elem_to_string_w e indent
  | _ => ([], leaf_to_string n)
  end.
(** src/dom.rs:128-152 [Document::to_string_with_indent] *)
Definition doc_to_string_w (d : document) (indent : str) : indent_warnings * str :=
  let warned := if validate_indent indent then [] else [indent] in
  let indent := if validate_indent indent then indent else default_indent in
  let root := elem_to_string_w (d_root d) indent in
  (warned ++ fst root,
   (match d_declaration d with
    | None => []
    | Some decl => declaration_to_string decl ++ [cNL]
    end) ++
   flat_map (fun dtd => dtd_to_string dtd ++ [cNL]) (d_dtds d) ++
   snd root ++ [cNL]).

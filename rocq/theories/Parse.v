(** Model of the parser in src/lib.rs. *)
From Coq Require Import List NArith Arith Bool Ascii String.
From Verif Require Import Base Escape Dom ParseTree.
From Verif Require Regex.
Import ListNotations.

Definition cLt : char := 60%N.
Definition cGt : char := 62%N.
Definition cDq : char := 34%N.
Definition cSq : char := 39%N.
Definition cEq : char := 61%N.

(** * Small helpers *)

(** src/lib.rs:881-893 [line_and_column]; [i] is the byte offset of the head
    of [s]. *)
Fixpoint line_and_column_from (s : str) (i pos line col : nat) : nat * nat :=
  match s with
  | [] => (line, col)
  | c :: s' =>
      let col := S col in
      let lc := if (c =? cNL)%N then (S line, 1) else (line, col) in
      if pos <=? i then lc
      else line_and_column_from s' (i + len_utf8 c) pos (fst lc) (snd lc)
  end.
Definition line_and_column (s : str) (pos : nat) : nat * nat :=
  line_and_column_from s 0 pos 1 1.

(** A ParsingError reporting the position of byte [pos]. *)
Definition perr (m : pmsg) (buffer : str) (pos : nat) : error :=
  ParsingError m (Some (line_and_column buffer pos)).

(** [.map_err(|e| ParsingError::new(format!("{} (line, column)", e)))]
    (lib.rs:488-493 etc.): the message is kept, the position added. *)
Definition at_pos (buffer : str) (pos : nat) (e : error) : error :=
  match e with
  | ParsingError m _ => perr m buffer pos
  | _ => e
  end.

(** src/lib.rs:605-615 [abbreviate]; "…" is U+2026 *)
Definition abbreviate (text : str) (limit : nat) : outcome str :=
  if (limit <? 4) || (blen text <=? limit) then Ok text
  else
    do a <- slice text 0 (Nat.div limit 2 - 1);
    do b <- slice_from text (blen text - Nat.div limit 2);
    Ok (a ++ [8230%N] ++ b).

(** src/lib.rs:867-878 [real_text], regex [^\s*$] *)
Definition is_blank (text : str) : bool := forallb is_whitespace text.
Definition real_text (text : str) : outcome (option str) :=
  if is_blank text then Ok None
  else do s <- unescape text; Ok (Some s).

(** src/lib.rs:717-724 [strip_tag] *)
Definition strip_tag (tag : str) : outcome str :=
  do tag <- (if starts_with (lit "<") tag then slice_from tag 1 else Ok tag);
  do tag <- (if starts_with (lit "/") tag then slice_from tag 1 else Ok tag);
  do tag <- (if ends_with (lit ">") tag then slice_to tag (blen tag - 1) else Ok tag);
  do tag <- (if ends_with (lit "/") tag then slice_to tag (blen tag - 1) else Ok tag);
  Ok (trim tag).

(** * Finding tags *)

(** src/lib.rs:811-832 [quote_aware_find]; [quote] is the open quote, if any,
    [rest] what remains of [text] from byte offset [i] on. *)
Fixpoint quote_aware_find_from (pattern rest : str) (i : nat) (quote : option char) : option nat :=
  match rest with
  | [] => None
  | c :: rest' =>
      match quote with
      | Some q =>
          quote_aware_find_from pattern rest' (i + len_utf8 c)
            (if (c =? q)%N then None else quote)
      | None =>
          if (c =? cDq)%N then quote_aware_find_from pattern rest' (i + len_utf8 c) (Some cDq)
          else if (c =? cSq)%N then quote_aware_find_from pattern rest' (i + len_utf8 c) (Some cSq)
          else if starts_with pattern rest then Some i
          else quote_aware_find_from pattern rest' (i + len_utf8 c) None
      end
  end.
Definition quote_aware_find (text pattern : str) (from : nat) : outcome (option nat) :=
  do rest <- slice_from text from;
  Ok (quote_aware_find_from pattern rest from None).

(** src/lib.rs:835-862 [nested_quote_aware_find_close].  The depth is an i32
    in the source; it is unbounded here (they differ only for inputs with more
    than 2^31 nested '<'). *)
Fixpoint nested_find_from (rest : str) (i depth : nat) (quote : option char) : option nat :=
  match rest with
  | [] => None
  | c :: rest' =>
      match quote with
      | Some q =>
          nested_find_from rest' (i + len_utf8 c) depth (if (c =? q)%N then None else quote)
      | None =>
          if (c =? cDq)%N then nested_find_from rest' (i + len_utf8 c) depth (Some cDq)
          else if (c =? cSq)%N then nested_find_from rest' (i + len_utf8 c) depth (Some cSq)
          else if (c =? cLt)%N then nested_find_from rest' (i + len_utf8 c) (S depth) None
          else if (c =? cGt)%N then
            match depth with
            | O => Some i
            | S d => nested_find_from rest' (i + len_utf8 c) d None
            end
          else nested_find_from rest' (i + len_utf8 c) depth None
      end
  end.
Definition nested_quote_aware_find_close (text : str) (from : nat) : outcome (option nat) :=
  do rest <- slice_from text from;
  Ok (nested_find_from rest from 0 None).

Definition add_opt (k : nat) (o : option nat) : option nat :=
  option_map (fun i => i + k) o.

(** src/lib.rs:747-773 [next_tag] *)
Definition next_tag (buffer : str) (from : nat) : outcome (option nat * option nat) :=
  do tail <- slice_from buffer from;
  match add_opt from (find_sub (lit "<") tail) with
  | None => Ok (None, None)
  | Some start =>
      do sub <- slice_from buffer start;
      if starts_with (lit "<!--") sub then
        Ok (Some start, add_opt (start + 3) (find_sub (lit "-->") sub))
      else if starts_with (lit "<?") sub then
        do r <- quote_aware_find sub (lit "?>") 2;
        Ok (Some start, add_opt (start + 2) r)
      else if starts_with (lit "<![CDATA[") sub then
        Ok (Some start, add_opt (start + 3) (find_sub (lit "]]>") sub))
      else if starts_with (lit "<!") sub then
        do r <- nested_quote_aware_find_close sub 2;
        Ok (Some start, add_opt (start + 1) r)
      else
        do r <- quote_aware_find sub (lit ">") 1;
        Ok (Some start, add_opt (start + 1) r)
  end.

(** src/lib.rs:733-734, the character classes of the tag pattern *)
Definition name_start_ranges : list (N * N) :=
  [(58, 58); (65, 90); (95, 95); (97, 122); (192, 214); (216, 246); (248, 767);
   (880, 893); (895, 8191); (8204, 8205); (8304, 8591); (11264, 12271);
   (12289, 55295); (63744, 64975); (65008, 65533); (65536, 983039)]%N.
Definition name_char_ranges : list (N * N) :=
  name_start_ranges ++
  [(46, 46); (45, 45); (48, 57); (183, 183); (768, 879); (8255, 8256)]%N.
(** regex [\s], the same set as [is_whitespace] (lemma in RegexFacts.v) *)
Definition ws_ranges : list (N * N) :=
  [(9, 13); (32, 32); (133, 133); (160, 160); (5760, 5760); (8192, 8202);
   (8232, 8233); (8239, 8239); (8287, 8287); (12288, 12288)]%N.

Definition tpNS : Regex.re := Regex.RCls (Regex.mkCls false name_start_ranges).
Definition tpNC : Regex.re := Regex.RCls (Regex.mkCls false name_char_ranges).
Definition tpWS : Regex.re := Regex.RCls (Regex.mkCls false ws_ranges).
Definition tpQuoted (q : char) : Regex.re :=
  Regex.RSeqs [Regex.RChar q; Regex.RStar Regex.RAny; Regex.RChar q].
Definition tpAttr : Regex.re :=
  Regex.RSeqs [Regex.RPlus tpWS; tpNS; Regex.RStar tpNC; Regex.RChar cEq;
               Regex.RAlt (tpQuoted cDq) (tpQuoted cSq)].
(** src/lib.rs:735, the pattern: '<', optional '/', name, optional ':' name,
    attributes (white space, name, '=', quoted string), white space, optional
    '/', '>'. *)
Definition tag_pattern : Regex.re :=
  Regex.RSeqs [Regex.RChar cLt; Regex.ROpt (Regex.RChar 47%N); tpNS; Regex.RStar tpNC;
               Regex.ROpt (Regex.RSeqs [Regex.RChar cColon; tpNS; Regex.RStar tpNC]);
               Regex.RStar tpAttr; Regex.RStar tpWS; Regex.ROpt (Regex.RChar 47%N);
               Regex.RChar cGt].

(** src/lib.rs:730-743 [check_element_tag] *)
Definition check_element_tag (text : str) : outcome unit :=
  if Regex.is_match tag_pattern text then Ok tt
  else Err (ParsingError PInvalidElement None).

(** * Splitting a tag *)

Definition push_builder (builder : str) (vec : list str) : list str :=
  match builder with [] => vec | _ :: _ => vec ++ [builder] end.

(** src/lib.rs:776-809 [quote_aware_split] *)
Fixpoint quote_aware_split_from (s builder : str) (vec : list str) (quote : option char) : list str :=
  match s with
  | [] => push_builder builder vec
  | c :: s' =>
      match quote with
      | None =>
          if (c =? cSq)%N || (c =? cDq)%N then
            quote_aware_split_from s' (builder ++ [c]) vec (Some c)
          else if is_whitespace c then
            quote_aware_split_from s' [] (push_builder builder vec) None
          else quote_aware_split_from s' (builder ++ [c]) vec None
      | Some q =>
          quote_aware_split_from s' (builder ++ [c]) vec (if (c =? q)%N then None else quote)
      end
  end.
Definition quote_aware_split (s : str) : list str := quote_aware_split_from s [] [] None.

(** [comp.ends_with("=") || front.starts_with("=")] *)
Definition should_join (comp front : str) : bool :=
  ends_with (lit "=") comp || starts_with (lit "=") front.

(** src/lib.rs:700-712, the [while] loop of [join_spaced_attributes] *)
Fixpoint join_loop (components : list str) : list str :=
  match components with
  | [] => []
  | comp :: rest1 =>
      match rest1 with
      | [] => [comp]
      | f1 :: rest2 =>
          if should_join comp f1 then
            match rest2 with
            | [] => [comp ++ f1]
            | f2 :: rest3 =>
                if should_join (comp ++ f1) f2
                then (comp ++ f1 ++ f2) :: join_loop rest3
                else (comp ++ f1) :: join_loop rest2
            end
          else comp :: join_loop rest1
      end
  end.
(** src/lib.rs:694-714 [join_spaced_attributes] *)
Definition join_spaced_attributes (components : list str) : list str :=
  match components with
  | [] => []
  | tag :: rest => tag :: join_loop rest
  end.

(** * Elements *)

(** src/lib.rs:632-657, the attribute loop of [parse_new_element] *)
Fixpoint parse_attrs (comps : list str) (buffer : str) (pos : nat) (attrs : amap) : outcome amap :=
  match comps with
  | [] => Ok attrs
  | kv :: comps' =>
      if negb (contains (lit "=") kv) then Err (perr PAttrForm buffer pos)
      else
        do k_v <- unwrap (split_once cEq kv);
        let k := fst k_v in
        let v := snd k_v in
        if blen v =? 0 then Err (perr PAttrNoContent buffer pos)
        else if (blen v <? 2)
                || negb ((starts_with [cDq] v && ends_with [cDq] v)
                         || (starts_with [cSq] v && ends_with [cSq] v))
        then Err (perr PAttrQuote buffer pos)
        else
          do v <- slice v 1 (blen v - 1);
          do v <- unescape v;
          parse_attrs comps' buffer pos (aset k v attrs)
  end.

(** src/lib.rs:620-691 [parse_new_element]; of [buffer] and [tag_span] only the
    error position [pos = tag_span.0] is used. *)
Definition parse_new_element (tag_content buffer : str) (pos : nat) (parent : option elem) : outcome elem :=
  match join_spaced_attributes (quote_aware_split tag_content) with
  | [] => Err (perr PEmptyTag buffer pos)
  | nm :: comps =>
      do attrs <- parse_attrs comps buffer pos [];
      let inherited_default := match parent with None => None | Some p => default_namespace p end in
      let inherited_ctx := match parent with None => None | Some p => Some (get_namespace_context p) end in
      do nxp <-
        match split_once cColon nm with
        | None => Ok (nm, None, None)
        | Some (a, b) =>
            let prefix_key := sXmlnsC ++ a in
            if ahas prefix_key attrs then Ok (b, aget prefix_key attrs, Some a)
            else match inherited_ctx with
                 | None => Err (perr (PUndefPrefix a) buffer pos)
                 | Some ctx => Ok (b, aget prefix_key ctx, Some a)
                 end
        end;
      let '(nm, xmlns, prefix) := nxp in
      do e <- element_new nm None (Some attrs) xmlns prefix None;
      Ok (set_namespace_context e inherited_default inherited_ctx)
  end.

(** * The main loops *)

(** src/lib.rs:388-448, first loop: declaration and DTDs up to the root tag.
    Returns the declaration, the DTDs and the span of the root tag.  Warnings
    on stderr are not modelled, but the call of [abbreviate] inside one is. *)
Fixpoint prolog_loop (fuel : nat) (buffer : str) (decl : option str) (dtds : list str)
  (no_comment_warn : nat) (span : nat * nat) : outcome (option str * list str * (nat * nat)) :=
  match fuel with
  | O => Fuel
  | S fuel' =>
      do tag <- next_tag buffer (snd span);
      match tag with
      | (None, _) => Err (ParsingError PNoContent None)
      | (Some tag_start, None) => Err (perr PNoClose buffer tag_start)
      | (Some tag_start, Some tag_end) =>
          do text_between <- slice buffer (snd span) tag_start;
          do rt <- real_text text_between;
          match rt with
          | Some _ => Err (perr PTextOutsideRoot buffer (snd span))
          | None =>
              do slc <- slice buffer tag_start tag_end;
              if starts_with (lit "<?xml") slc then
                if negb (fst span =? 0) then Err (perr PDeclNotFirst buffer tag_start)
                else
                  do d <- declaration_from_str slc;
                  prolog_loop fuel' buffer (Some d) dtds no_comment_warn (tag_start, tag_end)
              else if starts_with (lit "<!--") slc then
                do _w <- (if no_comment_warn =? 0
                          then do _a <- abbreviate slc 32; Ok tt else Ok tt);
                prolog_loop fuel' buffer decl dtds (S no_comment_warn) (tag_start, tag_end)
              else if starts_with (lit "<!DOCTYPE") slc then
                do d <- dtd_from_string slc;
                prolog_loop fuel' buffer decl (dtds ++ [d]) no_comment_warn (tag_start, tag_end)
              else if starts_with (lit "<!") slc then
                prolog_loop fuel' buffer decl dtds no_comment_warn (tag_start, tag_end)
              else if starts_with (lit "</") slc then Err (perr PStartsWithClose buffer tag_start)
              else
                do _c <- map_err (check_element_tag slc)
                           (fun _ => perr PInvalidSyntax buffer tag_start);
                Ok (decl, dtds, (tag_start, tag_end))
          end
      end
  end.

(** src/lib.rs:497-585, handling of one tag [slc] = buffer[span] in the second
    loop. *)
Definition parse_tag (buffer slc : str) (tag_start : nat) (t : ptree) : outcome ptree :=
  if starts_with (lit "<!--") slc && ends_with (lit "-->") slc then
    let b := 4 in
    let e := blen slc - 3 in
    if b <? e then
      do content <- slice slc b e;
      do c <- comment_new content;
      map_err (pt_append t (NComment c)) (at_pos buffer tag_start)
    else if b =? e then
      do c <- comment_new [];
      pt_append t (NComment c)
    else Err (perr PInvalidComment buffer tag_start)
  else if starts_with (lit "<![CDATA[") slc then
    if negb (ends_with (lit "]]>") slc) then Err (perr PUnclosedCData buffer tag_start)
    else
      do content <- slice slc 9 (blen slc - 3);
      do c <- cdata_new content;
      map_err (pt_append t (NCData c)) (at_pos buffer tag_start)
  else if starts_with (lit "<!") slc then
    do what <- abbreviate slc 32;
    Err (NotSupportedError what (Some (line_and_column buffer tag_start)))
  else
    do tag_def <- strip_tag slc;
    do _c <- map_err (check_element_tag slc) (at_pos buffer tag_start);
    if starts_with (lit "</") slc then
      do top <- pt_top_element t;
      match top with
      | None => Err (perr PRootAlreadyClosed buffer tag_start)
      | Some active =>
          if negb (str_eqb tag_def (tag_name active))
          then Err (perr (PCloseMismatch slc (tag_name active)) buffer tag_start)
          else pt_pop t
      end
    else
      do top <- pt_top_element t;
      do new_element <- parse_new_element tag_def buffer tag_start top;
      if ends_with (lit "/>") slc
      then map_err (pt_append t (NElem new_element)) (at_pos buffer tag_start)
      else pt_push t new_element.

(** src/lib.rs:457-587, second loop *)
Fixpoint content_loop (fuel : nat) (buffer : str) (selfclosing_root : bool)
  (span : nat * nat) (t : ptree) : outcome ptree :=
  match fuel with
  | O => Fuel
  | S fuel' =>
      do tag <- next_tag buffer (snd span);
      match tag with
      | (None, _) => Ok t
      | (Some tag_start, None) => Err (perr PInvalidSyntax buffer tag_start)
      | (Some tag_start, Some tag_end) =>
          if selfclosing_root then Err (perr POnlyOneRoot buffer tag_start)
          else
            do text <- slice buffer (snd span) tag_start;
            do rt <- real_text text;
            do t <- match rt with
                    | None => Ok t
                    | Some content =>
                        map_err (pt_append t (NText content)) (at_pos buffer tag_start)
                    end;
            do slc <- slice buffer tag_start tag_end;
            do t <- parse_tag buffer slc tag_start t;
            content_loop fuel' buffer selfclosing_root (tag_start, tag_end) t
      end
  end.

(** src/lib.rs:381-602 [parse_str] *)
Definition parse_str (buffer : str) : outcome document :=
  let fuel := S (blen buffer) in
  do r <- prolog_loop fuel buffer None [] 0 (0, 0);
  let '(decl, dtds, span) := r in
  do root_slice <- slice buffer (fst span) (snd span);
  do tag_def <- strip_tag root_slice;
  do root <- parse_new_element tag_def buffer (fst span) None;
  do t <- pt_push pt_new root;
  let selfclosing_root := ends_with (lit "/>") root_slice in
  do t <- (if selfclosing_root then pt_pop t else Ok t);
  do t <- content_loop fuel buffer selfclosing_root span t;
  if negb (pt_empty_stack t) then Err (ParsingError PRootNotClosed None)
  else
    do e <- pt_to_dom t;
    Ok (doc_new_with_decl_dtd e decl (Some dtds)).

(** The crate with machine integers: [usize] of a given width, [i32], and what an
    overflow does in a build with and without overflow checks.  Every function of
    the crate that computes with integers has a version with the suffix _m here;
    the rest of the model is used unchanged.  [saturating_sub] and [wrapping_sub]
    do not overflow and stay as they are. *)
From Coq Require Import List NArith ZArith Arith Bool Ascii String.
From Verif Require Import Base Escape Dom ParseTree Parse.
Import ListNotations.

(** * Arithmetic *)

(** [words] is the number of values of [usize] (2^32 or 2^64); [checks] says
    whether the build has overflow checks (debug builds do, release builds do
    not). *)
Record machine := mkMachine { words : N; checks : bool }.

(** [a + b] on [usize] *)
Definition uadd (m : machine) (a b : nat) : outcome nat :=
  if (N.of_nat (a + b) <? words m)%N then Ok (a + b)
  else if checks m then Panic else Ok (N.to_nat (N.of_nat (a + b) mod words m)).
(** [a - b] on [usize] *)
Definition usub (m : machine) (a b : nat) : outcome nat :=
  if b <=? a then Ok (a - b)
  else if checks m then Panic else Ok (N.to_nat (words m + N.of_nat a - N.of_nat b)).
(** A result [z] of an [i32] operation *)
Definition i32 (m : machine) (z : Z) : outcome Z :=
  if ((-2147483648 <=? z) && (z <=? 2147483647))%Z then Ok z
  else if checks m then Panic else Ok ((z + 2147483648) mod 4294967296 - 2147483648)%Z.

(** * Escaping *)

(** src/lib.rs:293-327, line 294: [i + j + 1]; the rest is as in Escape.v, where
    the end is computed from [i] and [j]. *)
Definition unescape_entity_m (m : machine) (i j : nat) (slc buffer : str) (char_size : nat)
  : outcome (str * nat) :=
  let start := i in
  do ij <- uadd m i j;
  do fin <- uadd m ij 1;
  do slc <- slice_to slc j;
  do buffer <- (if str_eqb slc (lit "&amp") then string_insert buffer start fin sAmp else Ok buffer);
  do buffer <- (if str_eqb slc (lit "&lt") then string_insert buffer start fin sLt else Ok buffer);
  do buffer <- (if str_eqb slc (lit "&gt") then string_insert buffer start fin sGt else Ok buffer);
  do buffer <- (if str_eqb slc (lit "&apos") then string_insert buffer start fin sApos else Ok buffer);
  do buffer <- (if str_eqb slc (lit "&quot") then string_insert buffer start fin sQuot else Ok buffer);
  if starts_with (lit "&#") slc then
    do hex <- slice_from slc 2;
    match from_str_radix16 hex with
    | Some codepoint =>
        match char_from_u32 codepoint with
        | Some unicode =>
            do buffer <- string_insert buffer start fin [unicode];
            Ok (buffer, len_utf8 unicode)
        | None => Ok (buffer, char_size)
        end
    | None => Ok (buffer, char_size)
    end
  else Ok (buffer, char_size).

(** src/lib.rs:291-328.  The offsets [j] come from [char_indices] of the standard
    library: they are below the length of a string. *)
Fixpoint unescape_scan_m (m : machine) (i : nat) (slc rest : str) (j : nat) (buffer : str) (char_size : nat)
  : outcome (str * nat) :=
  match rest with
  | [] => Ok (buffer, char_size)
  | k :: rest' =>
      let char_size := len_utf8 k in
      do bc <- (if (k =? cSemi)%N then unescape_entity_m m i j slc buffer char_size
                else Ok (buffer, char_size));
      unescape_scan_m m i slc rest' (j + len_utf8 k) (fst bc) (snd bc)
  end.

(** src/lib.rs:282-332, lines 287 [i + last_i] and 329 [i + char_size] *)
Fixpoint unescape_loop_m (m : machine) (fuel : nat) (buffer : str) (last_i : nat) : outcome str :=
  match fuel with
  | O => Fuel
  | S fuel' =>
      if blen buffer <=? last_i then Ok buffer
      else
        do tail <- slice_from buffer last_i;
        match find_sub sAmp tail with
        | None => Ok buffer
        | Some i0 =>
            do i <- uadd m i0 last_i;
            do slc <- slice_from buffer i;
            do bc <- unescape_scan_m m i slc slc 0 buffer 1;
            do next <- uadd m i (snd bc);
            unescape_loop_m m fuel' (fst bc) next
        end
  end.

(** src/lib.rs:279-334 [unescape] *)
Definition unescape_m (m : machine) (text : str) : outcome str :=
  unescape_loop_m m (S (blen text)) text 0.

(** * Positions *)

(** src/lib.rs:881-893 [line_and_column], lines 885 and 887 *)
Fixpoint line_and_column_from_m (m : machine) (s : str) (i pos line col : nat) : outcome (nat * nat) :=
  match s with
  | [] => Ok (line, col)
  | c :: s' =>
      do col <- uadd m col 1;
      do lc <- (if (c =? cNL)%N then do line <- uadd m line 1; Ok (line, 1) else Ok (line, col));
      if pos <=? i then Ok lc
      else line_and_column_from_m m s' (i + len_utf8 c) pos (fst lc) (snd lc)
  end.
Definition line_and_column_m (m : machine) (s : str) (pos : nat) : outcome (nat * nat) :=
  line_and_column_from_m m s 0 pos 1 1.

(** Returning a ParsingError that reports the position of byte [pos]. *)
Definition fail_m {A} (m : machine) (msg : pmsg) (buffer : str) (pos : nat) : outcome A :=
  do lc <- line_and_column_m m buffer pos; Err (ParsingError msg (Some lc)).
(** [.map_err(|e| ...)] adding the position *)
Definition at_pos_m {A} (m : machine) (x : outcome A) (buffer : str) (pos : nat) : outcome A :=
  match x with
  | Err e => do lc <- line_and_column_m m buffer pos;
             Err (match e with ParsingError msg _ => ParsingError msg (Some lc) | _ => e end)
  | _ => x
  end.

(** src/lib.rs:605-615 [abbreviate], lines 609 and 611 *)
Definition abbreviate_m (m : machine) (text : str) (limit : nat) : outcome str :=
  if (limit <? 4) || (blen text <=? limit) then Ok text
  else
    do n <- usub m (Nat.div limit 2) 1;
    do a <- slice text 0 n;
    do n <- usub m (blen text) (Nat.div limit 2);
    do b <- slice_from text n;
    Ok (a ++ [8230%N] ++ b).

(** src/lib.rs:867-878 [real_text] *)
Definition real_text_m (m : machine) (text : str) : outcome (option str) :=
  if is_blank text then Ok None
  else do s <- unescape_m m text; Ok (Some s).

(** src/lib.rs:811-832 [quote_aware_find], lines 826 and 827: [from + i]; [i] is
    the offset in [text[from..]]. *)
Fixpoint quote_aware_find_from_m (m : machine) (pattern rest : str) (from i : nat) (quote : option char)
  : outcome (option nat) :=
  match rest with
  | [] => Ok None
  | c :: rest' =>
      match quote with
      | Some q =>
          quote_aware_find_from_m m pattern rest' from (i + len_utf8 c) (if (c =? q)%N then None else quote)
      | None =>
          if (c =? cDq)%N then quote_aware_find_from_m m pattern rest' from (i + len_utf8 c) (Some cDq)
          else if (c =? cSq)%N then quote_aware_find_from_m m pattern rest' from (i + len_utf8 c) (Some cSq)
          else
            do at_ <- uadd m from i;
            if starts_with pattern rest then Ok (Some at_)
            else quote_aware_find_from_m m pattern rest' from (i + len_utf8 c) None
      end
  end.
Definition quote_aware_find_m (m : machine) (text pattern : str) (from : nat) : outcome (option nat) :=
  do rest <- slice_from text from;
  quote_aware_find_from_m m pattern rest from 0 None.

(** src/lib.rs:835-862 [nested_quote_aware_find_close], lines 852, 855 and 857;
    [depth] is an [i32]. *)
Fixpoint nested_find_from_m (m : machine) (rest : str) (from i : nat) (depth : Z) (quote : option char)
  : outcome (option nat) :=
  match rest with
  | [] => Ok None
  | c :: rest' =>
      match quote with
      | Some q =>
          nested_find_from_m m rest' from (i + len_utf8 c) depth (if (c =? q)%N then None else quote)
      | None =>
          if (c =? cDq)%N then nested_find_from_m m rest' from (i + len_utf8 c) depth (Some cDq)
          else if (c =? cSq)%N then nested_find_from_m m rest' from (i + len_utf8 c) depth (Some cSq)
          else if (c =? cLt)%N then
            do depth <- i32 m (depth + 1);
            nested_find_from_m m rest' from (i + len_utf8 c) depth None
          else if (c =? cGt)%N then
            if (depth =? 0)%Z then do at_ <- uadd m from i; Ok (Some at_)
            else
              do depth <- i32 m (depth - 1);
              nested_find_from_m m rest' from (i + len_utf8 c) depth None
          else nested_find_from_m m rest' from (i + len_utf8 c) depth None
      end
  end.
Definition nested_quote_aware_find_close_m (m : machine) (text : str) (from : nat) : outcome (option nat) :=
  do rest <- slice_from text from;
  nested_find_from_m m rest from 0 0 None.

(** [.map(|i| i + start_index + k)] *)
Definition end_of_tag_m (m : machine) (start k : nat) (o : option nat) : outcome (option nat) :=
  match o with
  | None => Ok None
  | Some i => do x <- uadd m i start; do y <- uadd m x k; Ok (Some y)
  end.

(** src/lib.rs:747-773 [next_tag] *)
Definition next_tag_m (m : machine) (buffer : str) (from : nat) : outcome (option nat * option nat) :=
  do tail <- slice_from buffer from;
  match find_sub (lit "<") tail with
  | None => Ok (None, None)
  | Some i =>
      do start <- uadd m i from;
      do sub <- slice_from buffer start;
      if starts_with (lit "<!--") sub then
        do e <- end_of_tag_m m start 3 (find_sub (lit "-->") sub); Ok (Some start, e)
      else if starts_with (lit "<?") sub then
        do r <- quote_aware_find_m m sub (lit "?>") 2;
        do e <- end_of_tag_m m start 2 r; Ok (Some start, e)
      else if starts_with (lit "<![CDATA[") sub then
        do e <- end_of_tag_m m start 3 (find_sub (lit "]]>") sub); Ok (Some start, e)
      else if starts_with (lit "<!") sub then
        do r <- nested_quote_aware_find_close_m m sub 2;
        do e <- end_of_tag_m m start 1 r; Ok (Some start, e)
      else
        do r <- quote_aware_find_m m sub (lit ">") 1;
        do e <- end_of_tag_m m start 1 r; Ok (Some start, e)
  end.

(** * Adding and removing children *)

(** src/dom.rs:1196-1207: [index] counts down to 0; lines 1199, 1202, 1204 and
    1206 compute [index - 1].  [fuel] is the structural argument; the loop runs
    [index] times. *)
Fixpoint merge_text_loop_m (m : machine) (fuel index : nat) (l : list node) : outcome (list node) :=
  if index =? 0 then Ok l
  else
    match fuel with
    | O => Fuel
    | S fuel' =>
        do a <- vget l index;
        do l <- (if is_text a then
                   do before <- usub m index 1;
                   do b <- vget l before;
                   if is_text b then
                     do back_l <- vremove l index;
                     do before <- usub m index 1;
                     do front_l <- vremove (snd back_l) before;
                     do f <- expect (as_text (fst front_l));
                     do b <- expect (as_text (fst back_l));
                     do before <- usub m index 1;
                     vinsert (snd front_l) before (NText (text_concat f b))
                   else Ok l
                 else Ok l);
        do index <- usub m index 1;
        merge_text_loop_m m fuel' index l
    end.

(** src/dom.rs:1192-1221 [cleanup_text_nodes], lines 1196 and 1210 *)
Definition cleanup_text_nodes_m (m : machine) (l : list node) : outcome (list node) :=
  match l with
  | [] => Ok []
  | _ :: _ =>
      do last <- usub m (List.length l) 1;
      do l1 <- merge_text_loop_m m last last l;
      match l1 with
      | [] => Panic
      | _ :: _ => do last <- usub m (List.length l1) 1; drop_blank_loop last l1
      end
  end.

(** src/dom.rs:1162-1172 [append] / [append_boxed] *)
Definition append_m (m : machine) (e : elem) (n : node) : outcome elem :=
  let n' := apply_xmlns_context (default_namespace e) (e_context e) n in
  do l <- cleanup_text_nodes_m m (e_children e ++ [n']);
  Ok (set_children e l).

(** src/dom.rs:1253-1259, line 1258: [i += 1] *)
Fixpoint push_recording_m (m : machine) (nodes : list node) (i : nat) (children : list node) (idx : list nat)
  : outcome (list node * list nat) :=
  match nodes with
  | [] => Ok (children, idx)
  | c :: nodes' =>
      do i' <- uadd m i 1;
      push_recording_m m nodes' i' (children ++ [c]) (if is_element c then idx ++ [i] else idx)
  end.
(** src/dom.rs:1249-1269 [append_all] *)
Definition append_all_m (m : machine) (e : elem) (nodes : list node) : outcome elem :=
  do li <- push_recording_m m nodes (List.length (e_children e)) (e_children e) [];
  do l1 <- apply_at (default_namespace e) (e_context e) (snd li) (fst li);
  do l2 <- cleanup_text_nodes_m m l1;
  Ok (set_children e l2).

(** src/dom.rs:1273-1287 [insert] *)
Definition insert_m (m : machine) (e : elem) (index : nat) (n : node) : outcome elem :=
  if List.length (e_children e) <? index
  then Err (IndexOutOfBounds index 0 (List.length (e_children e)))
  else
    do l <- vinsert (e_children e) index n;
    do last <- vget l (List.length l - 1);
    do l <- vset l (List.length l - 1)
              (apply_xmlns_context (default_namespace e) (e_context e) last);
    do l <- cleanup_text_nodes_m m l;
    Ok (set_children e l).

(** src/dom.rs:879-884 [set_text] *)
Definition set_text_m (m : machine) (e : elem) (t : str) : outcome elem :=
  append_m m (clear_children e) (NText t).

(** src/dom.rs:1330-1332 [for e in self.child_elements_mut() { count += ... }]:
    [count] is the number so far. *)
Fixpoint collect_removed_m (m : machine) (l : list (node * outcome (elem * nat))) (count : nat)
  : outcome (list node * nat) :=
  match l with
  | [] => Ok ([], count)
  | (n, r) :: l' =>
      match n with
      | NElem _ =>
          do ec <- r;
          do count <- uadd m count (snd ec);
          do rest <- collect_removed_m m l' count;
          Ok (NElem (fst ec) :: fst rest, snd rest)
      | _ =>
          do rest <- collect_removed_m m l' count;
          Ok (n :: fst rest, snd rest)
      end
  end.
(** src/dom.rs:1328-1334 [remove_all] *)
Fixpoint remove_all_m (m : machine) (p : node -> bool) (e : elem) : outcome (elem * nat) :=
  match e with
  | mkElem nm ch at_ ns px cx =>
      let annotated :=
        (fix go (l : list node) : list (node * outcome (elem * nat)) :=
           match l with
           | [] => []
           | c :: l' =>
               (c, match c with NElem c' => remove_all_m m p c' | _ => Panic end) :: go l'
           end) ch in
      do r <- remove_by_vec (fun a => p (fst a)) annotated;
      do rec <- collect_removed_m m (fst r) (snd r);
      Ok (mkElem nm (fst rec) at_ ns px cx, snd rec)
  end.
(** src/dom.rs:1392-1404 [remove_all_elements] *)
Definition remove_all_elements_m (m : machine) (p : elem -> bool) (e : elem) : outcome (elem * nat) :=
  do r <- remove_by e (elem_pred p);
  do rec <- collect_removed_m m
              (map (fun c => (c, match c with NElem c' => remove_all_m m (elem_pred p) c' | _ => Panic end))
                   (e_children (fst r))) (snd r);
  Ok (set_children (fst r) (fst rec), snd rec).

(** * The parse tree *)

(** src/parsing.rs:108-116; [append_boxed] is called here. *)
Definition to_dom_step_m (m : machine) (i : nat) (data : list (nat * ptnode)) : outcome (list (nat * ptnode)) :=
  do n <- unwrap (dget i data);
  let data := ddel i data in
  let value := match pt_value n with
               | NElem e => NElem (reverse_children e)
               | v => v
               end in
  do parent_index <- unwrap (pt_parent n);
  do p <- unwrap (dget parent_index data);
  do pe <- expect (as_element (pt_value p));
  do pe <- append_m m pe value;
  Ok (dset parent_index (mkPT (pt_id p) (NElem pe) (pt_parent p) (pt_children p)) data).
Fixpoint to_dom_loop_m (m : machine) (k : nat) (data : list (nat * ptnode)) : outcome (list (nat * ptnode)) :=
  match k with
  | O => Ok data
  | S k' => do data <- to_dom_step_m m k data; to_dom_loop_m m k' data
  end.
(** src/parsing.rs:96-129 [to_dom] *)
Definition pt_to_dom_m (m : machine) (t : ptree) : outcome elem :=
  match t_data t with
  | [] => Err (ParsingError PNoRootElement None)
  | _ :: _ =>
      do data <- to_dom_loop_m m (List.length (t_data t) - 1) (t_data t);
      do root <- unwrap (dget 0 data);
      do e <- expect (as_element (pt_value root));
      Ok (reverse_children e)
  end.

(** * Elements *)

(** src/lib.rs:632-657, line 655: [v.len()-1] *)
Fixpoint parse_attrs_m (m : machine) (comps : list str) (buffer : str) (pos : nat) (attrs : amap) : outcome amap :=
  match comps with
  | [] => Ok attrs
  | kv :: comps' =>
      if negb (contains (lit "=") kv) then fail_m m PAttrForm buffer pos
      else
        do k_v <- unwrap (split_once cEq kv);
        let k := fst k_v in
        let v := snd k_v in
        if blen v =? 0 then fail_m m PAttrNoContent buffer pos
        else if (blen v <? 2)
                || negb ((starts_with [cDq] v && ends_with [cDq] v)
                         || (starts_with [cSq] v && ends_with [cSq] v))
        then fail_m m PAttrQuote buffer pos
        else
          do last <- usub m (blen v) 1;
          do v <- slice v 1 last;
          do v <- unescape_m m v;
          parse_attrs_m m comps' buffer pos (aset k v attrs)
  end.

(** src/lib.rs:620-691 [parse_new_element] *)
Definition parse_new_element_m (m : machine) (tag_content buffer : str) (pos : nat) (parent : option elem) : outcome elem :=
  match join_spaced_attributes (quote_aware_split tag_content) with
  | [] => fail_m m PEmptyTag buffer pos
  | nm :: comps =>
      do attrs <- parse_attrs_m m comps buffer pos [];
      let inherited_default := match parent with None => None | Some p => default_namespace p end in
      let inherited_ctx := match parent with None => None | Some p => Some (get_namespace_context p) end in
      do nxp <-
        match split_once cColon nm with
        | None => Ok (nm, None, None)
        | Some (a, b) =>
            let prefix_key := sXmlnsC ++ a in
            if ahas prefix_key attrs then Ok (b, aget prefix_key attrs, Some a)
            else match inherited_ctx with
                 | None => fail_m m (PUndefPrefix a) buffer pos
                 | Some ctx => Ok (b, aget prefix_key ctx, Some a)
                 end
        end;
      let '(nm, xmlns, prefix) := nxp in
      do e <- element_new nm None (Some attrs) xmlns prefix None;
      Ok (set_namespace_context e inherited_default inherited_ctx)
  end.

(** * The main loops *)

(** src/lib.rs:388-448; line 423: [no_comment_warn += 1], an [i32] (its type is
    not given, so it is the default one). *)
Fixpoint prolog_loop_m (m : machine) (fuel : nat) (buffer : str) (decl : option str) (dtds : list str)
  (no_comment_warn : Z) (span : nat * nat) : outcome (option str * list str * (nat * nat)) :=
  match fuel with
  | O => Fuel
  | S fuel' =>
      do tag <- next_tag_m m buffer (snd span);
      match tag with
      | (None, _) => Err (ParsingError PNoContent None)
      | (Some tag_start, None) => fail_m m PNoClose buffer tag_start
      | (Some tag_start, Some tag_end) =>
          do text_between <- slice buffer (snd span) tag_start;
          do rt <- real_text_m m text_between;
          match rt with
          | Some _ => fail_m m PTextOutsideRoot buffer (snd span)
          | None =>
              do slc <- slice buffer tag_start tag_end;
              if starts_with (lit "<?xml") slc then
                if negb (fst span =? 0) then fail_m m PDeclNotFirst buffer tag_start
                else
                  do d <- declaration_from_str slc;
                  prolog_loop_m m fuel' buffer (Some d) dtds no_comment_warn (tag_start, tag_end)
              else if starts_with (lit "<!--") slc then
                do _w <- (if (no_comment_warn =? 0)%Z
                          then do _a <- abbreviate_m m slc 32; Ok tt else Ok tt);
                do no_comment_warn <- i32 m (no_comment_warn + 1);
                prolog_loop_m m fuel' buffer decl dtds no_comment_warn (tag_start, tag_end)
              else if starts_with (lit "<!DOCTYPE") slc then
                do d <- dtd_from_string slc;
                prolog_loop_m m fuel' buffer decl (dtds ++ [d]) no_comment_warn (tag_start, tag_end)
              else if starts_with (lit "<!") slc then
                prolog_loop_m m fuel' buffer decl dtds no_comment_warn (tag_start, tag_end)
              else if starts_with (lit "</") slc then fail_m m PStartsWithClose buffer tag_start
              else
                do _c <- (match check_element_tag slc with
                          | Err _ => fail_m m PInvalidSyntax buffer tag_start
                          | x => x
                          end);
                Ok (decl, dtds, (tag_start, tag_end))
          end
      end
  end.

(** src/lib.rs:497-585 *)
Definition parse_tag_m (m : machine) (buffer slc : str) (tag_start : nat) (t : ptree) : outcome ptree :=
  if starts_with (lit "<!--") slc && ends_with (lit "-->") slc then
    let b := 4 in
    let e := blen slc - 3 in
    if b <? e then
      do content <- slice slc b e;
      do c <- comment_new content;
      at_pos_m m (pt_append t (NComment c)) buffer tag_start
    else if b =? e then
      do c <- comment_new [];
      pt_append t (NComment c)
    else fail_m m PInvalidComment buffer tag_start
  else if starts_with (lit "<![CDATA[") slc then
    if negb (ends_with (lit "]]>") slc) then fail_m m PUnclosedCData buffer tag_start
    else
      do content <- slice slc 9 (blen slc - 3);
      do c <- cdata_new content;
      at_pos_m m (pt_append t (NCData c)) buffer tag_start
  else if starts_with (lit "<!") slc then
    do lc <- line_and_column_m m buffer tag_start;
    do what <- abbreviate_m m slc 32;
    Err (NotSupportedError what (Some lc))
  else
    do tag_def <- strip_tag slc;
    do _c <- at_pos_m m (check_element_tag slc) buffer tag_start;
    if starts_with (lit "</") slc then
      do top <- pt_top_element t;
      match top with
      | None => fail_m m PRootAlreadyClosed buffer tag_start
      | Some active =>
          if negb (str_eqb tag_def (tag_name active))
          then fail_m m (PCloseMismatch slc (tag_name active)) buffer tag_start
          else pt_pop t
      end
    else
      do top <- pt_top_element t;
      do new_element <- parse_new_element_m m tag_def buffer tag_start top;
      if ends_with (lit "/>") slc
      then at_pos_m m (pt_append t (NElem new_element)) buffer tag_start
      else pt_push t new_element.

(** src/lib.rs:457-587 *)
Fixpoint content_loop_m (m : machine) (fuel : nat) (buffer : str) (selfclosing_root : bool)
  (span : nat * nat) (t : ptree) : outcome ptree :=
  match fuel with
  | O => Fuel
  | S fuel' =>
      do tag <- next_tag_m m buffer (snd span);
      match tag with
      | (None, _) => Ok t
      | (Some tag_start, None) => fail_m m PInvalidSyntax buffer tag_start
      | (Some tag_start, Some tag_end) =>
          if selfclosing_root then fail_m m POnlyOneRoot buffer tag_start
          else
            do text <- slice buffer (snd span) tag_start;
            do rt <- real_text_m m text;
            do t <- match rt with
                    | None => Ok t
                    | Some content => at_pos_m m (pt_append t (NText content)) buffer tag_start
                    end;
            do slc <- slice buffer tag_start tag_end;
            do t <- parse_tag_m m buffer slc tag_start t;
            content_loop_m m fuel' buffer selfclosing_root (tag_start, tag_end) t
      end
  end.

(** src/lib.rs:381-602 [parse_str] *)
Definition parse_str_m (m : machine) (buffer : str) : outcome document :=
  let fuel := S (blen buffer) in
  do r <- prolog_loop_m m fuel buffer None [] 0 (0, 0);
  let '(decl, dtds, span) := r in
  do root_slice <- slice buffer (fst span) (snd span);
  do tag_def <- strip_tag root_slice;
  do root <- parse_new_element_m m tag_def buffer (fst span) None;
  do t <- pt_push pt_new root;
  let selfclosing_root := ends_with (lit "/>") root_slice in
  do t <- (if selfclosing_root then pt_pop t else Ok t);
  do t <- content_loop_m m fuel buffer selfclosing_root span t;
  if negb (pt_empty_stack t) then Err (ParsingError PRootNotClosed None)
  else
    do e <- pt_to_dom_m m t;
    Ok (doc_new_with_decl_dtd e decl (Some dtds)).

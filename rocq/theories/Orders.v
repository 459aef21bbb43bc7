(** The functions that iterate over a hash map, with the iteration order as a
    parameter.  Rust does not say in which order a [HashMap] is iterated, and with
    the default hasher it differs from map to map and from run to run.  In Base.v
    a map is a list and is iterated in the order of the list; here every loop over
    a map may use another order. *)
From Coq Require Import List NArith Arith Bool Ascii String.
From Verif Require Import Base Escape Dom Regex ParseTree Parse.
Import ListNotations.

(** Each loop over a map has a place, a list of numbers; [o place m] is the order
    in which the map [m] is iterated there.  [within k o] is for a part of a
    computation: its places are those of [o] that start with [k]. *)
Definition order := list nat -> amap -> amap.
Definition within (k : nat) (o : order) : order := fun place => o (k :: place).

(** src/dom.rs:821-825, the loop of [set_namespace_context] over the prefixes of
    the parent; the rest as in Dom.v. *)
Definition set_namespace_context_o (o : order) (e : elem) (parent_default : option str)
  (parent_prefixes : option amap) : elem :=
  set_namespace_context e parent_default (option_map (o []) parent_prefixes).
(** src/dom.rs:1174-1190 *)
Definition apply_xmlns_context_o (o : order) (df : option str) (ctx : amap) (n : node) : node :=
  match n with
  | NElem c => NElem (set_namespace_context_o o c df (Some ctx))
  | _ => n
  end.
(** src/dom.rs:1162-1172 [append] / [append_boxed] *)
Definition append_o (o : order) (e : elem) (n : node) : outcome elem :=
  let n' := apply_xmlns_context_o o (default_namespace e) (e_context e) n in
  do l <- cleanup_text_nodes (e_children e ++ [n']);
  Ok (set_children e l).
(** src/dom.rs:1261-1266 *)
Fixpoint apply_at_o (o : order) (df : option str) (ctx : amap) (idx : list nat) (l : list node)
  : outcome (list node) :=
  match idx with
  | [] => Ok l
  | i :: idx' =>
      do n <- vget l i;
      do l' <- vset l i (apply_xmlns_context_o (within 0 o) df ctx n);
      apply_at_o (within 1 o) df ctx idx' l'
  end.
(** src/dom.rs:1249-1269 [append_all] *)
Definition append_all_o (o : order) (e : elem) (nodes : list node) : outcome elem :=
  let '(l, idx) := push_recording nodes (List.length (e_children e)) (e_children e) [] in
  do l1 <- apply_at_o o (default_namespace e) (e_context e) idx l;
  do l2 <- cleanup_text_nodes l1;
  Ok (set_children e l2).
(** src/dom.rs:1273-1287 [insert] *)
Definition insert_o (o : order) (e : elem) (index : nat) (n : node) : outcome elem :=
  if List.length (e_children e) <? index
  then Err (IndexOutOfBounds index 0 (List.length (e_children e)))
  else
    do l <- vinsert (e_children e) index n;
    do last <- vget l (List.length l - 1);
    do l <- vset l (List.length l - 1)
              (apply_xmlns_context_o o (default_namespace e) (e_context e) last);
    do l <- cleanup_text_nodes l;
    Ok (set_children e l).
(** src/dom.rs:881-884 [set_text] *)
Definition set_text_o (o : order) (e : elem) (t : str) : outcome elem :=
  append_o o (clear_children e) (NText t).
(** src/dom.rs:435-497 [Element::new]: loops over the given map (:450) and over
    the new one (:609). *)
Definition element_new_o (o : order) (nm : str) (text : option str) (attrs : option amap)
  (xmlns prefix : option str) (children : option (list node)) : outcome elem :=
  do _u <- check_elem_name nm;
  do attrs <- match attrs with None => Ok [] | Some m => convert_attrs (o [0] m) [] end;
  let xmlns := match xmlns with
               | Some x => Some x
               | None => match prefix with
                         | None => aget sXmlns attrs
                         | Some p => aget (sXmlnsC ++ p) attrs
                         end
               end in
  let e := mkElem nm [] attrs xmlns prefix (xmlns_context_from_attributes (o [1] attrs)) in
  do e <- match text with None => Ok e | Some t => append_o (within 2 o) e (NText t) end;
  match children with None => Ok e | Some l => append_all_o (within 3 o) e l end.
(** src/dom.rs:795-802 [namespace_prefixes] *)
Definition namespace_prefixes_o (o : order) (e : elem) : option amap :=
  match xmlns_context_from_attributes (o [] (e_attributes e)) with
  | [] => None
  | p => Some p
  end.

(** [HashMap == HashMap]: the first map is iterated. *)
Definition amap_eqb_o (o : order) (m1 m2 : amap) : bool := amap_eqb (o [] m1) m2.
(** src/dom.rs:1594-1609 [PartialEq for Element] *)
Fixpoint elem_eqb_o (o : order) (e1 e2 : elem) : bool :=
  match e1, e2 with
  | mkElem n1 c1 a1 x1 p1 _, mkElem n2 c2 a2 x2 p2 _ =>
      str_eqb n1 n2 && ostr_eqb x1 x2 && ostr_eqb p1 p2 && amap_eqb_o (within 0 o) a1 a2
      && (List.length c1 =? List.length c2)
      && (fix go (o : order) (l1 l2 : list node) : bool :=
            match l1, l2 with
            | NElem a :: l1', NElem b :: l2' => elem_eqb_o (within 0 o) a b && go (within 1 o) l1' l2'
            | NText a :: l1', NText b :: l2' => str_eqb a b && go (within 1 o) l1' l2'
            | NComment a :: l1', NComment b :: l2' => str_eqb a b && go (within 1 o) l1' l2'
            | NCData a :: l1', NCData b :: l2' => str_eqb a b && go (within 1 o) l1' l2'
            | [], [] => true
            | _, _ => false
            end) (within 1 o) c1 c2
  end.

(** src/dom.rs:1424-1432: the attributes are collected in the order of the map,
    then sorted. *)
Definition attrs_to_string_o (o : order) (a : amap) : str :=
  flat_map attr_to_string (sort_by attribute_order (o [] a)).
(** src/dom.rs:1415-1486 [to_string_with_prefix_and_indent] *)
Fixpoint elem_to_string_o (o : order) (prefix indent : str) (inline : bool) (e : elem) {struct e} : str :=
  match e with
  | mkElem nm ch at_ _ px _ =>
      let tag := tag_name_of px nm in
      let out := (if inline then [] else prefix) ++ sLt ++ tag ++ attrs_to_string_o (within 0 o) at_ in
      match ch with
      | [] => out ++ lit "/>"
      | c0 :: rest =>
          if (match rest with [] => true | _ => false end) && negb (is_element c0)
          then out ++ sGt ++ leaf_to_string c0 ++ lit "</" ++ tag ++ sGt
          else
            let inline := inline || existsb is_text ch in
            let next_prefix := prefix ++ indent in
            out ++ sGt ++ (if inline then [] else [cNL]) ++
            (fix go (o : order) (l : list node) : str :=
               match l with
               | [] => []
               | c :: l' =>
                   (match c with
                    | NText t => text_escape t
                    | NElem e' => elem_to_string_o (within 0 o) next_prefix indent inline e'
                    | NComment _ | NCData _ =>
                        (if inline then [] else next_prefix) ++ leaf_to_string c
                    end) ++ (if inline then [] else [cNL]) ++ go (within 1 o) l'
               end) (within 1 o) ch ++
            (if inline then [] else prefix) ++ lit "</" ++ tag ++ sGt
      end
  end.
(** src/dom.rs:1543-1551 and :128-152 *)
Definition elem_to_string_with_indent_o (o : order) (e : elem) (indent : str) : str :=
  if validate_indent indent then elem_to_string_o o [] indent false e
  else elem_to_string_o o [] default_indent false e.
Definition doc_to_string_with_indent_o (o : order) (d : document) (indent : str) : str :=
  let indent := if validate_indent indent then indent else default_indent in
  (match d_declaration d with
   | None => []
   | Some decl => declaration_to_string decl ++ [cNL]
   end) ++
  flat_map (fun dtd => dtd_to_string dtd ++ [cNL]) (d_dtds d) ++
  elem_to_string_with_indent_o o (d_root d) indent ++ [cNL].

(** * Parsing *)

(** src/parsing.rs:108-116 *)
Definition to_dom_step_o (o : order) (i : nat) (data : list (nat * ptnode)) : outcome (list (nat * ptnode)) :=
  do n <- unwrap (dget i data);
  let data := ddel i data in
  let value := match pt_value n with
               | NElem e => NElem (reverse_children e)
               | v => v
               end in
  do parent_index <- unwrap (pt_parent n);
  do p <- unwrap (dget parent_index data);
  do pe <- expect (as_element (pt_value p));
  do pe <- append_o o pe value;
  Ok (dset parent_index (mkPT (pt_id p) (NElem pe) (pt_parent p) (pt_children p)) data).
Fixpoint to_dom_loop_o (o : order) (k : nat) (data : list (nat * ptnode)) : outcome (list (nat * ptnode)) :=
  match k with
  | O => Ok data
  | S k' => do data <- to_dom_step_o (within 0 o) k data; to_dom_loop_o (within 1 o) k' data
  end.
(** src/parsing.rs:96-129 [to_dom] *)
Definition pt_to_dom_o (o : order) (t : ptree) : outcome elem :=
  match t_data t with
  | [] => Err (ParsingError PNoRootElement None)
  | _ :: _ =>
      do data <- to_dom_loop_o o (List.length (t_data t) - 1) (t_data t);
      do root <- unwrap (dget 0 data);
      do e <- expect (as_element (pt_value root));
      Ok (reverse_children e)
  end.
(** src/lib.rs:620-691 [parse_new_element] *)
Definition parse_new_element_o (o : order) (tag_content buffer : str) (pos : nat) (parent : option elem) : outcome elem :=
  match join_spaced_attributes (quote_aware_split tag_content) with
  | [] => Err (perr PEmptyTag buffer pos)
  | nm :: comps =>
      do attrs <- parse_attrs comps buffer pos [];
      let inherited_default := match parent with None => None | Some p => default_namespace p end in
      let inherited_ctx := match parent with None => None | Some p => Some (get_namespace_context p) end in
      do nxp <-
        match split_once cColon nm with
        | None => Ok (nm, None, None)
        | Some (a, b) =>
            let prefix_key := sXmlnsC ++ a in
            if ahas prefix_key attrs then Ok (b, aget prefix_key attrs, Some a)
            else match inherited_ctx with
                 | None => Err (perr (PUndefPrefix a) buffer pos)
                 | Some ctx => Ok (b, aget prefix_key ctx, Some a)
                 end
        end;
      let '(nm, xmlns, prefix) := nxp in
      do e <- element_new_o (within 0 o) nm None (Some attrs) xmlns prefix None;
      Ok (set_namespace_context_o (within 1 o) e inherited_default inherited_ctx)
  end.
(** src/lib.rs:497-585 *)
Definition parse_tag_o (o : order) (buffer slc : str) (tag_start : nat) (t : ptree) : outcome ptree :=
  if starts_with (lit "<!--") slc && ends_with (lit "-->") slc then
    let b := 4 in
    let e := blen slc - 3 in
    if b <? e then
      do content <- slice slc b e;
      do c <- comment_new content;
      map_err (pt_append t (NComment c)) (at_pos buffer tag_start)
    else if b =? e then
      do c <- comment_new [];
      pt_append t (NComment c)
    else Err (perr PInvalidComment buffer tag_start)
  else if starts_with (lit "<![CDATA[") slc then
    if negb (ends_with (lit "]]>") slc) then Err (perr PUnclosedCData buffer tag_start)
    else
      do content <- slice slc 9 (blen slc - 3);
      do c <- cdata_new content;
      map_err (pt_append t (NCData c)) (at_pos buffer tag_start)
  else if starts_with (lit "<!") slc then
    do what <- abbreviate slc 32;
    Err (NotSupportedError what (Some (line_and_column buffer tag_start)))
  else
    do tag_def <- strip_tag slc;
    do _c <- map_err (check_element_tag slc) (at_pos buffer tag_start);
    if starts_with (lit "</") slc then
      do top <- pt_top_element t;
      match top with
      | None => Err (perr PRootAlreadyClosed buffer tag_start)
      | Some active =>
          if negb (str_eqb tag_def (tag_name active))
          then Err (perr (PCloseMismatch slc (tag_name active)) buffer tag_start)
          else pt_pop t
      end
    else
      do top <- pt_top_element t;
      do new_element <- parse_new_element_o o tag_def buffer tag_start top;
      if ends_with (lit "/>") slc
      then map_err (pt_append t (NElem new_element)) (at_pos buffer tag_start)
      else pt_push t new_element.
(** src/lib.rs:457-587 *)
Fixpoint content_loop_o (o : order) (fuel : nat) (buffer : str) (selfclosing_root : bool)
  (span : nat * nat) (t : ptree) : outcome ptree :=
  match fuel with
  | O => Fuel
  | S fuel' =>
      do tag <- next_tag buffer (snd span);
      match tag with
      | (None, _) => Ok t
      | (Some tag_start, None) => Err (perr PInvalidSyntax buffer tag_start)
      | (Some tag_start, Some tag_end) =>
          if selfclosing_root then Err (perr POnlyOneRoot buffer tag_start)
          else
            do text <- slice buffer (snd span) tag_start;
            do rt <- real_text text;
            do t <- match rt with
                    | None => Ok t
                    | Some content =>
                        map_err (pt_append t (NText content)) (at_pos buffer tag_start)
                    end;
            do slc <- slice buffer tag_start tag_end;
            do t <- parse_tag_o (within 0 o) buffer slc tag_start t;
            content_loop_o (within 1 o) fuel' buffer selfclosing_root (tag_start, tag_end) t
      end
  end.
(** src/lib.rs:381-602 [parse_str]; the loop over the prolog has no maps. *)
Definition parse_str_o (o : order) (buffer : str) : outcome document :=
  let fuel := S (blen buffer) in
  do r <- prolog_loop fuel buffer None [] 0 (0, 0);
  let '(decl, dtds, span) := r in
  do root_slice <- slice buffer (fst span) (snd span);
  do tag_def <- strip_tag root_slice;
  do root <- parse_new_element_o (within 0 o) tag_def buffer (fst span) None;
  do t <- pt_push pt_new root;
  let selfclosing_root := ends_with (lit "/>") root_slice in
  do t <- (if selfclosing_root then pt_pop t else Ok t);
  do t <- content_loop_o (within 1 o) fuel buffer selfclosing_root span t;
  if negb (pt_empty_stack t) then Err (ParsingError PRootNotClosed None)
  else
    do e <- pt_to_dom_o (within 2 o) t;
    Ok (doc_new_with_decl_dtd e decl (Some dtds)).

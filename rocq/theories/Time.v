(** The crate with a clock: every function of the model that a text or a node
    passes through on its way into a tree has a version with the suffix _t here,
    which gives the same result and counts steps.  A step is a bounded amount of
    work: one round of a loop of the crate (without what it calls), or one byte
    or one item handled by an operation of the standard library, as listed below.
    Constant factors (allocation, hashing a byte, compiling a pattern that does not
    depend on the input) are not modelled. *)
From Coq Require Import List NArith Arith Bool Ascii String.
From Verif Require Import Base Escape Dom ParseTree Parse SpecSize.
Import ListNotations.

(** * Computations with a number of steps *)

Record timed (A : Type) := mkTimed { steps : nat; result : outcome A }.
Arguments mkTimed {A} steps result.
Arguments steps {A} t.
Arguments result {A} t.
(** [after k x]: [k] steps, and the outcome [x]. *)
Definition after {A} (k : nat) (x : outcome A) : timed A := mkTimed k x.
(** [spend k x]: [k] more steps. *)
Definition spend {A} (k : nat) (x : timed A) : timed A := mkTimed (k + steps x) (result x).
(** One after the other; an error or a panic ends it. *)
Definition tbind {A B} (x : timed A) (f : A -> timed B) : timed B :=
  match result x with
  | Ok a => let y := f a in mkTimed (steps x + steps y) (result y)
  | Err e => mkTimed (steps x) (Err e)
  | Panic => mkTimed (steps x) Panic
  | Fuel => mkTimed (steps x) Fuel
  end.
Notation "'do*' x <- e ; k" := (tbind e (fun x => k))
  (at level 200, x pattern, e at level 100, k at level 200, right associativity).

(** * What the operations of the standard library take *)

(** Length, slices ([&s[a..b]]), [Vec] indexing, [push] and [pop], comparing
    characters, [starts_with], [ends_with] and [==] with a text of the source, and
    everything else that does not look at the whole of its argument: one step.
    [to_string], [clone], [push_str], [format!]: the bytes written. *)
Definition copy_t (s : str) : nat := 1 + blen s.
Definition copy_opt_t (o : option str) : nat := match o with None => 1 | Some s => copy_t s end.
(** [find], [contains], [split_once]: the bytes up to the end of the first occurrence, or all. *)
Definition find_t (pat s : str) : nat := 1 + match find_sub pat s with Some i => i + blen pat | None => blen s end.
(** [Regex::is_match]: linear in the text. *)
Definition regex_t (s : str) : nat := 1 + blen s.
(** [u32::from_str_radix]: the digits up to the first character that is none. *)
Fixpoint digits_read (s : str) : nat :=
  match s with
  | [] => 0
  | c :: s' => match hex_digit c with Some _ => S (digits_read s') | None => 0 end
  end.
Definition radix_t (s : str) : nat :=
  2 + match s with c :: s' => if (c =? 43)%N then digits_read s' else digits_read s | [] => 0 end.
(** [HashMap::get], [insert], [contains_key], [remove]: the bytes of the key. *)
Definition key_t (k : str) : nat := 1 + blen k.
(** Cloning a [HashMap]: all bytes in it. *)
Definition map_t (m : amap) : nat := 1 + sum (fun kv => 1 + blen (fst kv) + blen (snd kv)) m.
(** [Vec::insert], [Vec::remove]: the items behind the index, which are moved. *)
Definition shift_t {A} (l : list A) (i : nat) : nat := 1 + (List.length l - i).

(** * Escaping *)

(** src/lib.rs:354-359 [string_insert] *)
Definition string_insert_t (buffer : str) (a b : nat) (insert : str) : timed str :=
  do* back <- after 1 (slice_from buffer b);
  do* front <- after (copy_t back + 1) (truncate buffer a);
  after (copy_t insert + copy_t back) (Ok (front ++ insert ++ back)).

(** src/lib.rs:293-327, the body of [if k == ';'] *)
Definition unescape_entity_t (i j : nat) (slc buffer : str) (char_size : nat) : timed (str * nat) :=
  let start := i in
  let fin := i + j + 1 in
  do* slc <- after 1 (slice_to slc j);
  do* buffer <- (if str_eqb slc (lit "&amp") then string_insert_t buffer start fin sAmp else after 1 (Ok buffer));
  do* buffer <- (if str_eqb slc (lit "&lt") then string_insert_t buffer start fin sLt else after 1 (Ok buffer));
  do* buffer <- (if str_eqb slc (lit "&gt") then string_insert_t buffer start fin sGt else after 1 (Ok buffer));
  do* buffer <- (if str_eqb slc (lit "&apos") then string_insert_t buffer start fin sApos else after 1 (Ok buffer));
  do* buffer <- (if str_eqb slc (lit "&quot") then string_insert_t buffer start fin sQuot else after 1 (Ok buffer));
  if starts_with (lit "&#") slc then
    do* hex <- after 1 (slice_from slc 2);
    spend (radix_t hex)
    match from_str_radix16 hex with
    | Some codepoint =>
        match char_from_u32 codepoint with
        | Some unicode =>
            do* buffer <- string_insert_t buffer start fin [unicode];
            after 1 (Ok (buffer, len_utf8 unicode))
        | None => after 1 (Ok (buffer, char_size))
        end
    | None => after 1 (Ok (buffer, char_size))
    end
  else after 1 (Ok (buffer, char_size)).

(** src/lib.rs:291-328, the [for] loop over the rest of the text *)
Fixpoint unescape_scan_t (i : nat) (slc rest : str) (j : nat) (buffer : str) (char_size : nat)
  : timed (str * nat) :=
  match rest with
  | [] => after 1 (Ok (buffer, char_size))
  | k :: rest' =>
      let char_size := len_utf8 k in
      do* bc <- (if (k =? cSemi)%N then unescape_entity_t i j slc buffer char_size
                 else after 1 (Ok (buffer, char_size)));
      spend 1 (unescape_scan_t i slc rest' (j + len_utf8 k) (fst bc) (snd bc))
  end.

(** src/lib.rs:282-332, the outer [loop]; line 289 copies the rest of the text. *)
Fixpoint unescape_loop_t (fuel : nat) (buffer : str) (last_i : nat) : timed str :=
  match fuel with
  | O => after 0 Fuel
  | S fuel' =>
      if blen buffer <=? last_i then after 1 (Ok buffer)
      else
        do* tail <- after 1 (slice_from buffer last_i);
        spend (find_t sAmp tail)
        match find_sub sAmp tail with
        | None => after 1 (Ok buffer)
        | Some i0 =>
            let i := i0 + last_i in
            do* slc <- after 1 (slice_from buffer i);
            do* bc <- spend (copy_t slc) (unescape_scan_t i slc slc 0 buffer 1);
            unescape_loop_t fuel' (fst bc) (i + snd bc)
        end
  end.
(** src/lib.rs:279-334 [unescape] *)
Definition unescape_t (text : str) : timed str := unescape_loop_t (S (blen text)) text 0.

(** src/lib.rs:867-878 [real_text] *)
Definition real_text_t (text : str) : timed (option str) :=
  spend (regex_t text)
    (if is_blank text then after 1 (Ok None)
     else do* s <- unescape_t text; after 1 (Ok (Some s))).

(** * Positions in messages *)

(** src/lib.rs:881-893 [line_and_column]: the rounds of the loop *)
Fixpoint line_and_column_steps (s : str) (i pos : nat) : nat :=
  match s with
  | [] => 1
  | c :: s' => S (if pos <=? i then 0 else line_and_column_steps s' (i + len_utf8 c) pos)
  end.
(** An error that names the position of byte [pos], and with [map_err] *)
Definition fail_t {A} (m : pmsg) (buffer : str) (pos : nat) : timed A :=
  after (line_and_column_steps buffer 0 pos) (Err (perr m buffer pos)).
Definition map_err_t {A} (x : timed A) (f : error -> error) (buffer : str) (pos : nat) : timed A :=
  mkTimed (steps x + match result x with Err _ => line_and_column_steps buffer 0 pos | _ => 0 end) (map_err (result x) f).

(** * Finding tags *)

(** src/lib.rs:811-832 [quote_aware_find] *)
Fixpoint quote_aware_find_from_t (pattern rest : str) (i : nat) (quote : option char) : timed (option nat) :=
  match rest with
  | [] => after 1 (Ok None)
  | c :: rest' =>
      spend 1
      match quote with
      | Some q =>
          quote_aware_find_from_t pattern rest' (i + len_utf8 c)
            (if (c =? q)%N then None else quote)
      | None =>
          if (c =? cDq)%N then quote_aware_find_from_t pattern rest' (i + len_utf8 c) (Some cDq)
          else if (c =? cSq)%N then quote_aware_find_from_t pattern rest' (i + len_utf8 c) (Some cSq)
          else if starts_with pattern rest then after 1 (Ok (Some i))
          else quote_aware_find_from_t pattern rest' (i + len_utf8 c) None
      end
  end.
Definition quote_aware_find_t (text pattern : str) (from : nat) : timed (option nat) :=
  do* rest <- after 1 (slice_from text from);
  quote_aware_find_from_t pattern rest from None.

(** src/lib.rs:835-862 [nested_quote_aware_find_close] *)
Fixpoint nested_find_from_t (rest : str) (i depth : nat) (quote : option char) : timed (option nat) :=
  match rest with
  | [] => after 1 (Ok None)
  | c :: rest' =>
      spend 1
      match quote with
      | Some q =>
          nested_find_from_t rest' (i + len_utf8 c) depth (if (c =? q)%N then None else quote)
      | None =>
          if (c =? cDq)%N then nested_find_from_t rest' (i + len_utf8 c) depth (Some cDq)
          else if (c =? cSq)%N then nested_find_from_t rest' (i + len_utf8 c) depth (Some cSq)
          else if (c =? cLt)%N then nested_find_from_t rest' (i + len_utf8 c) (S depth) None
          else if (c =? cGt)%N then
            match depth with
            | O => after 1 (Ok (Some i))
            | S d => nested_find_from_t rest' (i + len_utf8 c) d None
            end
          else nested_find_from_t rest' (i + len_utf8 c) depth None
      end
  end.
Definition nested_quote_aware_find_close_t (text : str) (from : nat) : timed (option nat) :=
  do* rest <- after 1 (slice_from text from);
  nested_find_from_t rest from 0 None.

(** src/lib.rs:747-773 [next_tag] *)
Definition next_tag_t (buffer : str) (from : nat) : timed (option nat * option nat) :=
  do* tail <- after 1 (slice_from buffer from);
  spend (find_t (lit "<") tail)
  match add_opt from (find_sub (lit "<") tail) with
  | None => after 1 (Ok (None, None))
  | Some start =>
      do* sub <- after 1 (slice_from buffer start);
      spend 4
      (if starts_with (lit "<!--") sub then
        after (find_t (lit "-->") sub) (Ok (Some start, add_opt (start + 3) (find_sub (lit "-->") sub)))
      else if starts_with (lit "<?") sub then
        do* r <- quote_aware_find_t sub (lit "?>") 2;
        after 1 (Ok (Some start, add_opt (start + 2) r))
      else if starts_with (lit "<![CDATA[") sub then
        after (find_t (lit "]]>") sub) (Ok (Some start, add_opt (start + 3) (find_sub (lit "]]>") sub)))
      else if starts_with (lit "<!") sub then
        do* r <- nested_quote_aware_find_close_t sub 2;
        after 1 (Ok (Some start, add_opt (start + 1) r))
      else
        do* r <- quote_aware_find_t sub (lit ">") 1;
        after 1 (Ok (Some start, add_opt (start + 1) r)))
  end.

(** * Elements *)

(** src/dom.rs:606-619 [xmlns_context_from_attributes]: for each attribute a look at
    the key; prefix and value of a declaration are copied and put into the table. *)
Definition context_steps (attrs : amap) : nat :=
  1 + sum (fun kv => 1 + if starts_with sXmlnsC (fst kv) then find_t [cColon] (fst kv) + copy_t (fst kv) + copy_t (snd kv) + key_t (fst kv) else 0) attrs.
(** src/dom.rs:806-838 [set_namespace_context]; the tables given to it have been
    cloned by the caller. *)
Definition set_namespace_context_t (e : elem) (parent_default : option str) (parent_prefixes : option amap) : timed elem :=
  let r := set_namespace_context e parent_default parent_prefixes in
  after (copy_opt_t (default_namespace e) +
         (match parent_prefixes with
          | None => 1
          | Some p => 1 + sum (fun kv => key_t (fst kv) + key_t (fst kv)) p
          end) +
         (match e_prefix e with Some p => key_t p + copy_opt_t (e_xmlns r) | None => 1 end))
        (Ok r).
(** src/dom.rs:1174-1190 [apply_xmlns_context_to_child_node]; the default namespace
    and the table are cloned for every node. *)
Definition apply_xmlns_context_t (df : option str) (ctx : amap) (n : node) : timed node :=
  spend (copy_opt_t df + map_t ctx)
  match n with
  | NElem c => do* c <- set_namespace_context_t c df (Some ctx); after 1 (Ok (NElem c))
  | _ => after 1 (Ok n)
  end.

(** src/dom.rs:1196-1207, first loop of [cleanup_text_nodes]: two texts are taken out,
    joined, and put back. *)
Fixpoint merge_text_loop_t (index : nat) (l : list node) : timed (list node) :=
  match index with
  | O => after 1 (Ok l)
  | S i =>
      do* a <- after 1 (vget l (S i));
      if is_text a then
        do* b <- after 1 (vget l i);
        if is_text b then
          do* back_l <- after (shift_t l (S i)) (vremove l (S i));
          do* front_l <- after (shift_t (snd back_l) i) (vremove (snd back_l) i);
          do* f <- after 1 (expect (as_text (fst front_l)));
          do* b <- after 1 (expect (as_text (fst back_l)));
          do* l' <- after (copy_t (text_concat f b) + shift_t (snd front_l) i)
                      (vinsert (snd front_l) i (NText (text_concat f b)));
          merge_text_loop_t i l'
        else merge_text_loop_t i l
      else merge_text_loop_t i l
  end.
(** src/dom.rs:1210-1219, second loop: every text is matched against the pattern for
    white space. *)
Fixpoint drop_blank_loop_t (index : nat) (l : list node) : timed (list node) :=
  do* a <- after 1 (vget l index);
  do* l' <- (if is_text a then
               do* t <- after 1 (expect (as_text a));
               spend (regex_t t)
               (if text_is_whitespace t then do* r <- after (shift_t l index) (vremove l index); after 1 (Ok (snd r)) else after 1 (Ok l))
             else after 1 (Ok l));
  match index with
  | O => after 1 (Ok l')
  | S i => drop_blank_loop_t i l'
  end.
(** src/dom.rs:1192-1221 [cleanup_text_nodes] *)
Definition cleanup_text_nodes_t (l : list node) : timed (list node) :=
  match l with
  | [] => after 1 (Ok [])
  | _ :: _ =>
      do* l1 <- merge_text_loop_t (List.length l - 1) l;
      match l1 with
      | [] => after 1 Panic
      | _ :: _ => drop_blank_loop_t (List.length l1 - 1) l1
      end
  end.
(** src/dom.rs:1162-1172 [append] / [append_boxed] *)
Definition append_t (e : elem) (n : node) : timed elem :=
  do* n' <- apply_xmlns_context_t (default_namespace e) (e_context e) n;
  do* l <- cleanup_text_nodes_t (e_children e ++ [n']);
  after 1 (Ok (set_children e l)).

(** src/dom.rs:1261-1266 *)
Fixpoint apply_at_t (df : option str) (ctx : amap) (idx : list nat) (l : list node) : timed (list node) :=
  match idx with
  | [] => after 1 (Ok l)
  | i :: idx' =>
      do* n <- after 1 (vget l i);
      do* n' <- apply_xmlns_context_t df ctx n;
      do* l' <- after 1 (vset l i n');
      apply_at_t df ctx idx' l'
  end.
(** src/dom.rs:1249-1269 [append_all] *)
Definition append_all_t (e : elem) (nodes : list node) : timed elem :=
  let '(l, idx) := push_recording nodes (List.length (e_children e)) (e_children e) [] in
  spend (1 + List.length nodes)
  (do* l1 <- apply_at_t (default_namespace e) (e_context e) idx l;
   do* l2 <- cleanup_text_nodes_t l1;
   after 1 (Ok (set_children e l2))).
(** src/dom.rs:1273-1287 [insert] *)
Definition insert_t (e : elem) (index : nat) (n : node) : timed elem :=
  if List.length (e_children e) <? index
  then after 1 (Err (IndexOutOfBounds index 0 (List.length (e_children e))))
  else
    do* l <- after (shift_t (e_children e) index) (vinsert (e_children e) index n);
    do* last <- after 1 (vget l (List.length l - 1));
    do* last' <- apply_xmlns_context_t (default_namespace e) (e_context e) last;
    do* l <- after 1 (vset l (List.length l - 1) last');
    do* l <- cleanup_text_nodes_t l;
    after 1 (Ok (set_children e l)).

(** src/dom.rs:450-454: each attribute is copied, its name checked, and put into
    the new table. *)
Fixpoint convert_attrs_t (given : amap) (attrs : amap) : timed amap :=
  match given with
  | [] => after 1 (Ok attrs)
  | (k, v) :: given' =>
      do* _u <- after (copy_t k + regex_t k) (check_attr_name k);
      spend (copy_t v + key_t k) (convert_attrs_t given' (aset k v attrs))
  end.
(** src/dom.rs:435-497 [Element::new] *)
Definition element_new_t (nm : str) (text : option str) (attrs : option amap)
  (xmlns prefix : option str) (children : option (list node)) : timed elem :=
  do* _u <- after (copy_t nm + regex_t nm) (check_elem_name nm);
  do* attrs <- match attrs with None => after 1 (Ok []) | Some m => convert_attrs_t m [] end;
  let xmlns := match xmlns with
               | Some x => Some x
               | None => match prefix with
                         | None => aget sXmlns attrs
                         | Some p => aget (sXmlnsC ++ p) attrs
                         end
               end in
  let e := mkElem nm [] attrs xmlns prefix (xmlns_context_from_attributes attrs) in
  spend (copy_opt_t prefix + copy_opt_t prefix + copy_opt_t xmlns + context_steps attrs + 12)
  (do* e <- match text with None => after 1 (Ok e) | Some t => append_t e (NText t) end;
   match children with None => after 1 (Ok e) | Some l => append_all_t e l end).

(** src/lib.rs:632-657, the attribute loop of [parse_new_element] *)
Fixpoint parse_attrs_t (comps : list str) (buffer : str) (pos : nat) (attrs : amap) : timed amap :=
  match comps with
  | [] => after 1 (Ok attrs)
  | kv :: comps' =>
      spend (find_t [cEq] kv)
      (if negb (contains (lit "=") kv) then fail_t PAttrForm buffer pos
      else
        do* k_v <- after (find_t [cEq] kv) (unwrap (split_once cEq kv));
        let k := fst k_v in
        let v := snd k_v in
        if blen v =? 0 then fail_t PAttrNoContent buffer pos
        else if (blen v <? 2)
                || negb ((starts_with [cDq] v && ends_with [cDq] v)
                         || (starts_with [cSq] v && ends_with [cSq] v))
        then fail_t PAttrQuote buffer pos
        else
          do* v <- after 6 (slice v 1 (blen v - 1));
          do* v <- spend (copy_t v) (unescape_t v);
          spend (copy_t k + key_t k) (parse_attrs_t comps' buffer pos (aset k v attrs)))
  end.

(** src/lib.rs:620-691 [parse_new_element].  [quote_aware_split] looks at each
    character once; [join_spaced_attributes] copies each component at most once. *)
Definition parse_new_element_t (tag_content buffer : str) (pos : nat) (parent : option elem) : timed elem :=
  spend (copy_t tag_content + copy_t tag_content + sum copy_t (quote_aware_split tag_content))
  match join_spaced_attributes (quote_aware_split tag_content) with
  | [] => fail_t PEmptyTag buffer pos
  | nm :: comps =>
      do* attrs <- parse_attrs_t comps buffer pos [];
      let inherited_default := match parent with None => None | Some p => default_namespace p end in
      let inherited_ctx := match parent with None => None | Some p => Some (get_namespace_context p) end in
      spend (copy_opt_t inherited_default + match inherited_ctx with None => 1 | Some c => map_t c end)
      (do* nxp <-
        spend (find_t [cColon] nm + find_t [cColon] nm)
        match split_once cColon nm with
        | None => after 1 (Ok (nm, None, None))
        | Some (a, b) =>
            let prefix_key := sXmlnsC ++ a in
            spend (copy_t a + copy_t prefix_key + key_t prefix_key + key_t prefix_key)
            (if ahas prefix_key attrs then after (copy_opt_t (aget prefix_key attrs)) (Ok (b, aget prefix_key attrs, Some a))
             else match inherited_ctx with
                  | None => fail_t (PUndefPrefix a) buffer pos
                  | Some ctx => after (copy_opt_t (aget prefix_key ctx)) (Ok (b, aget prefix_key ctx, Some a))
                  end)
        end;
       let '(nm, xmlns, prefix) := nxp in
       do* e <- element_new_t nm None (Some attrs) xmlns prefix None;
       set_namespace_context_t e inherited_default inherited_ctx)
  end.

(** src/lib.rs:717-724 [strip_tag]: eight tests and slices, [trim], [to_string] *)
Definition strip_tag_t (tag : str) : timed str := after (8 + copy_t tag + copy_t tag) (strip_tag tag).
(** src/lib.rs:730-743 [check_element_tag] *)
Definition check_element_tag_t (text : str) : timed unit := after (regex_t text) (check_element_tag text).
(** src/dom.rs:2036-2044, :2079-2087: copy, [trim], copy, tests, copy *)
Definition declaration_from_str_t (s : str) : timed str := after (4 + 4 * copy_t s) (declaration_from_str s).
Definition dtd_from_string_t (s : str) : timed str := after (4 + 4 * copy_t s) (dtd_from_string s).
(** [Comment::new], [CData::new] (src/dom.rs:1771-1778, :1902-1909): copy and [contains] *)
Definition comment_new_t (s : str) : timed str := after (copy_t s + find_t (lit "-->") s) (comment_new s).
Definition cdata_new_t (s : str) : timed str := after (copy_t s + find_t (lit "]]>") s) (cdata_new s).

(** * The arena *)

(** src/parsing.rs:34-94: a bounded number of operations on a [HashMap] with keys of
    one word *)
Definition pt_push_t (t : ptree) (e : elem) : timed ptree := after 6 (pt_push t e).
Definition pt_pop_t (t : ptree) : timed ptree := after 2 (pt_pop t).
Definition pt_append_t (t : ptree) (n : node) : timed ptree := after 6 (pt_append t n).
Definition pt_top_element_t (t : ptree) : timed (option elem) := after 2 (pt_top_element t).

(** src/parsing.rs:108-116, one round of the loop of [to_dom] *)
Definition to_dom_step_t (i : nat) (data : list (nat * ptnode)) : timed (list (nat * ptnode)) :=
  do* n <- after 1 (unwrap (dget i data));
  let data := ddel i data in
  let value := match pt_value n with NElem e => NElem (reverse_children e) | v => v end in
  spend (match pt_value n with NElem e => 1 + List.length (e_children e) | _ => 1 end)
  (do* parent_index <- after 1 (unwrap (pt_parent n));
  do* p <- after 1 (unwrap (dget parent_index data));
  do* pe <- after 1 (expect (as_element (pt_value p)));
  do* pe <- append_t pe value;
  after 1 (Ok (dset parent_index (mkPT (pt_id p) (NElem pe) (pt_parent p) (pt_children p)) data))).
Fixpoint to_dom_loop_t (k : nat) (data : list (nat * ptnode)) : timed (list (nat * ptnode)) :=
  match k with
  | O => after 1 (Ok data)
  | S k' => do* data <- to_dom_step_t k data; to_dom_loop_t k' data
  end.
(** src/parsing.rs:96-129 [to_dom] *)
Definition pt_to_dom_t (t : ptree) : timed elem :=
  match t_data t with
  | [] => after 1 (Err (ParsingError PNoRootElement None))
  | _ :: _ =>
      do* data <- to_dom_loop_t (List.length (t_data t) - 1) (t_data t);
      do* root <- after 1 (unwrap (dget 0 data));
      do* e <- after 1 (expect (as_element (pt_value root)));
      after (1 + List.length (e_children e)) (Ok (reverse_children e))
  end.

(** * The main loops *)

(** src/lib.rs:388-448, first loop; warnings write the tag or a part of it. *)
Fixpoint prolog_loop_t (fuel : nat) (buffer : str) (decl : option str) (dtds : list str)
  (no_comment_warn : nat) (span : nat * nat) : timed (option str * list str * (nat * nat)) :=
  match fuel with
  | O => after 0 Fuel
  | S fuel' =>
      do* tag <- next_tag_t buffer (snd span);
      match tag with
      | (None, _) => after 1 (Err (ParsingError PNoContent None))
      | (Some tag_start, None) => fail_t PNoClose buffer tag_start
      | (Some tag_start, Some tag_end) =>
          do* text_between <- after 1 (slice buffer (snd span) tag_start);
          do* rt <- real_text_t text_between;
          match rt with
          | Some _ => fail_t PTextOutsideRoot buffer (snd span)
          | None =>
              do* slc <- after 1 (slice buffer tag_start tag_end);
              spend 6
              (if starts_with (lit "<?xml") slc then
                if negb (fst span =? 0) then fail_t PDeclNotFirst buffer tag_start
                else
                  do* d <- declaration_from_str_t slc;
                  prolog_loop_t fuel' buffer (Some d) dtds no_comment_warn (tag_start, tag_end)
              else if starts_with (lit "<!--") slc then
                do* _w <- (if no_comment_warn =? 0
                           then do* _a <- after (copy_t slc) (abbreviate slc 32); after 1 (Ok tt) else after 1 (Ok tt));
                prolog_loop_t fuel' buffer decl dtds (S no_comment_warn) (tag_start, tag_end)
              else if starts_with (lit "<!DOCTYPE") slc then
                do* d <- dtd_from_string_t slc;
                prolog_loop_t fuel' buffer decl (dtds ++ [d]) no_comment_warn (tag_start, tag_end)
              else if starts_with (lit "<!") slc then
                spend (copy_t slc) (prolog_loop_t fuel' buffer decl dtds no_comment_warn (tag_start, tag_end))
              else if starts_with (lit "</") slc then fail_t PStartsWithClose buffer tag_start
              else
                do* _c <- map_err_t (check_element_tag_t slc)
                            (fun _ => perr PInvalidSyntax buffer tag_start) buffer tag_start;
                after 1 (Ok (decl, dtds, (tag_start, tag_end))))
          end
      end
  end.

(** src/lib.rs:497-585, handling of one tag *)
Definition parse_tag_t (buffer slc : str) (tag_start : nat) (t : ptree) : timed ptree :=
  spend 6
  (if starts_with (lit "<!--") slc && ends_with (lit "-->") slc then
    let b := 4 in
    let e := blen slc - 3 in
    if b <? e then
      do* content <- after 1 (slice slc b e);
      do* c <- comment_new_t content;
      map_err_t (pt_append_t t (NComment c)) (at_pos buffer tag_start) buffer tag_start
    else if b =? e then
      do* c <- comment_new_t [];
      pt_append_t t (NComment c)
    else fail_t PInvalidComment buffer tag_start
  else if starts_with (lit "<![CDATA[") slc then
    if negb (ends_with (lit "]]>") slc) then fail_t PUnclosedCData buffer tag_start
    else
      do* content <- after 1 (slice slc 9 (blen slc - 3));
      do* c <- cdata_new_t content;
      map_err_t (pt_append_t t (NCData c)) (at_pos buffer tag_start) buffer tag_start
  else if starts_with (lit "<!") slc then
    do* what <- after (copy_t slc + line_and_column_steps buffer 0 tag_start) (abbreviate slc 32);
    after 1 (Err (NotSupportedError what (Some (line_and_column buffer tag_start))))
  else
    do* tag_def <- strip_tag_t slc;
    do* _c <- map_err_t (check_element_tag_t slc) (at_pos buffer tag_start) buffer tag_start;
    if starts_with (lit "</") slc then
      do* top <- pt_top_element_t t;
      match top with
      | None => fail_t PRootAlreadyClosed buffer tag_start
      | Some active =>
          spend (copy_t (tag_name active))
          (if negb (str_eqb tag_def (tag_name active))
           then spend (copy_t slc + copy_t (tag_name active)) (fail_t (PCloseMismatch slc (tag_name active)) buffer tag_start)
           else pt_pop_t t)
      end
    else
      do* top <- pt_top_element_t t;
      do* new_element <- parse_new_element_t tag_def buffer tag_start top;
      if ends_with (lit "/>") slc
      then map_err_t (pt_append_t t (NElem new_element)) (at_pos buffer tag_start) buffer tag_start
      else pt_push_t t new_element).

(** src/lib.rs:457-587, second loop *)
Fixpoint content_loop_t (fuel : nat) (buffer : str) (selfclosing_root : bool)
  (span : nat * nat) (t : ptree) : timed ptree :=
  match fuel with
  | O => after 0 Fuel
  | S fuel' =>
      do* tag <- next_tag_t buffer (snd span);
      match tag with
      | (None, _) => after 1 (Ok t)
      | (Some tag_start, None) => fail_t PInvalidSyntax buffer tag_start
      | (Some tag_start, Some tag_end) =>
          if selfclosing_root then fail_t POnlyOneRoot buffer tag_start
          else
            do* text <- after 1 (slice buffer (snd span) tag_start);
            do* rt <- real_text_t text;
            do* t <- match rt with
                     | None => after 1 (Ok t)
                     | Some content =>
                         map_err_t (pt_append_t t (NText content)) (at_pos buffer tag_start) buffer tag_start
                     end;
            do* slc <- after 1 (slice buffer tag_start tag_end);
            do* t <- parse_tag_t buffer slc tag_start t;
            content_loop_t fuel' buffer selfclosing_root (tag_start, tag_end) t
      end
  end.

(** src/lib.rs:381-602 [parse_str]; the list of DTDs is copied at the end. *)
Definition parse_str_t (buffer : str) : timed document :=
  let fuel := S (blen buffer) in
  do* r <- prolog_loop_t fuel buffer None [] 0 (0, 0);
  let '(decl, dtds, span) := r in
  do* root_slice <- after 1 (slice buffer (fst span) (snd span));
  do* tag_def <- strip_tag_t root_slice;
  do* root <- parse_new_element_t tag_def buffer (fst span) None;
  do* t <- pt_push_t pt_new root;
  let selfclosing_root := ends_with (lit "/>") root_slice in
  do* t <- (if selfclosing_root then pt_pop_t t else after 1 (Ok t));
  do* t <- content_loop_t fuel buffer selfclosing_root span t;
  if negb (pt_empty_stack t) then after 1 (Err (ParsingError PRootNotClosed None))
  else
    do* e <- pt_to_dom_t t;
    after (1 + sum copy_t dtds) (Ok (doc_new_with_decl_dtd e decl (Some dtds))).

(** * Writing *)

(** [str::replace]: the bytes read and the bytes written. *)
Definition replace_t (from to s : str) : nat := 1 + blen s + blen (replace from to s).
(** src/lib.rs:252-257 [text_escape] *)
Definition text_escape_t (t : str) : nat :=
  let a := replace sAmp eAmp t in
  let b := replace sLt eLt a in
  copy_t t + replace_t sAmp eAmp t + replace_t sLt eLt a + replace_t sGt eGt b.
(** src/lib.rs:261-274 [attribute_escape], [escape] *)
Definition attribute_escape_t (t : str) : nat :=
  let a := replace sAmp eAmp t in
  let b := replace sLt eLt a in
  let c := replace sGt eGt b in
  let d := replace sApos eApos c in
  copy_t t + replace_t sAmp eAmp t + replace_t sLt eLt a + replace_t sGt eGt b + replace_t sApos eApos c + replace_t sQuot eQuot d.
(** [sort_by]: at most each with each other, and all bytes of both looked at *)
Definition sort_t (a : amap) : nat := 1 + List.length a * sum (fun kv => 1 + blen (fst kv) + blen (snd kv)) a.
(** src/dom.rs:1426-1432, one round of the loop over the attributes *)
Definition write_attr_t (kv : str * str) : nat := 4 + copy_t (fst kv) + attribute_escape_t (snd kv) + copy_t (attribute_escape (snd kv)).
(** src/dom.rs:1722-1724, :1842-1844, :1974-1976: leaf nodes *)
Definition write_leaf_t (n : node) : nat :=
  match n with NText t => copy_t t + text_escape_t t | NElem _ => 1 | _ => copy_t (leaf_to_string n) end.
(** src/dom.rs:1415-1486 [to_string_with_prefix_and_indent]: what is written for a
    child is a text of its own that is copied into the text of its parent (1468-1471). *)
Fixpoint write_t (prefix indent : str) (inline : bool) (e : elem) {struct e} : nat :=
  match e with
  | mkElem nm ch at_ _ px _ =>
      let tag := tag_name_of px nm in
      3 + (if inline then 0 else copy_t prefix) + copy_t tag + copy_t tag + sort_t at_ + sum write_attr_t at_ +
      match ch with
      | [] => 1
      | c0 :: rest =>
          if (match rest with [] => true | _ => false end) && negb (is_element c0)
          then 4 + write_leaf_t c0 + copy_t (leaf_to_string c0) + copy_t tag
          else
            let inline := inline || existsb is_text ch in
            let next_prefix := prefix ++ indent in
            5 + List.length ch + copy_t next_prefix +
            sum (fun c =>
              2 + match c with
                  | NText t => copy_t t + text_escape_t t + copy_t (text_escape t)
                  | NElem e' => write_t next_prefix indent inline e' + copy_t (elem_to_string next_prefix indent inline e')
                  | _ => (if inline then 0 else copy_t next_prefix) + write_leaf_t c + copy_t (leaf_to_string c)
                  end) ch +
            (if inline then 0 else copy_t prefix) + copy_t tag
      end
  end.
(** src/dom.rs:1543-1551 [to_string_with_indent] of an Element *)
Definition elem_write_t (e : elem) (indent : str) : nat :=
  1 + blen indent + if validate_indent indent then write_t [] indent false e else blen indent + write_t [] default_indent false e.
(** src/dom.rs:128-152 [Document::to_string_with_indent] *)
Definition doc_write_t (d : document) (indent : str) : nat :=
  let ind := if validate_indent indent then indent else default_indent in
  3 + copy_t indent + copy_t indent +
  match d_declaration d with None => 1 | Some x => copy_t (declaration_to_string x) + copy_t (declaration_to_string x) end +
  sum (fun x => 1 + copy_t x + copy_t x) (d_dtds d) +
  elem_write_t (d_root d) ind + copy_t (elem_to_string_with_indent (d_root d) ind).

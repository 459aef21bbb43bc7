(** Model of src/dom.rs: nodes, elements, documents and their API. *)
From Coq Require Import List NArith Arith Bool Ascii String.
From Verif Require Import Base Escape.
Import ListNotations.

(** * Nodes *)

(** src/dom.rs:225-235 [DomNodeType] *)
Inductive node_type := CDataNode | CommentNode | ElementNode | TextNode.

(** A [Box<dyn Node>]: one of the four structs implementing the trait
    (src/dom.rs:409-422 Element, :1633-1636 Text, :1764-1767 Comment,
    :1895-1898 CData).  Other implementations of the trait are in
    Objects.v. *)
Inductive node_ (E : Type) :=
| NElem (e : E)
| NText (content : str)
| NComment (comment : str)
| NCData (cdata : str).
Arguments NElem {E} e.
Arguments NText {E} content.
Arguments NComment {E} comment.
Arguments NCData {E} cdata.

(** src/dom.rs:409-422 [struct Element] *)
Inductive elem := mkElem {
  e_name : str;
  e_children : list (node_ elem);
  e_attributes : amap;
  e_xmlns : option str;
  e_prefix : option str;
  e_context : amap
}.
Notation node := (node_ elem).

(** src/dom.rs:1503-1517, :1682-1696, :1802-1816, :1934-1948 *)
Definition is_element (n : node) : bool := match n with NElem _ => true | _ => false end.
Definition is_text (n : node) : bool := match n with NText _ => true | _ => false end.
Definition is_comment (n : node) : bool := match n with NComment _ => true | _ => false end.
Definition is_cdata (n : node) : bool := match n with NCData _ => true | _ => false end.

(** src/dom.rs:287-299 *)
Definition node_type_of (n : node) : outcome node_type :=
  if is_cdata n then Ok CDataNode
  else if is_comment n then Ok CommentNode
  else if is_element n then Ok ElementNode
  else if is_text n then Ok TextNode
  else Panic.

(** src/dom.rs:1519-1525, :1698-1704, :1818-1824, :1950-1956 (and the [_mut]
    variants): casts. *)
Definition cast_name (n : node) : str :=
  match n with
  | NElem _ => lit "Element" | NText _ => lit "Text" | NComment _ => lit "Comment" | NCData _ => lit "CData"
  end.
Definition as_element (n : node) : outcome elem :=
  match n with NElem e => Ok e | _ => Err (TypeCastError (cast_name n) (lit "Element")) end.
Definition as_text (n : node) : outcome str :=
  match n with NText s => Ok s | _ => Err (TypeCastError (cast_name n) (lit "Text")) end.
Definition as_comment (n : node) : outcome str :=
  match n with NComment s => Ok s | _ => Err (TypeCastError (cast_name n) (lit "Comment")) end.
Definition as_cdata (n : node) : outcome str :=
  match n with NCData s => Ok s | _ => Err (TypeCastError (cast_name n) (lit "CData")) end.
(** [Result::expect] / [unwrap]: an [Err] becomes a panic. *)
Definition expect {A} (x : outcome A) : outcome A :=
  match x with Err _ => Panic | _ => x end.

Definition set_children (e : elem) (l : list node) : elem :=
  mkElem (e_name e) l (e_attributes e) (e_xmlns e) (e_prefix e) (e_context e).
Definition set_attributes (e : elem) (a : amap) : elem :=
  mkElem (e_name e) (e_children e) a (e_xmlns e) (e_prefix e) (e_context e).
Definition set_xmlns (e : elem) (x : option str) : elem :=
  mkElem (e_name e) (e_children e) (e_attributes e) x (e_prefix e) (e_context e).
Definition set_context (e : elem) (c : amap) : elem :=
  mkElem (e_name e) (e_children e) (e_attributes e) (e_xmlns e) (e_prefix e) c.

(** src/dom.rs:1575-1586 [Element::default] *)
Definition default_elem : elem := mkElem (lit "x") [] [] None None [].

(** * Text, Comment, CData *)

(** src/dom.rs:1649-1654 [Text::concat] *)
Definition text_concat (a b : str) : str := a ++ b.

(** src/dom.rs:1657-1661 [Text::is_whitespace], regex [^\s+$] *)
Definition text_is_whitespace (s : str) : bool :=
  match s with [] => false | _ => forallb is_whitespace s end.

(** src/dom.rs:1771-1778 [Comment::new] *)
Definition comment_new (s : str) : outcome str :=
  if contains (lit "-->") s then Err (InvalidContent (lit "Comments cannot contain '-->'")) else Ok s.
(** src/dom.rs:1785-1793 [Comment::set_content]; returns the new content. *)
Definition comment_set_content (old s : str) : outcome unit * str :=
  if contains (lit "-->") s then (Err (InvalidContent (lit "Comments cannot contain '-->'")), old) else (Ok tt, s).
(** src/dom.rs:1851-1861 [From<&str>/From<String> for Comment] *)
Definition comment_from (s : str) : outcome str := expect (comment_new s).

(** src/dom.rs:1902-1909 [CData::new] *)
Definition cdata_new (s : str) : outcome str :=
  if contains (lit "]]>") s then Err (InvalidContent (lit "CDATA cannot contain ']]>' as content")) else Ok s.
(** src/dom.rs:1912-1920 [CData::set_text] *)
Definition cdata_set_text (old s : str) : outcome unit * str :=
  if contains (lit "]]>") s then (Err (InvalidContent (lit "CDATA cannot contain ']]>'")), old) else (Ok tt, s).
(** src/dom.rs:1983-1993 [From<&str>/From<String> for CData] *)
Definition cdata_from (s : str) : outcome str := expect (cdata_new s).

(** * Names and attributes *)

Definition is_name_start (c : char) : bool :=
  (c =? 95)%N || in_range 97 122 c || in_range 65 90 c.

(** Regex [^[_a-zA-Z]\S*$], src/dom.rs:985 and :999. *)
Definition name_regex (s : str) : bool :=
  match s with
  | [] => false
  | c :: s' => is_name_start c && forallb (fun c => negb (is_whitespace c)) s'
  end.
(** src/dom.rs:982-992 [check_attr_name] *)
Definition check_attr_name (s : str) : outcome unit :=
  if name_regex s then Ok tt else Err (InvalidAttributeName s).
(** src/dom.rs:996-1006 [check_elem_name] *)
Definition check_elem_name (s : str) : outcome unit :=
  if name_regex s then Ok tt else Err (InvalidElementName s).

(** src/dom.rs:961-968 *)
Definition attributes (e : elem) : amap := e_attributes e.
Definition get_attr (e : elem) (k : str) : option str := aget k (e_attributes e).
(** src/dom.rs:970-976 [set_attr] *)
Definition set_attr (e : elem) (k v : str) : outcome unit * elem :=
  match check_attr_name k with
  | Ok _ => (Ok tt, set_attributes e (aset k v (e_attributes e)))
  | Err x => (Err x, e)
  | Panic => (Panic, e)
  | Fuel => (Fuel, e)
  end.
(** src/dom.rs:1008-1011 [remove_attr] *)
Definition remove_attr (e : elem) (k : str) : option str * elem :=
  (aget k (e_attributes e), set_attributes e (adel k (e_attributes e))).
(** src/dom.rs:1013-1015 [clear_attributes] *)
Definition clear_attributes (e : elem) : elem := set_attributes e [].

(** * Namespaces *)

Definition sXmlns := Eval vm_compute in lit "xmlns".
Definition sXmlnsC := Eval vm_compute in lit "xmlns:".
Definition cColon : char := 58%N.

(** src/dom.rs:606-619 [xmlns_context_from_attributes]; [splitn(2, ":")] of a
    key starting with "xmlns:" gives what follows the first colon. *)
Definition xmlns_context_step (prefixes : amap) (kv : str * str) : amap :=
  if starts_with sXmlnsC (fst kv) then
    match split_once cColon (fst kv) with
    | Some (_, prefix) => aset prefix (snd kv) prefixes
    | None => prefixes
    end
  else prefixes.
Definition xmlns_context_from_attributes (attrs : amap) : amap :=
  fold_left xmlns_context_step attrs [].

(** src/dom.rs:621-653 *)
Definition name (e : elem) : str := e_name e.
Definition namespace (e : elem) : option str := e_xmlns e.
Definition default_namespace (e : elem) : option str :=
  match e_prefix e with None => e_xmlns e | Some _ => None end.
Definition tag_name_of (prefix : option str) (name : str) : str :=
  match prefix with None => name | Some p => p ++ cColon :: name end.
Definition tag_name (e : elem) : str := tag_name_of (e_prefix e) (e_name e).
Definition namespace_prefix (e : elem) : option str := e_prefix e.
(** src/dom.rs:795-802 *)
Definition namespace_prefixes (e : elem) : option amap :=
  match xmlns_context_from_attributes (e_attributes e) with
  | [] => None
  | p => Some p
  end.
(** src/dom.rs:804 *)
Definition get_namespace_context (e : elem) : amap := e_context e.

(** src/dom.rs:821-825: merge inherited prefixes into a context. *)
Definition inherit_step (ctx : amap) (kv : str * str) : amap :=
  if ahas (fst kv) ctx then ctx else aset (fst kv) (snd kv) ctx.
Definition inherit_context (ctx : amap) (parent : amap) : amap :=
  fold_left inherit_step parent ctx.

(** src/dom.rs:806-838 [set_namespace_context] *)
Definition set_namespace_context (e : elem) (parent_default : option str)
  (parent_prefixes : option amap) : elem :=
  let e := match e_prefix e with
           | None => match default_namespace e with
                     | None => set_xmlns e parent_default
                     | Some _ => e
                     end
           | Some _ => e
           end in
  let e := match parent_prefixes with
           | None => e
           | Some p => set_context e (inherit_context (e_context e) p)
           end in
  match e_xmlns e with
  | None => match e_prefix e with
            | None => e
            | Some p => set_xmlns e (aget p (e_context e))
            end
  | Some _ => e
  end.

(** src/dom.rs:1174-1190 [apply_xmlns_context_to_child_node/_element] *)
Definition apply_xmlns_context (df : option str) (ctx : amap) (n : node) : node :=
  match n with
  | NElem c => NElem (set_namespace_context c df (Some ctx))
  | _ => n
  end.

(** * Adding children *)

(** src/dom.rs:1196-1207, first loop of [cleanup_text_nodes]: merge
    consecutive text nodes, from the back. *)
Fixpoint merge_text_loop (index : nat) (l : list node) : outcome (list node) :=
  match index with
  | O => Ok l
  | S i =>
      do a <- vget l (S i);
      if is_text a then
        do b <- vget l i;
        if is_text b then
          do back_l <- vremove l (S i);
          do front_l <- vremove (snd back_l) i;
          do f <- expect (as_text (fst front_l));
          do b <- expect (as_text (fst back_l));
          do l' <- vinsert (snd front_l) i (NText (text_concat f b));
          merge_text_loop i l'
        else merge_text_loop i l
      else merge_text_loop i l
  end.

(** src/dom.rs:1210-1219, second loop: remove whitespace-only text nodes. *)
Fixpoint drop_blank_loop (index : nat) (l : list node) : outcome (list node) :=
  do a <- vget l index;
  do l' <- (if is_text a then
              do t <- expect (as_text a);
              if text_is_whitespace t then do r <- vremove l index; Ok (snd r) else Ok l
            else Ok l);
  match index with
  | O => Ok l'
  | S i => drop_blank_loop i l'
  end.

(** src/dom.rs:1192-1221 [cleanup_text_nodes] *)
Definition cleanup_text_nodes (l : list node) : outcome (list node) :=
  match l with
  | [] => Ok []
  | _ :: _ =>
      do l1 <- merge_text_loop (List.length l - 1) l;
      match l1 with
      | [] => Panic (* assert! at line 1209 *)
      | _ :: _ => drop_blank_loop (List.length l1 - 1) l1
      end
  end.

(** src/dom.rs:1162-1172 [append] / [append_boxed] *)
Definition append (e : elem) (n : node) : outcome elem :=
  let n' := apply_xmlns_context (default_namespace e) (e_context e) n in
  do l <- cleanup_text_nodes (e_children e ++ [n']);
  Ok (set_children e l).

(** src/dom.rs:1253-1259: push the nodes, recording element indices. *)
Fixpoint push_recording (nodes : list node) (i : nat) (children : list node) (idx : list nat)
  : list node * list nat :=
  match nodes with
  | [] => (children, idx)
  | c :: nodes' =>
      push_recording nodes' (S i) (children ++ [c])
        (if is_element c then idx ++ [i] else idx)
  end.
(** src/dom.rs:1261-1266 *)
Fixpoint apply_at (df : option str) (ctx : amap) (idx : list nat) (l : list node)
  : outcome (list node) :=
  match idx with
  | [] => Ok l
  | i :: idx' =>
      do n <- vget l i;
      do l' <- vset l i (apply_xmlns_context df ctx n);
      apply_at df ctx idx' l'
  end.
(** src/dom.rs:1249-1269 [append_all] *)
Definition append_all (e : elem) (nodes : list node) : outcome elem :=
  let '(l, idx) := push_recording nodes (List.length (e_children e)) (e_children e) [] in
  do l1 <- apply_at (default_namespace e) (e_context e) idx l;
  do l2 <- cleanup_text_nodes l1;
  Ok (set_children e l2).

(** src/dom.rs:1273-1287 [insert]; note line 1281: the namespace context is
    applied to the *last* child. *)
Definition insert (e : elem) (index : nat) (n : node) : outcome elem :=
  if List.length (e_children e) <? index
  then Err (IndexOutOfBounds index 0 (List.length (e_children e)))
  else
    do l <- vinsert (e_children e) index n;
    do last <- vget l (List.length l - 1);
    do l <- vset l (List.length l - 1)
              (apply_xmlns_context (default_namespace e) (e_context e) last);
    do l <- cleanup_text_nodes l;
    Ok (set_children e l).

(** src/dom.rs:879-884 *)
Definition clear_children (e : elem) : elem := set_children e [].
Definition set_text (e : elem) (t : str) : outcome elem :=
  append (clear_children e) (NText t).

(** src/dom.rs:840-842 [reverse_children] *)
Definition reverse_children (e : elem) : elem := set_children e (rev (e_children e)).

(** * Constructors *)

(** src/dom.rs:450-454: validate and copy the attribute map. *)
Fixpoint convert_attrs (given : amap) (attrs : amap) : outcome amap :=
  match given with
  | [] => Ok attrs
  | (k, v) :: given' =>
      do _u <- check_attr_name k;
      convert_attrs given' (aset k v attrs)
  end.

(** src/dom.rs:435-497 [Element::new] *)
Definition element_new (nm : str) (text : option str) (attrs : option amap)
  (xmlns prefix : option str) (children : option (list node)) : outcome elem :=
  do _u <- check_elem_name nm;
  do attrs <- match attrs with None => Ok [] | Some m => convert_attrs m [] end;
  let xmlns := match xmlns with
               | Some x => Some x
               | None => match prefix with
                         | None => aget sXmlns attrs
                         | Some p => aget (sXmlnsC ++ p) attrs
                         end
               end in
  let e := mkElem nm [] attrs xmlns prefix (xmlns_context_from_attributes attrs) in
  do e <- match text with None => Ok e | Some t => append e (NText t) end;
  match children with None => Ok e | Some l => append_all e l end.

(** src/dom.rs:499-506 *)
Definition new_from_name (nm : str) : outcome elem :=
  do _u <- check_elem_name nm;
  Ok (mkElem nm [] [] None None []).
(** src/dom.rs:521-523 *)
Definition new_with_attributes (nm : str) (a : amap) : outcome elem :=
  element_new nm None (Some a) None None None.
(** src/dom.rs:525-527 *)
Definition new_with_text (nm t : str) : outcome elem :=
  element_new nm (Some t) None None None None.
(** src/dom.rs:546-548 *)
Definition new_with_attributes_and_text (nm : str) (a : amap) (t : str) : outcome elem :=
  element_new nm (Some t) (Some a) None None None.
(** src/dom.rs:573-575 *)
Definition new_with_attributes_and_children (nm : str) (a : amap) (l : list node) : outcome elem :=
  element_new nm None (Some a) None None (Some l).
(** src/dom.rs:598-600 *)
Definition new_with_children (nm : str) (l : list node) : outcome elem :=
  element_new nm None None None None (Some l).

(** * Queries *)

(** src/dom.rs:844-848 [child_elements] *)
Fixpoint elements_of (l : list node) : list elem :=
  match l with
  | [] => []
  | NElem e :: l' => e :: elements_of l'
  | _ :: l' => elements_of l'
  end.
Definition child_elements (e : elem) : list elem := elements_of (e_children e).
(** src/dom.rs:856-858 [children] *)
Definition children (e : elem) : list node := e_children e.
(** src/dom.rs:685-688, :754-757, :948-951 *)
Definition elements_by_namespace (e : elem) (ns : option str) : list elem :=
  filter (fun c => ostr_eqb (e_xmlns c) ns) (child_elements e).
Definition elements_by_namespace_prefix (e : elem) (p : option str) : list elem :=
  filter (fun c => ostr_eqb (e_prefix c) p) (child_elements e).
Definition elements_by_name (e : elem) (n : str) : list elem :=
  filter (fun c => str_eqb (e_name c) n) (child_elements e).
(** src/dom.rs:907-915 [first_element_by_name] *)
Fixpoint first_named (n : str) (l : list elem) : outcome elem :=
  match l with
  | [] => Err DoesNotExistError
  | e :: l' => if str_eqb (name e) n then Ok e else first_named n l'
  end.
Definition first_element_by_name (e : elem) (n : str) : outcome elem :=
  first_named n (child_elements e).

(** src/dom.rs:935-943 [first_element_by_name_mut].  A [&mut Element] is
    modelled by the update [f] made through it; the result is the parent after
    the update. *)
Fixpoint update_first_named (n : str) (f : elem -> outcome elem) (l : list node) : outcome (list node) :=
  match l with
  | [] => Err DoesNotExistError
  | NElem c :: l' =>
      if str_eqb (name c) n then do c' <- f c; Ok (NElem c' :: l')
      else do r <- update_first_named n f l'; Ok (NElem c :: r)
  | c :: l' => do r <- update_first_named n f l'; Ok (c :: r)
  end.
Definition first_element_by_name_mut (e : elem) (n : str) (f : elem -> outcome elem) : outcome elem :=
  do l <- update_first_named n f (e_children e); Ok (set_children e l).

(** src/dom.rs:850-854 [child_elements_mut], and with a filter [p] :721-724
    [elements_by_namespace_mut], :790-793 [elements_by_namespace_prefix_mut],
    :956-959 [elements_by_name_mut]: the update [f] is made through every
    reference the iterator yields. *)
Fixpoint update_elements (p : elem -> bool) (f : elem -> elem) (l : list node) : list node :=
  match l with
  | [] => []
  | NElem c :: l' => NElem (if p c then f c else c) :: update_elements p f l'
  | c :: l' => c :: update_elements p f l'
  end.
Definition child_elements_mut (e : elem) (f : elem -> elem) : elem :=
  set_children e (update_elements (fun _ => true) f (e_children e)).
Definition elements_by_namespace_mut (e : elem) (ns : option str) (f : elem -> elem) : elem :=
  set_children e (update_elements (fun c => ostr_eqb (e_xmlns c) ns) f (e_children e)).
Definition elements_by_namespace_prefix_mut (e : elem) (p : option str) (f : elem -> elem) : elem :=
  set_children e (update_elements (fun c => ostr_eqb (e_prefix c) p) f (e_children e)).
Definition elements_by_name_mut (e : elem) (n : str) (f : elem -> elem) : elem :=
  set_children e (update_elements (fun c => str_eqb (e_name c) n) f (e_children e)).
(** src/dom.rs:864-866 [children_mut] *)
Definition children_mut (e : elem) (f : node -> node) : elem :=
  set_children e (map f (e_children e)).

(** src/dom.rs:868-876 [children_recursive] *)
Fixpoint children_recursive (e : elem) : list node :=
  match e with
  | mkElem _ ch _ _ _ _ =>
      ch ++
      (fix go (l : list node) : list node :=
         match l with
         | [] => []
         | NElem c :: l' => children_recursive c ++ go l'
         | _ :: l' => go l'
         end) ch
  end.
(** src/dom.rs:1045-1050 [search] (the predicate is a pure function here) *)
Definition search (e : elem) (p : node -> bool) : list node :=
  filter p (children_recursive e).
(** src/dom.rs:860-862 [all_children] *)
Definition all_children (e : elem) : list node := search e (fun _ => true).

(** [.filter(is_x).map(|n| n.as_x().expect(..))] *)
Fixpoint map_expect {A} (f : node -> outcome A) (l : list node) : outcome (list A) :=
  match l with
  | [] => Ok []
  | n :: l' => do a <- expect (f n); do r <- map_expect f l'; Ok (a :: r)
  end.
(** src/dom.rs:1080-1087, :1117-1121, :1123-1130, :1133-1140 *)
Definition search_elements (e : elem) (p : elem -> bool) : outcome (list elem) :=
  do l <- map_expect as_element (search e is_element); Ok (filter p l).
Definition search_elements_by_name (e : elem) (n : str) : outcome (list elem) :=
  search_elements e (fun c => str_eqb (name c) n).
Definition search_text (e : elem) (p : str -> bool) : outcome (list str) :=
  do l <- map_expect as_text (search e is_text); Ok (filter p l).
Definition search_comments (e : elem) (p : str -> bool) : outcome (list str) :=
  do l <- map_expect as_comment (search e is_comment); Ok (filter p l).

(** src/dom.rs:1492-1501 [text()] of an Element *)
Fixpoint elem_text (e : elem) : str :=
  match e with
  | mkElem _ ch _ _ _ _ =>
      (fix go (l : list node) : str :=
         match l with
         | [] => []
         | NText s :: l' => s ++ go l'
         | NElem c :: l' => elem_text c ++ go l'
         | NComment _ :: l' => go l'
         | NCData _ :: l' => go l'
         end) ch
  end.
(** [Node::text] *)
Definition node_text (n : node) : str :=
  match n with
  | NElem e => elem_text e
  | NText s => s
  | NComment s => s
  | NCData s => s
  end.

(** * Removing children *)

(** src/dom.rs:1291-1296 [remove] *)
Definition remove (e : elem) (index : nat) : outcome (node * elem) :=
  if List.length (e_children e) <=? index
  then Err (IndexOutOfBounds index 0 (List.length (e_children e)))
  else do r <- vremove (e_children e) index; Ok (fst r, set_children e (snd r)).

Section RemoveBy.
  Context {A : Type}.
  (** src/dom.rs:1342-1346: indices (given in descending order) of matches *)
  Fixpoint matching (p : A -> bool) (l : list A) (idx : list nat) : outcome (list nat) :=
    match idx with
    | [] => Ok []
    | i :: idx' =>
        do x <- vget l i;
        do r <- matching p l idx';
        Ok (if p x then i :: r else r)
    end.
  (** src/dom.rs:1348-1350 *)
  Fixpoint remove_indices (l : list A) (idx : list nat) : outcome (list A) :=
    match idx with
    | [] => Ok l
    | i :: idx' => do r <- vremove l i; remove_indices (snd r) idx'
    end.
  Definition remove_by_vec (p : A -> bool) (l : list A) : outcome (list A * nat) :=
    do rm <- matching p l (rev (seq 0 (List.length l)));
    do l' <- remove_indices l rm;
    Ok (l', List.length rm).
End RemoveBy.

(** src/dom.rs:1340-1352 [remove_by] *)
Definition remove_by (e : elem) (p : node -> bool) : outcome (elem * nat) :=
  do r <- remove_by_vec p (e_children e);
  Ok (set_children e (fst r), snd r).

(** src/dom.rs:1330-1332: recurse into the child elements.  Each child comes
    paired with the result of its recursive call. *)
Fixpoint collect_removed (l : list (node * outcome (elem * nat))) : outcome (list node * nat) :=
  match l with
  | [] => Ok ([], 0)
  | (n, r) :: l' =>
      match n with
      | NElem _ =>
          do ec <- r;
          do rest <- collect_removed l';
          Ok (NElem (fst ec) :: fst rest, snd ec + snd rest)
      | _ =>
          do rest <- collect_removed l';
          Ok (n :: fst rest, snd rest)
      end
  end.

(** src/dom.rs:1328-1334 [remove_all].  For structural recursion each child is
    first paired with its (lazily used) recursive result; [remove_by] then
    works on the pairs, looking at the child only.  DomFacts.v proves the
    literal recursive equation of the source ([remove_all_eq]). *)
Fixpoint remove_all (p : node -> bool) (e : elem) : outcome (elem * nat) :=
  match e with
  | mkElem nm ch at_ ns px cx =>
      let annotated :=
        (fix go (l : list node) : list (node * outcome (elem * nat)) :=
           match l with
           | [] => []
           | c :: l' =>
               (c, match c with NElem c' => remove_all p c' | _ => Panic end) :: go l'
           end) ch in
      do r <- remove_by_vec (fun a => p (fst a)) annotated;
      do rec <- collect_removed (fst r);
      Ok (mkElem nm (fst rec) at_ ns px cx, snd r + snd rec)
  end.

(** src/dom.rs:1393-1398: element predicate lifted to nodes *)
Definition elem_pred (p : elem -> bool) (n : node) : bool :=
  match n with NElem e => p e | _ => false end.

(** src/dom.rs:1392-1404 [remove_all_elements] *)
Definition remove_all_elements (p : elem -> bool) (e : elem) : outcome (elem * nat) :=
  do r <- remove_by e (elem_pred p);
  do rec <- collect_removed
              (map (fun c => (c, match c with NElem c' => remove_all (elem_pred p) c' | _ => Panic end))
                   (e_children (fst r)));
  Ok (set_children (fst r) (fst rec), snd r + snd rec).

(** src/dom.rs:1356-1359: indices of the child elements *)
Fixpoint element_indices (l : list node) (i : nat) : list nat :=
  match l with
  | [] => []
  | n :: l' => if is_element n then i :: element_indices l' (S i) else element_indices l' (S i)
  end.

(** * Clone and equality *)

(** src/dom.rs:1558-1573 [Clone for Element] with [clone_node] (:375-387) *)
Fixpoint clone_elem (e : elem) : elem :=
  match e with
  | mkElem nm ch at_ ns px cx =>
      mkElem nm
        ((fix go (l : list node) : list node :=
            match l with
            | [] => []
            | NElem c :: l' => NElem (clone_elem c) :: go l'
            | NText s :: l' => NText s :: go l'
            | NComment s :: l' => NComment s :: go l'
            | NCData s :: l' => NCData s :: go l'
            end) ch)
        at_ ns px cx
  end.
Definition clone_node (n : node) : node :=
  match n with
  | NElem e => NElem (clone_elem e)
  | NText s => NText s
  | NComment s => NComment s
  | NCData s => NCData s
  end.

(** src/dom.rs:1354-1366 [remove_element] *)
Definition remove_element (e : elem) (index : nat) : outcome (elem * elem) :=
  let elems := element_indices (e_children e) 0 in
  if List.length elems <=? index
  then Err (IndexOutOfBounds index 0 (List.length elems))
  else
    do i <- vget elems index;
    do r <- vremove (e_children e) i;
    do c <- expect (as_element (fst r));
    Ok (clone_elem c, set_children e (snd r)).

(** src/dom.rs:1370-1386 [remove_elements], the same loop as [remove_by] with
    an element test in front of the predicate *)
Definition remove_elements (e : elem) (p : elem -> bool) : outcome (elem * nat) :=
  do r <- remove_by_vec (fun n => if is_element n then elem_pred p n else false) (e_children e);
  Ok (set_children e (fst r), snd r).
(** src/dom.rs:1408-1411 *)
Definition remove_elements_by_name (e : elem) (n : str) : outcome (elem * nat) :=
  remove_elements e (fun c => str_eqb (e_name c) n).

(** src/dom.rs:1594-1609 [PartialEq for Element] with [node_eq] (:390-406) *)
Fixpoint elem_eqb (e1 e2 : elem) : bool :=
  match e1, e2 with
  | mkElem n1 c1 a1 x1 p1 _, mkElem n2 c2 a2 x2 p2 _ =>
      str_eqb n1 n2 && ostr_eqb x1 x2 && ostr_eqb p1 p2 && amap_eqb a1 a2
      && (List.length c1 =? List.length c2)
      && (fix go (l1 l2 : list node) : bool :=
            match l1, l2 with
            | NElem a :: l1', NElem b :: l2' => elem_eqb a b && go l1' l2'
            | NText a :: l1', NText b :: l2' => str_eqb a b && go l1' l2'
            | NComment a :: l1', NComment b :: l2' => str_eqb a b && go l1' l2'
            | NCData a :: l1', NCData b :: l2' => str_eqb a b && go l1' l2'
            | [], [] => true
            | _, _ => false
            end) c1 c2
  end.
Definition node_eqb (a b : node) : bool :=
  match a, b with
  | NElem x, NElem y => elem_eqb x y
  | NText x, NText y => str_eqb x y
  | NComment x, NComment y => str_eqb x y
  | NCData x, NCData y => str_eqb x y
  | _, _ => false
  end.

(** src/dom.rs:1588-1592 [PartialOrd for Element] *)
Definition elem_partial_cmp (a b : elem) : option comparison :=
  Some (str_cmp (e_name a) (e_name b)).

(** src/dom.rs:1611-1616, :1743-1747, :1875-1879, :2007-2011 [Hash]: the data
    fed to the hasher, in order: a string and, for an element, the namespace. *)
Definition elem_hash_input (e : elem) : str * option (option str) := (e_name e, Some (e_xmlns e)).
Definition node_hash_input (n : node) : str * option (option str) :=
  match n with
  | NElem e => elem_hash_input e
  | NText s => (s, None)
  | NComment s => (s, None)
  | NCData s => (s, None)
  end.

(** * Serialization *)

(** src/lib.rs:337-351 [attribute_order] *)
Definition attribute_order (x y : str * str) : comparison :=
  let a := fst x in
  let b := fst y in
  if str_eqb a b then str_cmp (snd x) (snd y)
  else if starts_with sXmlns a && negb (starts_with sXmlns b) then Lt
  else if negb (starts_with sXmlns a) && starts_with sXmlns b then Gt
  else str_cmp a b.

(** [slice::sort_by], a stable sort *)
Fixpoint insert_by {A} (cmp : A -> A -> comparison) (x : A) (l : list A) : list A :=
  match l with
  | [] => [x]
  | y :: l' => match cmp x y with Gt => y :: insert_by cmp x l' | _ => x :: l end
  end.
Fixpoint sort_by {A} (cmp : A -> A -> comparison) (l : list A) : list A :=
  match l with
  | [] => []
  | x :: l' => insert_by cmp x (sort_by cmp l')
  end.

Definition cNL : char := 10%N.

(** src/lib.rs:896-904 [validate_indent] *)
Definition validate_indent (indent : str) : bool :=
  str_eqb indent [9%N] || forallb (fun c => (c =? 32)%N) indent.

(** src/dom.rs:1426-1432: one attribute *)
Definition attr_to_string (kv : str * str) : str :=
  lit " " ++ fst kv ++ lit "=" ++ sQuot ++ attribute_escape (snd kv) ++ sQuot.
Definition attrs_to_string (a : amap) : str :=
  flat_map attr_to_string (sort_by attribute_order a).

(** src/dom.rs:1722-1724, :1842-1844, :1974-1976: leaf nodes *)
Definition leaf_to_string (n : node) : str :=
  match n with
  | NText s => text_escape s
  | NComment s => lit "<!--" ++ s ++ lit "-->"
  | NCData s => lit "<![CDATA[" ++ s ++ lit "]]>"
  | NElem _ => []
  end.

(** src/dom.rs:1415-1486 [to_string_with_prefix_and_indent] *)
Fixpoint elem_to_string (prefix indent : str) (inline : bool) (e : elem) {struct e} : str :=
  match e with
  | mkElem nm ch at_ _ px _ =>
      let tag := tag_name_of px nm in
      let out := (if inline then [] else prefix) ++ sLt ++ tag ++ attrs_to_string at_ in
      match ch with
      | [] => out ++ lit "/>"
      | c0 :: rest =>
          if (match rest with [] => true | _ => false end) && negb (is_element c0)
          then out ++ sGt ++ leaf_to_string c0 ++ lit "</" ++ tag ++ sGt
          else
            let inline := inline || existsb is_text ch in
            let next_prefix := prefix ++ indent in
            out ++ sGt ++ (if inline then [] else [cNL]) ++
            (fix go (l : list node) : str :=
               match l with
               | [] => []
               | c :: l' =>
                   (match c with
                    | NText t => text_escape t
                    | NElem e' => elem_to_string next_prefix indent inline e'
                    | NComment _ | NCData _ =>
                        (if inline then [] else next_prefix) ++ leaf_to_string c
                    end) ++ (if inline then [] else [cNL]) ++ go l'
               end) ch ++
            (if inline then [] else prefix) ++ lit "</" ++ tag ++ sGt
      end
  end.

Definition default_indent : str := Eval vm_compute in lit "  ".

(** src/dom.rs:1543-1551 [to_string_with_indent] of an Element *)
Definition elem_to_string_with_indent (e : elem) (indent : str) : str :=
  if validate_indent indent then elem_to_string [] indent false e
  else elem_to_string [] default_indent false e.
(** [Node::to_string_with_indent] *)
Definition node_to_string_with_indent (n : node) (indent : str) : str :=
  match n with
  | NElem e => elem_to_string_with_indent e indent
  | _ => leaf_to_string n
  end.

(** * Declaration, DTD, Document *)

(** src/dom.rs:2036-2044 [Declaration::from_str]; a Declaration is its
    [decl_str]. *)
Definition declaration_from_str (decl : str) : outcome str :=
  let buffer := trim decl in
  if starts_with (lit "<?") buffer && ends_with (lit "?>") buffer then
    do a <- unwrap (strip_prefix (lit "<?") buffer);
    unwrap (strip_suffix (lit "?>") a)
  else Err (ParsingError PDeclSyntax None).
(** src/dom.rs:2057-2061 *)
Definition declaration_to_string (d : str) : str := lit "<?" ++ d ++ lit "?>".
(** src/dom.rs:2051-2055: [<?xml version="1.0" encoding="UTF-8"?>] *)
Definition declaration_default : str :=
  Eval vm_compute in lit "xml version=""1.0"" encoding=""UTF-8""".

(** src/dom.rs:2079-2087 [DTD::from_string]; a DTD is its [dtd_str]. *)
Definition dtd_from_string (text : str) : outcome str :=
  let buffer := trim text in
  if starts_with (lit "<!DOCTYPE") buffer && ends_with (lit ">") buffer then
    do a <- unwrap (strip_prefix (lit "<!DOCTYPE") buffer);
    unwrap (strip_suffix (lit ">") a)
  else Err (ParsingError PDtdSyntax None).
(** src/dom.rs:2090-2094: only the inner text is written. *)
Definition dtd_to_string (d : str) : str := d.

(** src/dom.rs:51-58 [struct Document] *)
Record document := mkDoc {
  d_declaration : option str;
  d_dtds : list str;
  d_root : elem
}.

(** src/dom.rs:64-79 *)
Definition doc_new_with_decl_dtd (root : elem) (decl : option str) (dtd : option (list str)) : document :=
  mkDoc decl (match dtd with None => [] | Some l => l end) root.
Definition doc_new (root : elem) : document :=
  doc_new_with_decl_dtd root (Some declaration_default) None.
(** src/dom.rs:83-112, :192-201 *)
Definition doctype_defs (d : document) : list str := d_dtds d.
Definition set_doctype_defs (d : document) (l : option (list str)) : document :=
  mkDoc (d_declaration d) (match l with None => [] | Some l => l end) (d_root d).
Definition declaration (d : document) : option str := d_declaration d.
Definition set_declaration (d : document) (x : option str) : document :=
  mkDoc x (d_dtds d) (d_root d).
Definition root_element (d : document) : elem := d_root d.

(** src/dom.rs:128-152 [Document::to_string_with_indent] *)
Definition doc_to_string_with_indent (d : document) (indent : str) : str :=
  let indent := if validate_indent indent then indent else default_indent in
  (match d_declaration d with
   | None => []
   | Some decl => declaration_to_string decl ++ [cNL]
   end) ++
  flat_map (fun dtd => dtd_to_string dtd ++ [cNL]) (d_dtds d) ++
  elem_to_string_with_indent (d_root d) indent ++ [cNL].
(** src/dom.rs:117-119 and Display/Debug :204-214 *)
Definition doc_to_string (d : document) : str := doc_to_string_with_indent d default_indent.

(** src/dom.rs:216-222 [PartialEq for Document] *)
Definition doc_eqb (a b : document) : bool :=
  ostr_eqb (d_declaration a) (d_declaration b)
  && (List.length (d_dtds a) =? List.length (d_dtds b))
  && forallb (fun xy => str_eqb (fst xy) (snd xy)) (combine (d_dtds a) (d_dtds b))
  && elem_eqb (d_root a) (d_root b).

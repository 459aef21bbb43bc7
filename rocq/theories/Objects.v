(** Model of src/dom.rs with trait objects: the children of an element are
    [Box<dyn Node>], so they may also be of types that implement the trait [Node]
    outside the crate.  Here the functions of Dom.v that look at child nodes are
    modelled again with the tests ([is_text()], ...) and casts
    ([as_text().expect(..)], ...) they make; a cast that fails is a panic. *)
From Coq Require Import List NArith Arith Bool Ascii String.
From Verif Require Import Base Escape Dom Nodes.
Import ListNotations.

(** A value of a type outside the crate consists of its own data ([s]) and possibly an
    [Element] in it, the one handed out by [as_element] and [as_element_mut]. *)
Inductive obj_ (St E : Type) :=
| OElem (e : E)
| OText (content : str)
| OComment (comment : str)
| OCData (cdata : str)
| OUser (s : St) (inner : option E).
Arguments OElem {St E} e.
Arguments OText {St E} content.
Arguments OComment {St E} comment.
Arguments OCData {St E} cdata.
Arguments OUser {St E} s inner.

(** src/dom.rs:409-422 [struct Element] *)
Inductive oelem (St : Type) := mkO {
  o_name : str;
  o_children : list (obj_ St (oelem St));
  o_attributes : amap;
  o_xmlns : option str;
  o_prefix : option str;
  o_context : amap
}.
Arguments mkO {St}.
Arguments o_name {St}.
Arguments o_children {St}.
Arguments o_attributes {St}.
Arguments o_xmlns {St}.
Arguments o_prefix {St}.
Arguments o_context {St}.

(** src/dom.rs:257-371 [trait Node]: the methods of the types outside the crate.  They
    are deterministic functions of the value and do not panic themselves, except
    [node_type], whose default does; [boxed] is taken to put the value in a box. *)
Record methods (St : Type) := mkMethods {
  u_text : St -> option (oelem St) -> str;
  u_is_element : St -> bool;
  u_is_text : St -> bool;
  u_is_comment : St -> bool;
  u_is_cdata : St -> bool;
  u_node_type : St -> outcome node_type;
  u_as_comment : St -> option str;
  u_as_text : St -> option str;
  u_as_cdata : St -> option str;
  u_to_string : St -> option (oelem St) -> str -> str
}.
Arguments u_text {St}.
Arguments u_is_element {St}.
Arguments u_is_text {St}.
Arguments u_is_comment {St}.
Arguments u_is_cdata {St}.
Arguments u_node_type {St}.
Arguments u_as_comment {St}.
Arguments u_as_text {St}.
Arguments u_as_cdata {St}.
Arguments u_to_string {St}.

Section Objects.
Context {St : Type} (M : methods St).
Notation obj := (obj_ St (oelem St)).
Notation oelem := (oelem St).

(** * The methods *)

(** src/dom.rs:1503-1517, :1682-1696, :1802-1816, :1934-1948 *)
Definition o_is_element (n : obj) : bool :=
  match n with OElem _ => true | OUser s _ => u_is_element M s | _ => false end.
Definition o_is_text (n : obj) : bool :=
  match n with OText _ => true | OUser s _ => u_is_text M s | _ => false end.
Definition o_is_comment (n : obj) : bool :=
  match n with OComment _ => true | OUser s _ => u_is_comment M s | _ => false end.
Definition o_is_cdata (n : obj) : bool :=
  match n with OCData _ => true | OUser s _ => u_is_cdata M s | _ => false end.

(** src/dom.rs:287-299 the default of [node_type] *)
Definition default_node_type (n : obj) : outcome node_type :=
  if o_is_cdata n then Ok CDataNode
  else if o_is_comment n then Ok CommentNode
  else if o_is_element n then Ok ElementNode
  else if o_is_text n then Ok TextNode
  else Panic.
Definition o_node_type (n : obj) : outcome node_type :=
  match n with OUser s _ => u_node_type M s | _ => default_node_type n end.

(** src/dom.rs:1519-1525, :1698-1704, :1818-1824, :1950-1956; [None] is an [Err] *)
Definition o_as_element (n : obj) : option oelem :=
  match n with OElem e => Some e | OUser _ inner => inner | _ => None end.
Definition o_as_text (n : obj) : option str :=
  match n with OText s => Some s | OUser s _ => u_as_text M s | _ => None end.
Definition o_as_comment (n : obj) : option str :=
  match n with OComment s => Some s | OUser s _ => u_as_comment M s | _ => None end.
Definition o_as_cdata (n : obj) : option str :=
  match n with OCData s => Some s | OUser s _ => u_as_cdata M s | _ => None end.
(** [node.as_element().expect(..)] and the use [f] made of the element *)
Definition on_element {A} (f : oelem -> outcome A) (n : obj) : outcome A :=
  match n with OElem e => f e | OUser _ (Some e) => f e | _ => Panic end.
(** [node.as_element_mut().expect(..)] and the change [f] made to the element *)
Definition change_element (f : oelem -> outcome oelem) (n : obj) : outcome obj :=
  match n with
  | OElem e => do e' <- f e; Ok (OElem e')
  | OUser s (Some e) => do e' <- f e; Ok (OUser s (Some e'))
  | _ => Panic
  end.

Definition o_set_children (e : oelem) (l : list obj) : oelem :=
  mkO (o_name e) l (o_attributes e) (o_xmlns e) (o_prefix e) (o_context e).
(** The element without its children: functions that do not look at the children are
    taken from Dom.v. *)
Definition o_head (e : oelem) : elem :=
  mkElem (o_name e) [] (o_attributes e) (o_xmlns e) (o_prefix e) (o_context e).
Definition of_head (h : elem) (l : list obj) : oelem :=
  mkO (e_name h) l (e_attributes h) (e_xmlns h) (e_prefix h) (e_context h).

(** * Adding children *)

(** src/dom.rs:1174-1190 [apply_xmlns_context_to_child_node/_element] *)
Definition o_apply_xmlns_context (df : option str) (ctx : amap) (n : obj) : outcome obj :=
  if o_is_element n
  then change_element (fun c => Ok (of_head (set_namespace_context (o_head c) df (Some ctx)) (o_children c))) n
  else Ok n.

(** src/dom.rs:1196-1207 *)
Fixpoint o_merge_text_loop (index : nat) (l : list obj) : outcome (list obj) :=
  match index with
  | O => Ok l
  | S i =>
      do a <- vget l (S i);
      if o_is_text a then
        do b <- vget l i;
        if o_is_text b then
          do back_l <- vremove l (S i);
          do front_l <- vremove (snd back_l) i;
          do f <- unwrap (o_as_text (fst front_l));
          do b <- unwrap (o_as_text (fst back_l));
          do l' <- vinsert (snd front_l) i (OText (text_concat f b));
          o_merge_text_loop i l'
        else o_merge_text_loop i l
      else o_merge_text_loop i l
  end.
(** src/dom.rs:1210-1219 *)
Fixpoint o_drop_blank_loop (index : nat) (l : list obj) : outcome (list obj) :=
  do a <- vget l index;
  do l' <- (if o_is_text a then
              do t <- unwrap (o_as_text a);
              if text_is_whitespace t then do r <- vremove l index; Ok (snd r) else Ok l
            else Ok l);
  match index with
  | O => Ok l'
  | S i => o_drop_blank_loop i l'
  end.
(** src/dom.rs:1192-1221 [cleanup_text_nodes] *)
Definition o_cleanup_text_nodes (l : list obj) : outcome (list obj) :=
  match l with
  | [] => Ok []
  | _ :: _ =>
      do l1 <- o_merge_text_loop (List.length l - 1) l;
      match l1 with
      | [] => Panic (* assert! at line 1209 *)
      | _ :: _ => o_drop_blank_loop (List.length l1 - 1) l1
      end
  end.

(** src/dom.rs:1162-1172 [append] / [append_boxed] *)
Definition o_append (e : oelem) (n : obj) : outcome oelem :=
  do n' <- o_apply_xmlns_context (default_namespace (o_head e)) (o_context e) n;
  do l <- o_cleanup_text_nodes (o_children e ++ [n']);
  Ok (o_set_children e l).

(** src/dom.rs:1253-1259 *)
Fixpoint o_push_recording (nodes : list obj) (i : nat) (children : list obj) (idx : list nat)
  : list obj * list nat :=
  match nodes with
  | [] => (children, idx)
  | c :: nodes' =>
      o_push_recording nodes' (S i) (children ++ [c])
        (if o_is_element c then idx ++ [i] else idx)
  end.
(** src/dom.rs:1261-1266 *)
Fixpoint o_apply_at (df : option str) (ctx : amap) (idx : list nat) (l : list obj)
  : outcome (list obj) :=
  match idx with
  | [] => Ok l
  | i :: idx' =>
      do n <- vget l i;
      do n' <- o_apply_xmlns_context df ctx n;
      do l' <- vset l i n';
      o_apply_at df ctx idx' l'
  end.
(** src/dom.rs:1249-1269 [append_all] *)
Definition o_append_all (e : oelem) (nodes : list obj) : outcome oelem :=
  let '(l, idx) := o_push_recording nodes (List.length (o_children e)) (o_children e) [] in
  do l1 <- o_apply_at (default_namespace (o_head e)) (o_context e) idx l;
  do l2 <- o_cleanup_text_nodes l1;
  Ok (o_set_children e l2).

(** src/dom.rs:1273-1287 [insert] *)
Definition o_insert (e : oelem) (index : nat) (n : obj) : outcome oelem :=
  if List.length (o_children e) <? index
  then Err (IndexOutOfBounds index 0 (List.length (o_children e)))
  else
    do l <- vinsert (o_children e) index n;
    do last <- vget l (List.length l - 1);
    do last' <- o_apply_xmlns_context (default_namespace (o_head e)) (o_context e) last;
    do l <- vset l (List.length l - 1) last';
    do l <- o_cleanup_text_nodes l;
    Ok (o_set_children e l).

(** src/dom.rs:879-884 *)
Definition o_clear_children (e : oelem) : oelem := o_set_children e [].
Definition o_set_text (e : oelem) (t : str) : outcome oelem :=
  o_append (o_clear_children e) (OText t).

(** src/dom.rs:435-497 [Element::new]; all the constructors with children call it *)
Definition o_element_new (nm : str) (text : option str) (attrs : option amap)
  (xmlns prefix : option str) (children : option (list obj)) : outcome oelem :=
  do h <- element_new nm None attrs xmlns prefix None;
  let e := of_head h [] in
  do e <- match text with None => Ok e | Some t => o_append e (OText t) end;
  match children with None => Ok e | Some l => o_append_all e l end.

(** * Queries *)

(** [.filter(|n| test(n)).map(|n| cast(n).expect(..))], the iterator used up *)
Fixpoint filter_cast {A} (test : obj -> bool) (cast : obj -> option A) (l : list obj) : outcome (list A) :=
  match l with
  | [] => Ok []
  | n :: l' =>
      if test n then do a <- unwrap (cast n); do r <- filter_cast test cast l'; Ok (a :: r)
      else filter_cast test cast l'
  end.
(** src/dom.rs:844-848 [child_elements] *)
Definition o_child_elements (e : oelem) : outcome (list oelem) :=
  filter_cast o_is_element o_as_element (o_children e).
(** src/dom.rs:685-688, :754-757, :948-951 *)
Definition o_elements_by_namespace (e : oelem) (ns : option str) : outcome (list oelem) :=
  do l <- o_child_elements e; Ok (filter (fun c => ostr_eqb (o_xmlns c) ns) l).
Definition o_elements_by_namespace_prefix (e : oelem) (p : option str) : outcome (list oelem) :=
  do l <- o_child_elements e; Ok (filter (fun c => ostr_eqb (o_prefix c) p) l).
Definition o_elements_by_name (e : oelem) (n : str) : outcome (list oelem) :=
  do l <- o_child_elements e; Ok (filter (fun c => str_eqb (o_name c) n) l).
(** src/dom.rs:907-915 [first_element_by_name]; the iterator is used up to the result *)
Fixpoint o_first_named (n : str) (l : list obj) : outcome oelem :=
  match l with
  | [] => Err DoesNotExistError
  | c :: l' =>
      if o_is_element c
      then do e <- unwrap (o_as_element c); if str_eqb (o_name e) n then Ok e else o_first_named n l'
      else o_first_named n l'
  end.
Definition o_first_element_by_name (e : oelem) (n : str) : outcome oelem := o_first_named n (o_children e).
(** src/dom.rs:850-854 [child_elements_mut] and with a filter :721-724, :790-793, :956-959;
    the update [f] is made through every reference. *)
Fixpoint o_update_elements (p : oelem -> bool) (f : oelem -> oelem) (l : list obj) : outcome (list obj) :=
  match l with
  | [] => Ok []
  | c :: l' =>
      do c' <- (if o_is_element c then change_element (fun e => Ok (if p e then f e else e)) c else Ok c);
      do r <- o_update_elements p f l';
      Ok (c' :: r)
  end.
Definition o_child_elements_mut (e : oelem) (f : oelem -> oelem) : outcome oelem :=
  do l <- o_update_elements (fun _ => true) f (o_children e); Ok (o_set_children e l).

(** src/dom.rs:868-876 [children_recursive] *)
Fixpoint o_children_recursive (e : oelem) : outcome (list obj) :=
  match e with
  | mkO _ ch _ _ _ _ =>
      do r <- (fix go (l : list obj) : outcome (list obj) :=
         match l with
         | [] => Ok []
         | c :: l' =>
             if o_is_element c
             then do a <- on_element o_children_recursive c; do r <- go l'; Ok (a ++ r)
             else go l'
         end) ch;
      Ok (ch ++ r)
  end.
(** src/dom.rs:1045-1050 [search], :860-862 [all_children] *)
Definition o_search (e : oelem) (p : obj -> bool) : outcome (list obj) :=
  do l <- o_children_recursive e; Ok (filter p l).
Definition o_all_children (e : oelem) : outcome (list obj) := o_search e (fun _ => true).
(** src/dom.rs:1080-1087, :1117-1121, :1123-1130, :1133-1140 *)
Definition o_search_elements (e : oelem) (p : oelem -> bool) : outcome (list oelem) :=
  do l <- o_children_recursive e; do r <- filter_cast o_is_element o_as_element l; Ok (filter p r).
Definition o_search_elements_by_name (e : oelem) (n : str) : outcome (list oelem) :=
  o_search_elements e (fun c => str_eqb (o_name c) n).
Definition o_search_text (e : oelem) (p : str -> bool) : outcome (list str) :=
  do l <- o_children_recursive e; do r <- filter_cast o_is_text o_as_text l; Ok (filter p r).
Definition o_search_comments (e : oelem) (p : str -> bool) : outcome (list str) :=
  do l <- o_children_recursive e; do r <- filter_cast o_is_comment o_as_comment l; Ok (filter p r).

(** src/dom.rs:1492-1501 [text()] of an Element *)
Fixpoint o_text (e : oelem) : str :=
  match e with
  | mkO _ ch _ _ _ _ =>
      (fix go (l : list obj) : str :=
         match l with
         | [] => []
         | c :: l' =>
             (if o_is_text c || o_is_element c
              then match c with
                   | OElem e' => o_text e'
                   | OText s | OComment s | OCData s => s
                   | OUser s inner => u_text M s inner
                   end
              else []) ++ go l'
         end) ch
  end.
Definition o_node_text (n : obj) : str :=
  match n with
  | OElem e => o_text e
  | OText s | OComment s | OCData s => s
  | OUser s inner => u_text M s inner
  end.

(** * Removing children *)

(** src/dom.rs:1291-1296 [remove] *)
Definition o_remove (e : oelem) (index : nat) : outcome (obj * oelem) :=
  if List.length (o_children e) <=? index
  then Err (IndexOutOfBounds index 0 (List.length (o_children e)))
  else do r <- vremove (o_children e) index; Ok (fst r, o_set_children e (snd r)).

(** src/dom.rs:1342-1346, the predicate may panic *)
Fixpoint o_matching {A} (p : A -> outcome bool) (l : list A) (idx : list nat) : outcome (list nat) :=
  match idx with
  | [] => Ok []
  | i :: idx' =>
      do x <- vget l i;
      do b <- p x;
      do r <- o_matching p l idx';
      Ok (if b then i :: r else r)
  end.
(** src/dom.rs:1340-1352, on the vector of children *)
Definition o_remove_by_vec {A} (p : A -> outcome bool) (l : list A) : outcome (list A * nat) :=
  do rm <- o_matching p l (rev (seq 0 (List.length l)));
  do l' <- remove_indices l rm;
  Ok (l', List.length rm).
Definition o_remove_by (e : oelem) (p : obj -> outcome bool) : outcome (oelem * nat) :=
  do r <- o_remove_by_vec p (o_children e);
  Ok (o_set_children e (fst r), snd r).
(** src/dom.rs:1330-1332: the loop over [child_elements_mut()]; each child comes with the
    result of the recursive call on its element. *)
Fixpoint o_collect_removed (l : list (obj * outcome (oelem * nat))) : outcome (list obj * nat) :=
  match l with
  | [] => Ok ([], 0)
  | (n, r) :: l' =>
      if o_is_element n then
        do ec <- r;
        do n' <- change_element (fun _ => Ok (fst ec)) n;
        do rest <- o_collect_removed l';
        Ok (n' :: fst rest, snd ec + snd rest)
      else
        do rest <- o_collect_removed l';
        Ok (n :: fst rest, snd rest)
  end.
(** src/dom.rs:1328-1334 [remove_all], as in Dom.v; [Panic] in a pair is the failing cast *)
Fixpoint o_remove_all (p : obj -> outcome bool) (e : oelem) : outcome (oelem * nat) :=
  match e with
  | mkO nm ch at_ ns px cx =>
      let annotated :=
        (fix go (l : list obj) : list (obj * outcome (oelem * nat)) :=
           match l with
           | [] => []
           | c :: l' => (c, on_element (o_remove_all p) c) :: go l'
           end) ch in
      do r <- o_remove_by_vec (fun a => p (fst a)) annotated;
      do rec <- o_collect_removed (fst r);
      Ok (mkO nm (fst rec) at_ ns px cx, snd r + snd rec)
  end.
(** src/dom.rs:1393-1398 *)
Definition o_elem_pred (p : oelem -> bool) (n : obj) : outcome bool :=
  if o_is_element n then on_element (fun e => Ok (p e)) n else Ok false.
(** src/dom.rs:1392-1404 [remove_all_elements] *)
Definition o_remove_all_elements (p : oelem -> bool) (e : oelem) : outcome (oelem * nat) :=
  do r <- o_remove_by e (o_elem_pred p);
  do rec <- o_collect_removed
              (map (fun c => (c, on_element (o_remove_all (o_elem_pred p)) c)) (o_children (fst r)));
  Ok (o_set_children (fst r) (fst rec), snd r + snd rec).
(** src/dom.rs:1370-1386 [remove_elements], :1408-1411 *)
Definition o_remove_elements (e : oelem) (p : oelem -> bool) : outcome (oelem * nat) :=
  o_remove_by e (o_elem_pred p).
Definition o_remove_elements_by_name (e : oelem) (n : str) : outcome (oelem * nat) :=
  o_remove_elements e (fun c => str_eqb (o_name c) n).

(** * Clone and equality *)

(** src/dom.rs:1558-1573 [Clone for Element] with [clone_node] (:375-387) *)
Fixpoint o_clone (e : oelem) : outcome oelem :=
  match e with
  | mkO nm ch at_ ns px cx =>
      do l <- (fix go (l : list obj) : outcome (list obj) :=
         match l with
         | [] => Ok []
         | c :: l' =>
             do c' <- (if o_is_element c then do e' <- on_element o_clone c; Ok (OElem e')
                       else if o_is_text c then do s <- unwrap (o_as_text c); Ok (OText s)
                       else if o_is_comment c then do s <- unwrap (o_as_comment c); Ok (OComment s)
                       else if o_is_cdata c then do s <- unwrap (o_as_cdata c); Ok (OCData s)
                       else Panic);
             do r <- go l';
             Ok (c' :: r)
         end) ch;
      Ok (mkO nm l at_ ns px cx)
  end.
Definition o_clone_node (n : obj) : outcome obj :=
  if o_is_element n then do e' <- on_element o_clone n; Ok (OElem e')
  else if o_is_text n then do s <- unwrap (o_as_text n); Ok (OText s)
  else if o_is_comment n then do s <- unwrap (o_as_comment n); Ok (OComment s)
  else if o_is_cdata n then do s <- unwrap (o_as_cdata n); Ok (OCData s)
  else Panic.

(** src/dom.rs:1356-1359 *)
Fixpoint o_element_indices (l : list obj) (i : nat) : list nat :=
  match l with
  | [] => []
  | n :: l' => if o_is_element n then i :: o_element_indices l' (S i) else o_element_indices l' (S i)
  end.
(** src/dom.rs:1354-1366 [remove_element].  The element has left the tree when it is
    cloned, so the new parent comes with the outcome. *)
Definition o_remove_element (e : oelem) (index : nat) : outcome (outcome oelem * oelem) :=
  let elems := o_element_indices (o_children e) 0 in
  if List.length elems <=? index
  then Err (IndexOutOfBounds index 0 (List.length elems))
  else
    do i <- vget elems index;
    do r <- vremove (o_children e) i;
    Ok (on_element o_clone (fst r), o_set_children e (snd r)).

(** src/dom.rs:1594-1609 [PartialEq for Element] with [node_eq] (:390-406); the loop over
    the indices of two vectors of the same length goes through both. *)
Fixpoint o_eq (x y : oelem) : outcome bool :=
  match x with
  | mkO nm ch at_ ns px _ =>
      if str_eqb nm (o_name y) && ostr_eqb ns (o_xmlns y) && ostr_eqb px (o_prefix y)
         && amap_eqb at_ (o_attributes y) && (List.length ch =? List.length (o_children y))
      then (fix go (l1 l2 : list obj) : outcome bool :=
              match l1, l2 with
              | a :: l1', b :: l2' =>
                  do t1 <- o_node_type a;
                  do t2 <- o_node_type b;
                  do r <- (if negb (node_type_eqb t1 t2) then Ok false
                           else match t1 with
                                | CDataNode => do s <- unwrap (o_as_cdata a); do t <- unwrap (o_as_cdata b); Ok (str_eqb s t)
                                | CommentNode => do s <- unwrap (o_as_comment a); do t <- unwrap (o_as_comment b); Ok (str_eqb s t)
                                | ElementNode => on_element (fun s => do t <- unwrap (o_as_element b); o_eq s t) a
                                | TextNode => do s <- unwrap (o_as_text a); do t <- unwrap (o_as_text b); Ok (str_eqb s t)
                                end);
                  if negb r then Ok false else go l1' l2'
              | _, _ => Ok true
              end) ch (o_children y)
      else Ok false
  end.
Definition o_node_eq (a b : obj) : outcome bool :=
  do t1 <- o_node_type a;
  do t2 <- o_node_type b;
  if negb (node_type_eqb t1 t2) then Ok false
  else match t1 with
       | CDataNode => do s <- unwrap (o_as_cdata a); do t <- unwrap (o_as_cdata b); Ok (str_eqb s t)
       | CommentNode => do s <- unwrap (o_as_comment a); do t <- unwrap (o_as_comment b); Ok (str_eqb s t)
       | ElementNode => on_element (fun s => do t <- unwrap (o_as_element b); o_eq s t) a
       | TextNode => do s <- unwrap (o_as_text a); do t <- unwrap (o_as_text b); Ok (str_eqb s t)
       end.

(** * Serialization *)

(** src/dom.rs:1722-1724, :1842-1844, :1974-1976 [to_string_with_indent] of the leaves *)
Definition o_leaf_to_string (n : obj) (indent : str) : str :=
  match n with
  | OText s => text_escape s
  | OComment s => lit "<!--" ++ s ++ lit "-->"
  | OCData s => lit "<![CDATA[" ++ s ++ lit "]]>"
  | OUser s inner => u_to_string M s inner indent
  | OElem _ => []
  end.
(** src/dom.rs:1415-1486 [to_string_with_prefix_and_indent]; [to_string_with_indent] is
    called on nodes that are not elements only, so never on [OElem]. *)
Fixpoint o_to_string (prefix indent : str) (inline : bool) (e : oelem) {struct e} : outcome str :=
  match e with
  | mkO nm ch at_ _ px _ =>
      let tag := tag_name_of px nm in
      let out := (if inline then [] else prefix) ++ sLt ++ tag ++ attrs_to_string at_ in
      match ch with
      | [] => Ok (out ++ lit "/>")
      | c0 :: rest =>
          if (match rest with [] => true | _ => false end) && negb (o_is_element c0)
          then Ok (out ++ sGt ++ o_leaf_to_string c0 [] ++ lit "</" ++ tag ++ sGt)
          else
            let inline := inline || existsb o_is_text ch in
            let next_prefix := prefix ++ indent in
            do body <- (fix go (l : list obj) : outcome str :=
               match l with
               | [] => Ok []
               | c :: l' =>
                   do s <- (if o_is_text c
                            then Ok (text_escape match c with
                                                 | OElem e' => o_text e'
                                                 | OText s | OComment s | OCData s => s
                                                 | OUser s inner => u_text M s inner
                                                 end)
                            else if o_is_element c
                            then on_element (o_to_string next_prefix indent inline) c
                            else Ok ((if inline then [] else next_prefix) ++ o_leaf_to_string c indent));
                   do r <- go l';
                   Ok (s ++ (if inline then [] else [cNL]) ++ r)
               end) ch;
            Ok (out ++ sGt ++ (if inline then [] else [cNL]) ++ body ++
                (if inline then [] else prefix) ++ lit "</" ++ tag ++ sGt)
      end
  end.
(** src/dom.rs:1543-1551 [to_string_with_indent] *)
Definition o_to_string_with_indent (e : oelem) (indent : str) : outcome str :=
  if validate_indent indent then o_to_string [] indent false e
  else o_to_string [] default_indent false e.
End Objects.

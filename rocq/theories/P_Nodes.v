(** Properties C54-C57: kinds and casts of nodes, documents, namespace
    accessors, orderings; and the updates of C53 through [children_mut] and the
    searches of C21 with a predicate that has a state. *)
From Coq Require Import List NArith Arith Bool Ascii String Lia Permutation.
From Verif Require Import Base Escape Dom Nodes BaseFacts Spec SpecDom DomFacts SpecApi ApiFacts P_Api SerFacts NodeFacts.
Import ListNotations.

(** ** C54: kinds and casts *)

(** What a node is, said with the constructors of the data type only. *)
Inductive kind : node -> node_type -> Prop :=
| k_elem e : kind (NElem e) ElementNode
| k_text s : kind (NText s) TextNode
| k_comment s : kind (NComment s) CommentNode
| k_cdata s : kind (NCData s) CDataNode.

Theorem C54_one_kind : forall n, exists t, kind n t /\ (forall t', kind n t' -> t' = t) /\ node_type_of n = Ok t.
Proof.
  intros [e|s|s|s]; eexists; (split; [constructor|]); (split; [|reflexivity]); intros t' H; now inversion H.
Qed.
Theorem C54_tests : forall n,
  (is_element n = true <-> kind n ElementNode) /\ (is_text n = true <-> kind n TextNode) /\
  (is_comment n = true <-> kind n CommentNode) /\ (is_cdata n = true <-> kind n CDataNode).
Proof.
  intros [e|s|s|s]; cbn; (split; [|split; [|split]]); split; intro H; try discriminate; try constructor; now inversion H.
Qed.
Theorem C54_casts : forall n,
  (forall e, as_element n = Ok e <-> n = NElem e) /\ (forall s, as_text n = Ok s <-> n = NText s) /\
  (forall s, as_comment n = Ok s <-> n = NComment s) /\ (forall s, as_cdata n = Ok s <-> n = NCData s).
Proof.
  intros [e|s|s|s]; cbn; (split; [|split; [|split]]); intro x; split; intro H; try discriminate; now injection H as ->.
Qed.
(** A failed cast says what the node is and what it was asked to be. *)
Definition called (t : node_type) : str :=
  match t with
  | CDataNode => lit "CData" | CommentNode => lit "Comment" | ElementNode => lit "Element" | TextNode => lit "Text"
  end.
Theorem C54_cast_errors : forall n t, kind n t ->
  (t <> ElementNode <-> as_element n = Err (TypeCastError (called t) (lit "Element"))) /\
  (t <> TextNode <-> as_text n = Err (TypeCastError (called t) (lit "Text"))) /\
  (t <> CommentNode <-> as_comment n = Err (TypeCastError (called t) (lit "Comment"))) /\
  (t <> CDataNode <-> as_cdata n = Err (TypeCastError (called t) (lit "CData"))).
Proof.
  intros n t K. destruct K; cbn; (split; [|split; [|split]]); split; intro H; try discriminate; try easy.
Qed.
Theorem C54_mut_casts : forall n,
  (forall f e, n = NElem e -> as_element_mut n f = Ok (NElem (f e))) /\
  (forall f s, n = NText s -> as_text_mut n f = Ok (NText (f s))) /\
  (forall f s, n = NComment s -> as_comment_mut n f = Ok (NComment (f s))) /\
  (forall f s, n = NCData s -> as_cdata_mut n f = Ok (NCData (f s))).
Proof. intros [e|s|s|s]; cbn; (split; [|split; [|split]]); intros f x H; try discriminate; now injection H as <-. Qed.
Theorem C54_mut_cast_errors : forall n t, kind n t ->
  (t <> ElementNode -> forall f, as_element_mut n f = Err (TypeCastError (called t) (lit "Element"))) /\
  (t <> TextNode -> forall f, as_text_mut n f = Err (TypeCastError (called t) (lit "Text"))) /\
  (t <> CommentNode -> forall f, as_comment_mut n f = Err (TypeCastError (called t) (lit "Comment"))) /\
  (t <> CDataNode -> forall f, as_cdata_mut n f = Err (TypeCastError (called t) (lit "CData"))).
Proof.
  intros n t K. destruct K; cbn; (split; [|split; [|split]]); intros H f; try reflexivity; now destruct H.
Qed.
(** [clone_node] and [node_eq] of the source, with their tests, casts and
    unwraps, and the index loop of [==]: no panic, and they are the functions the
    other theorems are about. *)
Theorem C54_clone : forall n, clone_node_lit n = Ok n.
Proof. exact clone_node_lit_eq. Qed.
Theorem C54_node_eq : forall a b, node_eq a b = Ok (node_eqb a b).
Proof. exact node_eq_eq. Qed.
Theorem C54_elem_eq : forall a b, elem_eq_lit a b = Ok (elem_eqb a b).
Proof. exact elem_eq_lit_eq. Qed.
(** Nodes of different kinds are different, whatever their text. *)
Theorem C54_kinds_differ : forall a b t u, kind a t -> kind b u -> t <> u -> node_eq a b = Ok false.
Proof. intros a b t u Ha Hb H. destruct Ha, Hb; try reflexivity; now destruct H. Qed.
Theorem C54_leaf_eq : forall s t, node_eq (NText s) (NText t) = Ok true <-> s = t.
Proof. intros s t. cbn. split; [intro H; injection H as H; now apply str_eqb_eq|intros ->; now rewrite str_eqb_refl]. Qed.
Theorem C54_comment_eq : forall s t, node_eq (NComment s) (NComment t) = Ok true <-> s = t.
Proof. intros s t. cbn. split; [intro H; injection H as H; now apply str_eqb_eq|intros ->; now rewrite str_eqb_refl]. Qed.
Theorem C54_cdata_eq : forall s t, node_eq (NCData s) (NCData t) = Ok true <-> s = t.
Proof. intros s t. cbn. split; [intro H; injection H as H; now apply str_eqb_eq|intros ->; now rewrite str_eqb_refl]. Qed.
(** The text of a leaf is its contents, and its serialization does not depend on
    the indentation. *)
Theorem C54_leaf_text : forall s,
  node_text (NText s) = s /\ node_text (NComment s) = s /\ node_text (NCData s) = s /\
  forall e, node_text (NElem e) = elem_text e.
Proof. easy. Qed.
Theorem C54_leaf_indent : forall n ind ind', ~ kind n ElementNode ->
  node_to_string_with_indent n ind = node_to_string_with_indent n ind'.
Proof. intros [e|s|s|s] ind ind' H; try reflexivity. exfalso. apply H. constructor. Qed.
Theorem C54_leaf_string : forall s ind,
  node_to_string_with_indent (NText s) ind = text_escape s /\
  node_to_string_with_indent (NComment s) ind = lit "<!--" ++ s ++ lit "-->" /\
  node_to_string_with_indent (NCData s) ind = lit "<![CDATA[" ++ s ++ lit "]]>" /\
  forall e, node_to_string_with_indent (NElem e) ind = elem_to_string_with_indent e ind.
Proof. easy. Qed.
Theorem C54_type_names : forall t u, node_type_to_string t = node_type_to_string u -> t = u.
Proof. intros [] []; try reflexivity; discriminate. Qed.
Theorem C54_from : forall s,
  (~ substring (lit "-->") s -> comment_from s = Ok s) /\ (substring (lit "-->") s -> comment_from s = Panic) /\
  (~ substring (lit "]]>") s -> cdata_from s = Ok s) /\ (substring (lit "]]>") s -> cdata_from s = Panic).
Proof.
  intro s. unfold comment_from, cdata_from, comment_new, cdata_new.
  pose proof (contains_spec (lit "-->") s) as A. pose proof (contains_spec (lit "]]>") s) as B.
  destruct (contains (lit "-->") s), (contains (lit "]]>") s); cbn [expect];
    repeat split; intro H; try reflexivity; exfalso;
    first [now apply H, A | now apply H, B | now apply A in H | now apply B in H].
Qed.
Example C54_example : node_type_of (NCData (lit "x")) = Ok CDataNode /\
  node_type_to_string CDataNode = lit "CDATA" /\ as_text (NCData (lit "x")) = Err (TypeCastError (lit "CData") (lit "Text")) /\
  node_eq (NCData (lit "x")) (NText (lit "x")) = Ok false /\
  comment_from (lit "a-->b") = Panic.
Proof. repeat split. Qed.

(** ** C53: through [children_mut] *)

Theorem C53_children_mut : forall e f,
  only_children_change e (children_mut e f) /\
  List.length (children (children_mut e f)) = List.length (children e) /\
  forall i n, nth_error (children e) i = Some n -> nth_error (children (children_mut e f)) i = Some (f n).
Proof.
  intros e f. split; [now destruct e|]. split; [destruct e; apply map_length|].
  intros i n H. destruct e as [nm ch at_ x p c]. exact (map_nth_error f i ch H).
Qed.

(** ** C21: predicates with a state *)

(** The predicate is asked about every descendant, once, one after the other;
    the answer is the nodes it said yes to, in the order they were asked. *)
Theorem C21_search_stateful : forall (S : Type) (p : S -> node -> bool * S) s e r s',
  search_st p s e = (r, s') <-> asked p s (all_children e) r s'.
Proof. intros S p s e r s'. rewrite all_children_eq. apply filter_st_asked. Qed.
Theorem C21_search_log : forall e q,
  search_st (fun log n => (q n, log ++ [n])) [] e = (search e q, all_children e).
Proof. intros e q. rewrite all_children_eq. apply (filter_st_log q (children_recursive e) []). Qed.
Theorem C21_search_elements_stateful : forall (S : Type) (p : S -> elem -> bool * S) s e, exists l,
  map (@NElem elem) l = filter is_element (all_children e) /\
  forall r s', search_elements_st p s e = Ok (r, s') <-> asked p s l r s'.
Proof.
  intros S p s e. unfold search_elements_st.
  assert (K : forall l, exists m, map (@NElem elem) m = filter is_element l /\ map_expect as_element (filter is_element l) = Ok m).
  { intro l. induction l as [|n l (m & A & B)]; [exists []; now split|]. destruct n as [c|t|t|t]; cbn [filter is_element].
    - exists (c :: m). split; [cbn [map]; now rewrite A|]. cbn [map_expect as_element expect bind]. now rewrite B.
    - exists m; now split.
    - exists m; now split.
    - exists m; now split. }
  destruct (K (children_recursive e)) as (m & A & B). exists m. rewrite all_children_eq. split; [exact A|].
  unfold search. rewrite B. cbn [bind]. intros r s'. rewrite <- filter_st_asked.
  split; [intro H; now injection H|now intros ->].
Qed.
Example C21_first_two : let p := fun k n => (is_text n && (k <? 2), if is_text n then S k else k) in
  let e := mkElem (lit "a") [NText (lit "x"); NElem (mkElem (lit "b") [NText (lit "y")] [] None None []); NText (lit "z")] [] None None [] in
  search_st p 0 e = ([NText (lit "x"); NText (lit "z")], 3).
Proof. reflexivity. Qed.

(** ** C55: documents *)

Theorem C55_new : forall r,
  root_element (doc_new r) = r /\ doctype_defs (doc_new r) = [] /\
  exists d, declaration_new = Ok d /\ declaration (doc_new r) = Some d /\
    declaration_to_string d = lit "<?xml version=""1.0"" encoding=""UTF-8""?>".
Proof. intro r. split; [reflexivity|]. split; [reflexivity|]. exists declaration_default. repeat split. Qed.
Theorem C55_new_with : forall r decl dtd,
  root_element (doc_new_with_decl_dtd r decl dtd) = r /\ declaration (doc_new_with_decl_dtd r decl dtd) = decl /\
  (forall l, dtd = Some l -> doctype_defs (doc_new_with_decl_dtd r decl dtd) = l) /\
  (dtd = None -> doctype_defs (doc_new_with_decl_dtd r decl dtd) = []).
Proof. intros r decl dtd. repeat split; now intros; subst. Qed.
Theorem C55_set_declaration : forall d x,
  declaration (set_declaration d x) = x /\ doctype_defs (set_declaration d x) = doctype_defs d /\
  root_element (set_declaration d x) = root_element d.
Proof. easy. Qed.
Theorem C55_set_doctype_defs : forall d,
  (forall l, doctype_defs (set_doctype_defs d (Some l)) = l) /\ doctype_defs (set_doctype_defs d None) = [] /\
  forall x, declaration (set_doctype_defs d x) = declaration d /\ root_element (set_doctype_defs d x) = root_element d.
Proof. easy. Qed.
Theorem C55_doctype_defs_mut : forall d f,
  declaration (doctype_defs_mut d f) = declaration d /\ root_element (doctype_defs_mut d f) = root_element d /\
  List.length (doctype_defs (doctype_defs_mut d f)) = List.length (doctype_defs d) /\
  forall i x, nth_error (doctype_defs d) i = Some x -> nth_error (doctype_defs (doctype_defs_mut d f)) i = Some (f x).
Proof.
  intros d f. repeat split; [apply map_length|]. intros i x H. exact (map_nth_error f i _ H).
Qed.
Theorem C55_root_element_mut : forall d f,
  root_element (root_element_mut d f) = f (root_element d) /\ declaration (root_element_mut d f) = declaration d /\
  doctype_defs (root_element_mut d f) = doctype_defs d.
Proof. easy. Qed.
(** Documents are equal when their three parts are. *)
Theorem C55_eq : forall a b, doc_eqb a b = true <->
  declaration a = declaration b /\ doctype_defs a = doctype_defs b /\ elem_eqb (root_element a) (root_element b) = true.
Proof.
  intros a b. unfold doc_eqb, declaration, doctype_defs, root_element.
  assert (K : forall l1 l2 : list str, (List.length l1 =? List.length l2) && forallb (fun xy => str_eqb (fst xy) (snd xy)) (combine l1 l2) = true <-> l1 = l2).
  { induction l1 as [|x l1 IH]; intros [|y l2]; cbn; try easy.
    split.
    - intro H. rewrite !andb_true_iff in H. destruct H as (L & E & R). apply str_eqb_eq in E as ->. f_equal. apply IH.
      apply andb_true_iff. now split.
    - intro H. injection H as -> H. apply IH in H. apply andb_true_iff in H as [A B]. now rewrite A, B, str_eqb_refl. }
  rewrite !andb_true_iff. rewrite <- K, andb_true_iff.
  assert (O : ostr_eqb (d_declaration a) (d_declaration b) = true <-> d_declaration a = d_declaration b).
  { destruct (d_declaration a), (d_declaration b); cbn; try easy. split; [intro H; now apply str_eqb_eq in H as ->|].
    intro H. injection H as ->. apply str_eqb_refl. }
  rewrite O. tauto.
Qed.
Example C55_example : let d := doc_new (mkElem (lit "a") [] [] None None []) in
  doc_to_string_with_indent (set_declaration d None) (lit "  ") = lit "<a/>" ++ [10%N] /\
  doc_eqb d (set_declaration d None) = false /\
  doc_eqb d (set_doctype_defs (set_doctype_defs d (Some [lit "x"])) None) = true.
Proof. repeat split. Qed.

(** ** C56: namespace accessors *)

Theorem C56_tag_name : forall e,
  (forall p, namespace_prefix e = Some p -> tag_name e = p ++ lit ":" ++ name e) /\
  (namespace_prefix e = None -> tag_name e = name e).
Proof. intro e. unfold namespace_prefix, tag_name, tag_name_of. split; [intros p ->|intros ->]; reflexivity. Qed.
Theorem C56_default_namespace : forall e,
  (namespace_prefix e = None -> default_namespace e = namespace e) /\
  (namespace_prefix e <> None -> default_namespace e = None).
Proof. intro e. unfold namespace_prefix, default_namespace. destruct (e_prefix e); split; intro H; try reflexivity; try discriminate; now destruct H. Qed.
(** The prefixes declared on an element are those of its "xmlns:…" attributes. *)
Theorem C56_no_prefixes : forall e, elem_ok e ->
  (namespace_prefixes e = None <-> forall p, get_attr e (lit "xmlns:" ++ p) = None).
Proof. intros e H. apply namespace_prefixes_none. now destruct H. Qed.
Theorem C56_prefixes : forall e m, elem_ok e -> namespace_prefixes e = Some m ->
  map_ok m /\ forall p, aget p m = get_attr e (lit "xmlns:" ++ p).
Proof. intros e m H. apply namespace_prefixes_some. now destruct H. Qed.
Example C56_example :
  let e := mkElem (lit "a") [] [(lit "xmlns:p", lit "u"); (lit "k", lit "v"); (lit "xmlns", lit "w")] (Some (lit "u")) (Some (lit "p")) [] in
  namespace_prefixes e = Some [(lit "p", lit "u")] /\ tag_name e = lit "p:a" /\ default_namespace e = None /\
  namespace_prefixes (mkElem (lit "a") [] [(lit "xmlns", lit "w")] None None []) = None.
Proof. repeat split. Qed.

(** ** C57: orderings *)

(** A comparison that always answers, is total, and whose equality is [R]. *)
Definition total_order {A} (cmp : A -> A -> option comparison) (R : A -> A -> Prop) : Prop :=
  (forall x y, cmp x y <> None) /\
  (forall x y, cmp x y = Some Eq <-> R x y) /\
  (forall x y, cmp x y = Some Lt <-> cmp y x = Some Gt) /\
  (forall x y z, cmp x y = Some Lt -> cmp y z = Some Lt -> cmp x z = Some Lt) /\
  (forall x x' y y', R x x' -> R y y' -> cmp x y = cmp x' y').

Lemma str_cmp_total {A} (g : A -> str) : total_order (fun x y => Some (str_cmp (g x) (g y))) (fun x y => g x = g y).
Proof.
  split; [discriminate|]. split; [|split; [|split]].
  - intros x y. rewrite <- (str_cmp_eq (g x) (g y)). split; [intro H; now injection H|now intros ->].
  - intros x y. rewrite (str_cmp_antisym (g x) (g y)). destruct (str_cmp (g x) (g y)); cbn; split; intro H; try reflexivity; discriminate.
  - intros x y z H1 H2. injection H1 as H1. injection H2 as H2. f_equal. apply str_cmp_lt in H1. apply str_cmp_lt in H2.
    apply str_cmp_lt. exact (str_lt_trans _ _ _ H1 H2).
  - now intros x x' y y' -> ->.
Qed.
Theorem C57_leaves : total_order text_partial_cmp eq /\ total_order comment_partial_cmp eq /\ total_order cdata_partial_cmp eq.
Proof. exact (conj (str_cmp_total (fun s => s)) (conj (str_cmp_total (fun s => s)) (str_cmp_total (fun s => s)))). Qed.
Theorem C57_leaves_meaning : forall s t,
  (text_partial_cmp s t = Some Lt <-> str_lt s t) /\ (comment_partial_cmp s t = Some Lt <-> str_lt s t) /\
  (cdata_partial_cmp s t = Some Lt <-> str_lt s t).
Proof.
  intros s t. unfold text_partial_cmp, comment_partial_cmp, cdata_partial_cmp. rewrite <- (str_cmp_lt s t).
  repeat split; intro H; try (now injection H as ->); now rewrite H.
Qed.
Theorem C57_elements : total_order elem_partial_cmp (fun a b => name a = name b).
Proof. exact (str_cmp_total e_name). Qed.
Theorem C57_elements_meaning : forall a b, elem_partial_cmp a b = Some Lt <-> str_lt (name a) (name b).
Proof.
  intros a b. unfold elem_partial_cmp. rewrite <- (str_cmp_lt (name a) (name b)). unfold name. split; [intro H; now injection H|now intros ->].
Qed.
(** Equal elements compare equal. *)
Theorem C57_eq_consistent : forall a b, elem_eqb a b = true -> elem_partial_cmp a b = Some Eq.
Proof.
  intros a b H. pose proof (elem_hash_same a b H) as E. injection E as E _. unfold elem_partial_cmp. rewrite E.
  f_equal. now apply str_cmp_eq.
Qed.
Example C57_example : text_partial_cmp (lit "ab") (lit "b") = Some Lt /\ text_partial_cmp (lit "ab") (lit "a") = Some Gt.
Proof. now split. Qed.
Print Assumptions C54_one_kind.
Print Assumptions C54_tests.
Print Assumptions C54_casts.
Print Assumptions C54_cast_errors.
Print Assumptions C54_mut_casts.
Print Assumptions C54_mut_cast_errors.
Print Assumptions C54_clone.
Print Assumptions C54_node_eq.
Print Assumptions C54_elem_eq.
Print Assumptions C54_kinds_differ.
Print Assumptions C54_leaf_eq.
Print Assumptions C54_comment_eq.
Print Assumptions C54_cdata_eq.
Print Assumptions C54_leaf_text.
Print Assumptions C54_leaf_indent.
Print Assumptions C54_leaf_string.
Print Assumptions C54_type_names.
Print Assumptions C54_from.
Print Assumptions C53_children_mut.
Print Assumptions C21_search_stateful.
Print Assumptions C21_search_log.
Print Assumptions C21_search_elements_stateful.
Print Assumptions C55_new.
Print Assumptions C55_new_with.
Print Assumptions C55_set_declaration.
Print Assumptions C55_set_doctype_defs.
Print Assumptions C55_doctype_defs_mut.
Print Assumptions C55_root_element_mut.
Print Assumptions C55_eq.
Print Assumptions C56_tag_name.
Print Assumptions C56_default_namespace.
Print Assumptions C56_no_prefixes.
Print Assumptions C56_prefixes.
Print Assumptions C57_leaves.
Print Assumptions C57_leaves_meaning.
Print Assumptions C57_elements.
Print Assumptions C57_elements_meaning.
Print Assumptions C57_eq_consistent.

(** Programs that build documents with ordinary arguments: names, texts and so on
    of given classes, and one fixed table of namespaces. *)
From Coq Require Import List NArith Arith Bool Ascii String.
From Verif Require Import Base Escape Dom Spec SpecDom SpecTree Parse SpecLex SpecParse SpecDoc SpecXml.
Import ListNotations.

(** What a program gives to the calls.  [k_namespaces] is the table of namespaces it
    uses: the namespace of each prefix, and (at [None]) that of elements without
    prefix. *)
Record kinds := Kinds {
  k_name : str -> Prop; k_key : str -> Prop; k_value : str -> Prop;
  k_text : str -> Prop; k_comment : str -> Prop; k_cdata : str -> Prop;
  k_namespaces : option str -> option str }.

(** The attribute that declares the namespace of a prefix. *)
Definition declares (q : option str) : str := match q with None => lit "xmlns" | Some p => lit "xmlns:" ++ p end.
(** An attribute of the classes, or one that declares a namespace of the table. *)
Definition k_attr (K : kinds) (k v : str) : Prop :=
  k_key K k /\ k_value K v \/ exists q, k = declares q /\ k_namespaces K q = Some v.
(** Prefix and namespace belong together. *)
Definition k_namespace (K : kinds) (prefix xmlns : option str) : Prop :=
  xmlns = k_namespaces K prefix /\ (prefix <> None -> xmlns <> None).

(** The tree has nothing but names, attributes, texts ... of these classes. *)
Inductive uses (K : kinds) : elem -> Prop :=
| us e : k_name K (e_name e) -> k_namespace K (e_prefix e) (e_xmlns e) ->
    (forall k v, In (k, v) (e_attributes e) -> k_attr K k v) ->
    (forall t, In (NText t) (e_children e) -> k_text K t) ->
    (forall c, In (NComment c) (e_children e) -> k_comment K c) ->
    (forall c, In (NCData c) (e_children e) -> k_cdata K c) ->
    (forall c, In (NElem c) (e_children e) -> uses K c) -> uses K e.

(** No element of the tree has a text among other children. *)
Inductive unmixed : elem -> Prop :=
| um e : (forall t, In (NText t) (e_children e) -> e_children e = [NText t]) ->
    (forall c, In (NElem c) (e_children e) -> unmixed c) -> unmixed e.

(** [made K any e]: a program that uses only arguments of the classes [K] can obtain
    the element [e]; [does K any e e']: a call of such a program turns [e] into [e'].
    If [any] is [false] the program removes nodes only from elements without mixed
    content, and does not put texts in place of other nodes or blank texts in place
    of texts. *)
Inductive made (K : kinds) (any : bool) : elem -> Prop :=
| m_new nm text attrs xmlns prefix ch e : k_name K nm -> k_namespace K prefix xmlns ->
    (forall t, text = Some t -> k_text K t) ->
    (forall m k v, attrs = Some m -> In (k, v) m -> k_attr K k v) ->
    (forall l n, ch = Some l -> In n l -> made_node K any n) ->
    element_new nm text attrs xmlns prefix ch = Ok e -> made K any e
| m_new_from_name nm e : k_name K nm -> k_namespaces K None = None -> new_from_name nm = Ok e -> made K any e
| m_parsed s d : parse_str s = Ok d -> uses K (root_element d) -> made K any (root_element d)
| m_clone e : made K any e -> made K any (clone_elem e)
| m_does e e' : made K any e -> does K any e e' -> made K any e'
| m_removed e i n e' : made K any e -> remove e i = Ok (n, e') -> (forall c, n = NElem c -> made K any c)
| m_removed_element e i c e' : made K any e -> remove_element e i = Ok (c, e') -> made K any c
| m_found e c : made K any e -> In (NElem c) (descendants e) -> made K any (clone_elem c)
with made_node (K : kinds) (any : bool) : node -> Prop :=
| mn_elem e : made K any e -> made_node K any (NElem e)
| mn_text s : k_text K s -> made_node K any (NText s)
| mn_comment s c : k_comment K s -> comment_new s = Ok c -> made_node K any (NComment c)
| mn_cdata s c : k_cdata K s -> cdata_new s = Ok c -> made_node K any (NCData c)
| mn_removed e i n e' : made K any e -> remove e i = Ok (n, e') -> made_node K any n
| mn_found e n : made K any e -> In n (descendants e) -> made_node K any (clone_node n)
with does (K : kinds) (any : bool) : elem -> elem -> Prop :=
| do_set_attr e k v : k_attr K k v -> does K any e (snd (set_attr e k v))
| do_remove_attr e k : does K any e (snd (remove_attr e k))
| do_clear_attributes e : does K any e (clear_attributes e)
| do_append e n e' : made_node K any n -> append e n = Ok e' -> does K any e e'
| do_append_all e l e' : (forall n, In n l -> made_node K any n) -> append_all e l = Ok e' -> does K any e e'
| do_insert e i n e' : made_node K any n -> insert e i n = Ok e' -> does K any e e'
| do_set_text e t e' : k_text K t -> set_text e t = Ok e' -> does K any e e'
| do_clear e : does K any e (clear_children e)
| do_remove e i n e' : any = true \/ unmixed e -> remove e i = Ok (n, e') -> does K any e e'
| do_remove_by e p e' k : any = true \/ unmixed e -> remove_by e p = Ok (e', k) -> does K any e e'
| do_remove_all e p e' k : any = true \/ unmixed e -> remove_all p e = Ok (e', k) -> does K any e e'
| do_remove_element e i c e' : any = true \/ unmixed e -> remove_element e i = Ok (c, e') -> does K any e e'
| do_remove_elements e p e' k : any = true \/ unmixed e -> remove_elements e p = Ok (e', k) -> does K any e e'
| do_remove_elements_by_name e nm e' k : any = true \/ unmixed e ->
    remove_elements_by_name e nm = Ok (e', k) -> does K any e e'
| do_remove_all_elements e p e' k : any = true \/ unmixed e ->
    remove_all_elements p e = Ok (e', k) -> does K any e e'
(** through [children_mut], [child_elements_mut], [elements_by_*_mut], ... *)
| do_inside e a c c' b : children e = a ++ [NElem c] ++ b -> does K any c c' ->
    does K any e (set_children e (a ++ [NElem c'] ++ b))
| do_assign e a n n' b : children e = a ++ [n] ++ b -> made_node K any n' ->
    any = true \/ (forall t, n' <> NText t) -> does K any e (set_children e (a ++ [n'] ++ b))
| do_text e a t t' b : children e = a ++ [NText t] ++ b -> k_text K t' ->
    any = true \/ ~ blank t' -> does K any e (set_children e (a ++ [NText t'] ++ b))
| do_comment e a c s b : children e = a ++ [NComment c] ++ b -> k_comment K s ->
    does K any e (set_children e (a ++ [NComment (snd (comment_set_content c s))] ++ b))
| do_cdata e a c s b : children e = a ++ [NCData c] ++ b -> k_cdata K s ->
    does K any e (set_children e (a ++ [NCData (snd (cdata_set_text c s))] ++ b)).
Scheme made_mut := Minimality for made Sort Prop
  with made_node_mut := Minimality for made_node Sort Prop
  with does_mut := Minimality for does Sort Prop.
Combined Scheme made_ind3 from made_mut, made_node_mut, does_mut.

(** The namespaces of the table are declared on the element. *)
Definition declares_all (K : kinds) (e : elem) : Prop :=
  forall q v, k_namespaces K q = Some v -> get_attr e (declares q) = Some v.

(** Putting texts one behind the other stays in the class. *)
Definition joinable (K : kinds) : Prop := forall s t, k_text K s -> k_text K t -> k_text K (s ++ t).
(** Neither "xmlns" nor a name beginning with "xmlns:". *)
Definition no_declaration (k : str) : Prop := k <> lit "xmlns" /\ ~ begins (lit "xmlns:") k.
(** There is a default namespace or there are prefixes, not both. *)
Definition one_style (K : kinds) : Prop :=
  k_namespaces K None = None \/ forall p, k_namespaces K (Some p) = None.

(** Arguments of which the crate can write and read each: XML names; texts that are
    not empty and, like values and namespaces, restored from their escaped form;
    comments and CDATA sections that do not end early. *)
Definition ordinary (K : kinds) : Prop :=
  joinable K /\ one_style K /\
  (forall nm, k_name K nm -> plain_name nm /\ ~ In colon nm) /\
  (forall k, k_key K k -> plain_name k /\ no_declaration k) /\
  (forall v, k_value K v -> survives all_special v) /\
  (forall t, k_text K t -> t <> [] /\ survives text_special t) /\
  (forall c, k_comment K c -> comment_wf c) /\ (forall c, k_cdata K c -> cdata_wf c) /\
  (forall p v, k_namespaces K (Some p) = Some v -> xml_name p /\ ~ In colon p) /\
  (forall q v, k_namespaces K q = Some v -> survives all_special v).

(** Characters that XML keeps in an attribute value. *)
Definition xml_value (v : str) : Prop := Forall xml_char v /\ forall c, In c [9; 10; 13]%N -> ~ In c v.
(** Arguments that XML can hold: NCNames as names of elements and attributes; XML
    characters; no carriage return, and no tab or line end in values; comments
    without "--"; namespaces that are not empty and not reserved. *)
Definition interchangeable (K : kinds) : Prop :=
  joinable K /\
  (forall nm, k_name K nm -> is_ncname nm) /\
  (forall k, k_key K k -> is_ncname k /\ k <> lit "xmlns") /\
  (forall v, k_value K v -> xml_value v) /\
  (forall t, k_text K t -> t <> [] /\ Forall xml_char t /\ ~ In 13%N t) /\
  (forall c, k_comment K c -> comment_ok c /\ ~ In 13%N c) /\
  (forall c, k_cdata K c -> cdata_ok c /\ ~ In 13%N c) /\
  (forall p v, k_namespaces K (Some p) = Some v -> is_ncname p /\ p <> lit "xml" /\ p <> lit "xmlns") /\
  (forall q v, k_namespaces K q = Some v -> xml_value v /\ ~ In v [[]; xml_namespace; xmlns_namespace]).

(** * Examples of classes *)

(** Plain names; any ASCII text as value and text, not empty as text. *)
Definition ascii_text (s : str) : Prop := Forall Spec.ascii s.
Definition ascii_kinds (ns : option str -> option str) : kinds :=
  Kinds (fun nm => plain_name nm /\ ~ In colon nm) (fun k => plain_name k /\ no_declaration k) ascii_text
    (fun t => t <> [] /\ ascii_text t) comment_wf cdata_wf ns.
(** Any characters but those that are escaped. *)
Definition unescaped_kinds (ns : option str -> option str) : kinds :=
  Kinds (fun nm => plain_name nm /\ ~ In colon nm) (fun k => plain_name k /\ no_declaration k)
    (fun v => forall c, In c all_special -> ~ In c v)
    (fun t => t <> [] /\ forall c, In c text_special -> ~ In c t) comment_wf cdata_wf ns.
(** Everything XML can hold. *)
Definition xml_kinds (ns : option str -> option str) : kinds :=
  Kinds is_ncname (fun k => is_ncname k /\ k <> lit "xmlns") xml_value
    (fun t => t <> [] /\ Forall xml_char t /\ ~ In 13%N t)
    (fun c => comment_ok c /\ ~ In 13%N c) (fun c => cdata_ok c /\ ~ In 13%N c) ns.
(** Tables of namespaces. *)
Definition no_namespaces : option str -> option str := fun _ => None.
Definition default_only (v : str) : option str -> option str := fun q => match q with None => Some v | Some _ => None end.
Definition prefixes_only (l : list (str * str)) : option str -> option str :=
  fun q => match q with None => None | Some p => aget p l end.

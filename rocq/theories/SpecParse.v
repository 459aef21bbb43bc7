(** Specification vocabulary for parsed documents: grammar of tag sequences,
    document order events, scopes of namespace declarations, text positions.
    The only parsing function used is [unescape], which is part of the public
    API and has its own specification. *)
From Coq Require Import List NArith Arith Bool Ascii String.
From Verif Require Import Base Escape Dom Spec SpecDom SpecLex.
Import ListNotations.

(** * White space *)

(** White space only, possibly empty. *)
Definition ws (s : str) : Prop := Forall (fun c => is_whitespace c = true) s.
(** No white space outside quotes; [o] is the quote open at the start. *)
Definition solid (o : option char) (c : str) : Prop :=
  Forall (fun x => is_whitespace x = false) (unquoted o c).

(** The words of a text: its maximal parts without white space outside quotes. *)
Inductive words : str -> list str -> Prop :=
| wd_end w : ws w -> words w []
| wd_last w c : ws w -> c <> [] -> solid None c -> words (w ++ c) [c]
| wd_word w c x s l : ws w -> c <> [] -> solid None c -> quotes_closed c -> is_whitespace x = true ->
    words (x :: s) l -> words (w ++ c ++ x :: s) (c :: l).

(** * Tag sequences *)

(** What may stand before the root element: XML declaration, comments, DTDs and
    other "<!...>" tags. *)
Definition prolog_like (t : str) : Prop := begins (lit "<!") t \/ begins (lit "<?xml") t.
Definition self_closing (t : str) : Prop := ends (lit "/>") t.

(** [opening t n]: [t] opens an element called [n] (prefix included), and closes
    it at once if it is self-closing. *)
Definition opening (t n : str) : Prop :=
  ~ begins (lit "<!") t /\ ~ begins (lit "</") t /\ n <> [] /\ solid None n /\
  exists w r, t = lit "<" ++ w ++ n ++ r ++ lit ">" /\ ws w /\
    (r = [] /\ ~ self_closing t \/ r = lit "/" \/ exists c r', r = c :: r' /\ is_whitespace c = true).
(** [closing t n]: [t] closes an element called [n].  The crate tolerates
    "</n/>". *)
Definition closing (t n : str) : Prop :=
  exists w1 w2 o, t = lit "</" ++ w1 ++ n ++ w2 ++ o ++ lit ">" /\ ws w1 /\ ws w2 /\ (o = [] \/ o = lit "/").

(** The tags of one element; of the contents of an element; of one or more
    elements. *)
Inductive element_tags : list str -> Prop :=
| et_single t n : opening t n -> self_closing t -> element_tags [t]
| et_pair t n body c : opening t n -> ~ self_closing t -> content_tags body -> closing c n ->
    element_tags (t :: body ++ [c])
with content_tags : list str -> Prop :=
| ct_nil : content_tags []
| ct_markup t l : begins (lit "<!") t -> content_tags l -> content_tags (t :: l)
| ct_elem l1 l2 : element_tags l1 -> content_tags l2 -> content_tags (l1 ++ l2).
Scheme element_tags_mut := Minimality for element_tags Sort Prop
  with content_tags_mut := Minimality for content_tags Sort Prop.
Combined Scheme tags_ind2 from element_tags_mut, content_tags_mut.
Inductive roots_tags : list str -> Prop :=
| ro_one l : element_tags l -> roots_tags l
| ro_more l1 l2 : element_tags l1 -> roots_tags l2 -> roots_tags (l1 ++ l2).

(** The first tag is not one of the prolog. *)
Definition starts_with_element (toks : list (str * str)) : Prop :=
  exists txt t rest, toks = (txt, t) :: rest /\ ~ prolog_like t.

(** [one_root s pr el]: the tags of [s], with the text before each, are those of
    the prolog [pr] followed by those of a single element [el]. *)
Definition one_root (s : str) (pr el : list (str * str)) : Prop :=
  (exists tail, splits s (pr ++ el) tail) /\ Forall (fun x => prolog_like (snd x)) pr /\
  element_tags (map snd el) /\ starts_with_element el.

(** * Document order *)

Inductive event :=
| EOpen (name : str)
| EClose
| EText (s : str)
| EComment (s : str)
| ECData (s : str).
(** The events of a tree. *)
Fixpoint elem_events (e : elem) : list event :=
  match e with
  | mkElem nm ch at_ ns p ctx =>
      EOpen (match p with None => nm | Some p => p ++ lit ":" ++ nm end) ::
      flat_map (fun n => match n with
                         | NElem c => elem_events c
                         | NText s => [EText s]
                         | NComment s => [EComment s]
                         | NCData s => [ECData s]
                         end) ch ++ [EClose]
  end.
(** The events of the text before a tag and of a tag. *)
Inductive text_says : str -> list event -> Prop :=
| xs_blank txt : ws txt -> text_says txt []
| xs_decoded_blank txt v : ~ ws txt -> unescape txt = Ok v -> blank v -> text_says txt []
| xs_text txt v : ~ ws txt -> unescape txt = Ok v -> ~ blank v -> text_says txt [EText v].
Inductive tag_says : str -> list event -> Prop :=
| gs_comment c : tag_says (lit "<!--" ++ c ++ lit "-->") [EComment c]
| gs_cdata c : tag_says (lit "<![CDATA[" ++ c ++ lit "]]>") [ECData c]
| gs_open t n : opening t n -> ~ self_closing t -> tag_says t [EOpen n]
| gs_single t n : opening t n -> self_closing t -> tag_says t [EOpen n; EClose]
| gs_close t n : closing t n -> tag_says t [EClose].
Inductive says : list (str * str) -> list event -> Prop :=
| sy_nil : says [] []
| sy_tok txt t toks a b l : text_says txt a -> tag_says t b -> says toks l ->
    says ((txt, t) :: toks) (a ++ b ++ l).

(** * Scopes *)

(** [chain root l]: [l] leads from an element of the tree [root] up to [root]. *)
Inductive chain (root : elem) : list elem -> Prop :=
| ch_root : chain root [root]
| ch_child c p l : chain root (p :: l) -> In (NElem c) (e_children p) -> chain root (c :: p :: l).
(** The value of attribute [k] on the first element of the list having it. *)
Fixpoint nearest (k : str) (l : list elem) : option str :=
  match l with
  | [] => None
  | e :: l' => match get_attr e k with Some v => Some v | None => nearest k l' end
  end.

(** * Positions *)

Definition newline : char := 10%N.
(** Number of newlines. *)
Definition newlines (s : str) : nat := count_occ N.eq_dec s newline.
(** [l] is the part of [s] after its last newline. *)
Definition last_line (s l : str) : Prop :=
  ~ In newline l /\ (s = l \/ exists a, s = a ++ [newline] ++ l).
(** [located s pos line col]: byte [pos] of [s] is the start of a character of
    [s]; [line] is one more than the number of newlines up to and including that
    character, [col] one more than the number of characters on the last line of
    the text up to and including it. *)
Definition located (s : str) (pos line col : nat) : Prop :=
  exists a c b l, s = a ++ [c] ++ b /\ pos = blen a /\ last_line (a ++ [c]) l /\
    line = 1 + newlines (a ++ [c]) /\ col = 1 + List.length l.

(** * Attribute pieces *)

(** Removing white space before or after an '='. *)
Inductive squeezed : str -> str -> Prop :=
| sq_same s : squeezed s s
| sq_drop a w b s' : ws w -> ends (lit "=") a \/ begins (lit "=") b -> squeezed (a ++ b) s' ->
    squeezed (a ++ w ++ b) s'.
(** [piece s u]: [u] is a part of a part of [s] from which white space around
    some '=' signs may have been removed. *)
Definition piece (s u : str) : Prop :=
  exists p q, substring p s /\ squeezed p q /\ substring u q.

(** * Prolog *)

(** [dtds_in toks l]: [l] are the contents of the DTDs among the tags, in order. *)
Inductive dtds_in : list (str * str) -> list str -> Prop :=
| di_nil : dtds_in [] []
| di_dtd txt d toks l : dtds_in toks l -> dtds_in ((txt, lit "<!DOCTYPE" ++ d ++ lit ">") :: toks) (d :: l)
| di_other txt t toks l : ~ begins (lit "<!DOCTYPE") t -> dtds_in toks l -> dtds_in ((txt, t) :: toks) l.

(** * Error positions *)

(** The (line, column) an error reports, if any. *)
Definition reported (x : error) : option (nat * nat) :=
  match x with
  | ParsingError _ loc => loc
  | NotSupportedError _ loc => loc
  | _ => None
  end.
(** A tag, complete or not, starts at byte [pos] of [s]. *)
Definition tag_starts (s : str) (pos : nat) : Prop :=
  exists toks txt r, lexed s toks (txt ++ r) /\ no_tag txt /\ begins (lit "<") r /\ blen s = pos + blen r.
(** Text starts at byte [pos] of [s]: at the beginning or after a tag. *)
Definition text_starts (s : str) (pos : nat) : Prop :=
  exists toks txt r, lexed s toks (txt ++ r) /\ no_tag txt /\ ~ ws txt /\ blen s = pos + blen (txt ++ r).

(** * Characters and bytes *)

(** Byte offset [i] of [s] lies between two characters. *)
Definition boundary (s : str) (i : nat) : Prop := exists a b, s = a ++ b /\ i = blen a.

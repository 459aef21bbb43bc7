(** Specification of markup: what a tag is and how a text splits into tags and
    the text between them.  Only plain lists of characters are used. *)
From Coq Require Import List NArith Arith Bool Ascii String.
From Verif Require Import Base Spec.
Import ListNotations.

Definition lt_ : char := 60%N.
Definition gt_ : char := 62%N.
Definition dquote : char := 34%N.
Definition squote : char := 39%N.
Definition is_quote (c : char) : bool := (c =? dquote)%N || (c =? squote)%N.

Definition begins (p s : str) : Prop := exists r, s = p ++ r.
Definition ends (p s : str) : Prop := exists a, s = a ++ p.

(** * Quotes *)

(** The quote that is open after reading [s], starting with quote [o] open: a
    quote opens a string that ends at the next occurrence of the same quote. *)
Fixpoint open_quote (o : option char) (s : str) : option char :=
  match s with
  | [] => o
  | c :: s' =>
      open_quote match o with
                 | Some q => if (c =? q)%N then None else Some q
                 | None => if is_quote c then Some c else None
                 end s'
  end.
(** The characters of [s] outside quoted strings. *)
Fixpoint unquoted (o : option char) (s : str) : str :=
  match s with
  | [] => []
  | c :: s' =>
      match o with
      | Some q => unquoted (if (c =? q)%N then None else Some q) s'
      | None => if is_quote c then unquoted (Some c) s' else c :: unquoted None s'
      end
  end.
(** No quote is left open. *)
Definition quotes_closed (s : str) : Prop := open_quote None s = None.
(** Outside quotes there are as many '<' as '>'. *)
Definition angles_balanced (s : str) : Prop :=
  count_occ N.eq_dec (unquoted None s) lt_ = count_occ N.eq_dec (unquoted None s) gt_.

(** * Tags *)

(** [t] is the shortest beginning of [s] satisfying [P]; [rest] follows it. *)
Definition shortest (P : str -> Prop) (s t rest : str) : Prop :=
  s = t ++ rest /\ P t /\ forall t' r', s = t' ++ r' -> P t' -> begins t t'.

Definition comment_like (t : str) : Prop := ends (lit "-->") t.
Definition cdata_like (t : str) : Prop := ends (lit "]]>") t.
Definition pi_like (t : str) : Prop :=
  exists b, t = lit "<?" ++ b ++ lit "?>" /\ quotes_closed b.
Definition decl_like (t : str) : Prop :=
  exists b, t = lit "<!" ++ b ++ lit ">" /\ quotes_closed b /\ angles_balanced b.
Definition elem_like (t : str) : Prop :=
  exists b, t = lit "<" ++ b ++ lit ">" /\ quotes_closed b.

(** [tag_at s t rest]: [s] starts with the tag [t], followed by [rest]. *)
Inductive tag_at (s t rest : str) : Prop :=
| ta_comment : begins (lit "<!--") s -> shortest comment_like s t rest -> tag_at s t rest
| ta_pi : begins (lit "<?") s -> shortest pi_like s t rest -> tag_at s t rest
| ta_cdata : begins (lit "<![CDATA[") s -> shortest cdata_like s t rest -> tag_at s t rest
| ta_decl : begins (lit "<!") s -> ~ begins (lit "<!--") s -> ~ begins (lit "<![CDATA[") s ->
    shortest decl_like s t rest -> tag_at s t rest
| ta_elem : begins (lit "<") s -> ~ begins (lit "<?") s -> ~ begins (lit "<!") s ->
    shortest elem_like s t rest -> tag_at s t rest.

(** * Splitting *)

Definition no_tag (s : str) : Prop := ~ In lt_ s.
(** [lexed s toks tail]: [s] starts with the tags of [toks], each preceded by
    text without '<', and goes on with [tail]. *)
Inductive lexed : str -> list (str * str) -> str -> Prop :=
| lx_nil s : lexed s [] s
| lx_tag txt s t rest toks tail : no_tag txt -> tag_at s t rest -> lexed rest toks tail ->
    lexed (txt ++ s) ((txt, t) :: toks) tail.
(** [splits s toks tail]: [toks] are all the tags of [s], each with the text
    before it; [tail] is the text after the last one. *)
Definition splits (s : str) (toks : list (str * str)) (tail : str) : Prop :=
  lexed s toks tail /\ no_tag tail.

(** Which warnings a text deserves.  Nothing of the parser is used. *)
From Coq Require Import List NArith Arith Bool Ascii String.
From Verif Require Import Base Spec SpecDom SpecLex SpecParse SpecDoc SpecEsc SpecErr.
Import ListNotations.

(** The warnings for the tag [t] of the prolog, after the tags [toks]. *)
Inductive tag_warns (toks : list (str * str)) (t : str) : list str -> Prop :=
| tw_comment what : first_comment toks t -> shortened t what ->
    tag_warns toks t [lit "WARNING: Encountered comment " ++ what ++
      lit " outside of root element. Comments outside of the root are not supported and will be ignored."]
| tw_ignored : begins (lit "<!") t -> ~ begins (lit "<!--") t -> ~ begins (lit "<!DOCTYPE") t ->
    tag_warns toks t [lit "WARNING: Ignoring " ++ t ++ lit " (not supported outside root element)"]
| tw_comment_again : begins (lit "<!--") t -> ~ first_comment toks t -> tag_warns toks t []
| tw_doctype : begins (lit "<!DOCTYPE") t -> tag_warns toks t []
| tw_declaration : begins (lit "<?xml") t -> tag_warns toks t [].
(** Those for all tags, in order. *)
Inductive warns : list (str * str) -> list str -> Prop :=
| wn_nil : warns [] []
| wn_tag toks txt t l l' : warns toks l -> tag_warns toks t l' -> warns (toks ++ [(txt, t)]) (l ++ l').
(** The tags of the prolog of [s], as far as it can be read. *)
Definition prolog_tags (s : str) (toks : list (str * str)) : Prop :=
  (exists rest, reads s (Before toks) rest) /\
  forall toks' rest', reads s (Before toks') rest' -> exists more, toks = toks' ++ more.

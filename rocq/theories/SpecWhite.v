(** Specification of white space between tags. *)
From Coq Require Import List NArith Arith Bool Ascii String.
From Verif Require Import Base Escape Dom Spec SpecDom SpecLex SpecParse SpecMean.
Import ListNotations.

(** The same tags, with the same texts before them, except that white space may be
    replaced by other white space or by nothing. *)
Definition respaced (el el' : list (str * str)) : Prop :=
  Forall2 (fun x y => snd x = snd y /\ (fst x = fst y \/ ws (fst x) /\ ws (fst y))) el el'.
(** Tags with the text before each, written down. *)
Definition written (l : list (str * str)) : str := flat_map (fun x => fst x ++ snd x) l.
(** [decoded el vs]: [vs] are the texts between the tags of an element [el], with the
    references in them replaced; the text before the first tag is outside. *)
Definition decoded (el : list (str * str)) (vs : list str) : Prop :=
  Forall2 (fun x v => unescape (fst x) = Ok v) (tl el) vs.
Definition white (v : str) : bool := forallb is_whitespace v.
(** [inside e c]: [c] is the element [e] or an element anywhere below it. *)
Definition inside (e c : elem) : Prop := c = e \/ In (NElem c) (descendants e).
(** [tags_of own c]: [own] are tags of one whole element, and the first has the
    name and the attributes of [c]. *)
Definition tags_of (own : list (str * str)) (c : elem) : Prop :=
  element_tags (map snd own) /\ exists g t rest n l, own = (g, t) :: rest /\ start_tag t n l /\ labelled n l c.

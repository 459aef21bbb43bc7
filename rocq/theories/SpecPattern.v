(** What a pattern says about a text, following the documentation of the
    [regex] crate: a match is a part of the text; [^] and [$] look at what
    surrounds it. *)
From Coq Require Import List NArith.
From Verif Require Import Base Patterns.
From Verif Require Regex.
Import ListNotations.

(** The character belongs to the class. *)
Definition listed (k : Regex.cls) (c : char) : Prop :=
  exists lo hi, In (lo, hi) (Regex.cls_ranges k) /\ (lo <= c <= hi)%N.
Definition in_class (k : Regex.cls) (c : char) : Prop :=
  if Regex.cls_neg k then ~ listed k c else listed k c.

(** [means p a m b]: in the text [a ++ m ++ b], the part [m] is a match of [p]. *)
Inductive means : pat -> str -> str -> str -> Prop :=
| me_empty a b : means PEmpty a [] b
| me_class k c a b : in_class k c -> means (PClass k) a [c] b
| me_begin multi a b : a = [] \/ (multi = true /\ exists a', a = a' ++ [10%N]) -> means (PBegin multi) a [] b
| me_end multi a b : b = [] \/ (multi = true /\ exists b', b = 10%N :: b') -> means (PEnd multi) a [] b
| me_cat p q a m n b : means p a m (n ++ b) -> means q (a ++ m) n b -> means (PCat p q) a (m ++ n) b
| me_left p q a m b : means p a m b -> means (POr p q) a m b
| me_right p q a m b : means q a m b -> means (POr p q) a m b
| me_stop p a b : means (PStar p) a [] b
| me_again p a m n b : means p a m (n ++ b) -> means (PStar p) (a ++ m) n b -> means (PStar p) a (m ++ n) b.

(** [Regex::new(pattern).unwrap().is_match(text)] is true. *)
Definition found (pattern text : str) : Prop :=
  exists p, compile pattern = Some p /\ exists a m b, text = a ++ m ++ b /\ means p a m b.

(** The 25 characters with the Unicode property White_Space (PropList.txt). *)
Definition white_space : list char :=
  [9; 10; 11; 12; 13; 32; 133; 160; 5760;
   8192; 8193; 8194; 8195; 8196; 8197; 8198; 8199; 8200; 8201; 8202;
   8232; 8233; 8239; 8287; 12288]%N.

(** * How the patterns of the crate read *)

Definition ranges (l : list (N * N)) : pat := PClass (Regex.mkCls false l).
Definition one (c : char) : pat := ranges [(c, c)].
Definition several (p : pat) : pat := PCat p (PStar p).
Definition optional (p : pat) : pat := POr p PEmpty.
Definition all_of (l : list pat) : pat := fold_right PCat PEmpty l.

Definition white : list (N * N) :=
  [(9, 13); (32, 32); (133, 133); (160, 160); (5760, 5760); (8192, 8202);
   (8232, 8233); (8239, 8239); (8287, 8287); (12288, 12288)]%N.
Definition white_char : pat := ranges white.
Definition other_char : pat := PClass (Regex.mkCls true white).
Definition any_char : pat := PClass (Regex.mkCls true []).

(** A letter or underscore, then characters that are not white space, from the
    beginning to the end. *)
Definition name_reading : pat :=
  all_of [PBegin false; ranges [(95, 95); (97, 122); (65, 90)]%N; PStar other_char; PEnd false].
Definition whitespace_reading : pat := all_of [PBegin false; several white_char; PEnd false].
Definition blank_reading : pat := all_of [PBegin false; PStar white_char; PEnd false].

(** NameStartChar and NameChar of XML 1.0, productions [4] and [4a]. *)
Definition start_ranges : list (N * N) :=
  [(58, 58); (65, 90); (95, 95); (97, 122); (0xC0, 0xD6); (0xD8, 0xF6); (0xF8, 0x2FF);
   (0x370, 0x37D); (0x37F, 0x1FFF); (0x200C, 0x200D); (0x2070, 0x218F); (0x2C00, 0x2FEF);
   (0x3001, 0xD7FF); (0xF900, 0xFDCF); (0xFDF0, 0xFFFD); (0x10000, 0xEFFFF)]%N.
Definition more_ranges : list (N * N) :=
  [(46, 46); (45, 45); (48, 57); (0xB7, 0xB7); (0x300, 0x36F); (0x203F, 0x2040)]%N.
Definition a_name : list pat := [ranges start_ranges; PStar (ranges (start_ranges ++ more_ranges))].
Definition quoted (q : char) : pat := all_of [one q; PStar any_char; one q].
Definition an_attribute : pat :=
  all_of ([several white_char] ++ a_name ++ [one 61%N; POr (quoted 34%N) (quoted 39%N)]).
(** '<', perhaps '/', a name, perhaps ':' and a name, attributes, white space,
    perhaps '/', '>', anywhere in the text. *)
Definition tag_reading : pat :=
  all_of ([one 60%N; optional (one 47%N)] ++ a_name ++ [optional (all_of (one 58%N :: a_name))] ++
          [PStar an_attribute; PStar white_char; optional (one 47%N); one 62%N]).

(** The operations of Rust's standard library that the crate uses, as its
    documentation describes them.  Texts are lists of characters here; offsets
    are offsets in bytes, i.e. numbers of bytes of the UTF-8 form of what comes
    before. *)
From Coq Require Import List NArith.
From Verif Require Import Base SpecPattern.
Import ListNotations.

(** The number of bytes of a text in UTF-8: one for ASCII, two below U+0800,
    three below U+10000, else four. *)
Inductive char_bytes : char -> nat -> Prop :=
| cb_one c : (c < 0x80)%N -> char_bytes c 1
| cb_two c : (0x80 <= c < 0x800)%N -> char_bytes c 2
| cb_three c : (0x800 <= c < 0x10000)%N -> char_bytes c 3
| cb_four c : (0x10000 <= c)%N -> char_bytes c 4.
Inductive bytes : str -> nat -> Prop :=
| by_nil : bytes [] 0
| by_cons c n s k : char_bytes c n -> bytes s k -> bytes (c :: s) (n + k).

(** [a] is what comes before the first occurrence of [p] in [a ++ p ++ b]. *)
Definition first_at (p a b : str) : Prop :=
  forall a' b', a ++ p ++ b = a' ++ p ++ b' -> List.length a <= List.length a'.
Definition absent (p s : str) : Prop := forall a b, s <> a ++ p ++ b.

(** [replace(from, to)]: from left to right, each next occurrence. *)
Inductive replaced (from to : str) : str -> str -> Prop :=
| rp_rest s : absent from s -> replaced from to s s
| rp_next a b r : first_at from a b -> replaced from to b r -> replaced from to (a ++ from ++ b) (a ++ to ++ r).

(** [trim]: white space taken off both ends, no more and no less. *)
Definition all_white (s : str) : Prop := forall c, In c s -> In c white_space.
Definition starts_black (s : str) : Prop := forall c r, s = c :: r -> ~ In c white_space.
Definition ends_black (s : str) : Prop := forall c r, s = r ++ [c] -> ~ In c white_space.
Definition trims (s t : str) : Prop :=
  exists a b, s = a ++ t ++ b /\ all_white a /\ all_white b /\ starts_black t /\ ends_black t.

(** Tables: each key once; [has m k v]: the key [k] has the value [v]. *)
Definition table (m : list (str * str)) : Prop := NoDup (map fst m).
Definition has (m : list (str * str)) (k v : str) : Prop := In (k, v) m.

(** [removed l i x l']: taking out item [i], which is [x]; the same backwards is
    inserting. *)
Definition removed {A} (l : list A) (i : nat) (x : A) (l' : list A) : Prop :=
  exists a b, l = a ++ x :: b /\ l' = a ++ b /\ List.length a = i.

(** Specification vocabulary for machine integers. *)
From Coq Require Import List NArith ZArith Arith Bool.
From Verif Require Import Base Dom SpecLex Machine.
Import ListNotations.

(** The machines Rust runs on: [usize] has at least 16 bits. *)
Definition real_machine (m : machine) : Prop := (2 ^ 16 <= words m)%N.
(** Rust allocates at most [isize::MAX] bytes, so a string is always shorter than
    half of the range of [usize]. *)
Definition allocated (m : machine) (s : str) : Prop := (2 * N.of_nat (blen s) < words m)%N.
(** Number of '<' in a text. *)
Definition angles (s : str) : nat := count_occ N.eq_dec s lt_.
(** A text with so many '<' that an [i32] counter could overflow is excluded: 2^31
    with overflow checks, 2^32 without. *)
Definition few_angles (m : machine) (s : str) : Prop :=
  (N.of_nat (angles s) < if checks m then 2 ^ 31 else 2 ^ 32)%N.
(** The integer type with the values from [lo] to below [hi]: [x] is the outcome of an
    operation on it with the exact result [z].  With overflow checks a result out of
    range is a panic, without it wraps around. *)
Definition machine_int (checked : bool) (lo hi z : Z) (x : outcome Z) : Prop :=
  ((lo <= z < hi)%Z -> x = Ok z) /\
  (~ (lo <= z < hi)%Z -> if checked then x = Panic
     else exists r k, x = Ok r /\ (lo <= r < hi)%Z /\ (r = z + k * (hi - lo))%Z).
Definition as_int (x : outcome nat) : outcome Z := do n <- x; Ok (Z.of_nat n).

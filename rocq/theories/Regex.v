(** Model of the [regex] crate as far as the crate uses it: [Regex::is_match]
    of a fixed pattern, i.e. "some substring belongs to the language of the
    pattern".  Greedy and lazy repetition have the same language.  Matching is
    by Antimirov partial derivatives over a set of states. *)
From Coq Require Import List NArith Bool.
From Verif Require Import Base.
Import ListNotations.

(** A character class: ranges, possibly negated. *)
Record cls := mkCls { cls_neg : bool; cls_ranges : list (N * N) }.
Definition cls_in (k : cls) (c : char) : bool :=
  xorb (cls_neg k) (existsb (fun r => in_range (fst r) (snd r) c) (cls_ranges k)).

Inductive re :=
| RNone
| REps
| RCls (k : cls)
| RSeq (a b : re)
| RAlt (a b : re)
| RStar (a : re).

Fixpoint nullable (r : re) : bool :=
  match r with
  | RNone => false
  | REps => true
  | RCls _ => false
  | RSeq a b => nullable a && nullable b
  | RAlt a b => nullable a || nullable b
  | RStar _ => true
  end.

(** [a] followed by [b], simplified when [a] is the empty word. *)
Definition rseq (a b : re) : re :=
  match a with REps => b | _ => RSeq a b end.

(** Partial derivatives of [r] by [c]. *)
Fixpoint pd (c : char) (r : re) : list re :=
  match r with
  | RNone => []
  | REps => []
  | RCls k => if cls_in k c then [REps] else []
  | RSeq a b =>
      map (fun a' => rseq a' b) (pd c a) ++ (if nullable a then pd c b else [])
  | RAlt a b => pd c a ++ pd c b
  | RStar a => map (fun a' => rseq a' (RStar a)) (pd c a)
  end.

Definition range_eqb (a b : N * N) : bool :=
  (fst a =? fst b)%N && (snd a =? snd b)%N.
Fixpoint list_eqb {A} (eqb : A -> A -> bool) (l1 l2 : list A) : bool :=
  match l1, l2 with
  | [], [] => true
  | x :: l1', y :: l2' => eqb x y && list_eqb eqb l1' l2'
  | _, _ => false
  end.
Definition cls_eqb (a b : cls) : bool :=
  Bool.eqb (cls_neg a) (cls_neg b) && list_eqb range_eqb (cls_ranges a) (cls_ranges b).
Fixpoint re_eqb (a b : re) : bool :=
  match a, b with
  | RNone, RNone => true
  | REps, REps => true
  | RCls j, RCls k => cls_eqb j k
  | RSeq a1 a2, RSeq b1 b2 => re_eqb a1 b1 && re_eqb a2 b2
  | RAlt a1 a2, RAlt b1 b2 => re_eqb a1 b1 && re_eqb a2 b2
  | RStar a1, RStar b1 => re_eqb a1 b1
  | _, _ => false
  end.
Fixpoint dedup (l : list re) : list re :=
  match l with
  | [] => []
  | r :: l' => let d := dedup l' in if existsb (re_eqb r) d then d else r :: d
  end.

(** Unanchored search: a match may start anywhere and end anywhere. *)
Fixpoint search (r0 : re) (states : list re) (s : str) : bool :=
  existsb nullable (r0 :: states) ||
  match s with
  | [] => false
  | c :: s' => search r0 (dedup (flat_map (pd c) (r0 :: states))) s'
  end.

(** [Regex::is_match] *)
Definition is_match (r : re) (s : str) : bool := search r [] s.

(** Pattern notation. *)
Definition RChar (c : char) : re := RCls (mkCls false [(c, c)]).
Definition RAny : re := RCls (mkCls true []).                (* "." with (?s) *)
Definition ROpt (a : re) : re := RAlt a REps.                (* a? *)
Definition RPlus (a : re) : re := RSeq a (RStar a).          (* a+ *)
Fixpoint RSeqs (l : list re) : re :=
  match l with [] => REps | [r] => r | r :: l' => RSeq r (RSeqs l') end.

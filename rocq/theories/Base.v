(** Model of the parts of the Rust standard library the crate relies on:
    strings with byte offsets, [Vec] and [HashMap] primitives, [Result] and
    panics.  Nothing here is specific to kiss-xml except the error enum. *)
From Coq Require Import List NArith Arith Bool Ascii String.
Import ListNotations.
Open Scope bool_scope.
Open Scope list_scope.

(** * Errors and outcomes *)

(** A [char] is its code point, a [String]/[&str] the list of its chars. *)
Definition char := N.
Definition str := list char.

(** The message family of a [ParsingError]; one constructor per place in
    src/lib.rs, src/parsing.rs and src/dom.rs that builds one, with the texts
    that the message quotes.  The wording is in Errors.v. *)
Inductive pmsg :=
| PNoContent          (* lib.rs:392 "no XML content" *)
| PNoClose            (* lib.rs:396 '<' has no matching '>' *)
| PTextOutsideRoot    (* lib.rs:405 *)
| PDeclNotFirst       (* lib.rs:413 *)
| PStartsWithClose    (* lib.rs:434 *)
| PInvalidSyntax      (* lib.rs:441 and lib.rs:467 *)
| POnlyOneRoot        (* lib.rs:475 *)
| PNoRootElement      (* parsing.rs:71, :98, wrapped at lib.rs:490,507,515,532,577 *)
| PInvalidComment     (* lib.rs:519 *)
| PUnclosedCData      (* lib.rs:527 *)
| PInvalidElement     (* lib.rs:741 wrapped at lib.rs:549 *)
| PRootAlreadyClosed  (* lib.rs:560 *)
| PCloseMismatch (tag opened : str) (* lib.rs:567 *)
| PRootNotClosed      (* lib.rs:592 *)
| PPopEmpty           (* parsing.rs:60 *)
| PEmptyTag           (* lib.rs:624 *)
| PAttrForm           (* lib.rs:636 *)
| PAttrNoContent      (* lib.rs:643 *)
| PAttrQuote          (* lib.rs:651 *)
| PUndefPrefix (p : str) (* lib.rs:678 *)
| PDeclSyntax         (* dom.rs:2042 *)
| PDtdSyntax.         (* dom.rs:2085 *)

(** src/errors.rs:10-30 [KissXmlError] and its payloads.  Messages are
    represented by [pmsg] or the texts they quote; a [ParsingError] or
    [NotSupportedError] carries the (line, column) its message reports, if any.
    The messages themselves are in Errors.v, [error_value]. *)
Inductive error :=
| ParsingError (m : pmsg) (loc : option (nat * nat))
| TypeCastError (from to : str)
| DoesNotExistError
| IndexOutOfBounds (index lo hi : nat)
| InvalidAttributeName (nm : str)
| InvalidElementName (nm : str)
| InvalidContent (msg : str)
| NotSupportedError (what : str) (loc : option (nat * nat))
| IOError.

(** Result of running a Rust function: a normal value, an [Err], a panic, or
    (model artefact) exhausted fuel of a bounded loop. *)
Inductive outcome (A : Type) :=
| Ok (a : A)
| Err (e : error)
| Panic
| Fuel.
Arguments Ok {A} a.
Arguments Err {A} e.
Arguments Panic {A}.
Arguments Fuel {A}.

Definition bind {A B} (x : outcome A) (f : A -> outcome B) : outcome B :=
  match x with
  | Ok a => f a
  | Err e => Err e
  | Panic => Panic
  | Fuel => Fuel
  end.
Notation "'do' x <- e ; k" := (bind e (fun x => k))
  (at level 200, x pattern, e at level 100, k at level 200, right associativity).

(** [Result::map_err] *)
Definition map_err {A} (x : outcome A) (f : error -> error) : outcome A :=
  match x with Err e => Err (f e) | _ => x end.

(** [Option::unwrap] / [expect] *)
Definition unwrap {A} (x : option A) : outcome A :=
  match x with Some a => Ok a | None => Panic end.

(** * Characters and strings *)

(** ASCII literals. *)
Definition lit (s : string) : str := map N_of_ascii (list_ascii_of_string s).

(** [char::len_utf8] *)
Definition len_utf8 (c : char) : nat :=
  if (c <? 128)%N then 1
  else if (c <? 2048)%N then 2
  else if (c <? 65536)%N then 3
  else 4.

(** [str::len] (bytes) *)
Fixpoint blen (s : str) : nat :=
  match s with [] => 0 | c :: s' => len_utf8 c + blen s' end.

(** [&s[i..]]: [None] when [i] is out of range or not a char boundary. *)
Fixpoint bskip (i : nat) (s : str) {struct s} : option str :=
  match i with
  | O => Some s
  | S _ =>
      match s with
      | [] => None
      | c :: s' => if len_utf8 c <=? i then bskip (i - len_utf8 c) s' else None
      end
  end.

(** [&s[..i]] *)
Fixpoint btake (i : nat) (s : str) {struct s} : option str :=
  match i with
  | O => Some []
  | S _ =>
      match s with
      | [] => None
      | c :: s' =>
          if len_utf8 c <=? i then option_map (cons c) (btake (i - len_utf8 c) s')
          else None
      end
  end.

Definition slice_from (s : str) (i : nat) : outcome str := unwrap (bskip i s).
Definition slice_to (s : str) (i : nat) : outcome str := unwrap (btake i s).
(** [&s[a..b]]: panics also when [a > b]. *)
Definition slice (s : str) (a b : nat) : outcome str :=
  if a <=? b then do r <- slice_from s a; slice_to r (b - a) else Panic.

(** [==] on strings *)
Fixpoint str_eqb (a b : str) : bool :=
  match a, b with
  | [], [] => true
  | x :: a', y :: b' => (x =? y)%N && str_eqb a' b'
  | _, _ => false
  end.

(** [str::starts_with(&str)] *)
Fixpoint starts_with (pat s : str) : bool :=
  match pat, s with
  | [], _ => true
  | p :: pat', c :: s' => (p =? c)%N && starts_with pat' s'
  | _ :: _, [] => false
  end.

(** [str::ends_with(&str)] *)
Definition ends_with (pat s : str) : bool := starts_with (rev pat) (rev s).

(** [str::find(&str)]: byte offset of the first occurrence. *)
Fixpoint find_sub (pat s : str) : option nat :=
  if starts_with pat s then Some 0
  else match s with
       | [] => None
       | c :: s' => option_map (Nat.add (len_utf8 c)) (find_sub pat s')
       end.

(** [str::contains(&str)] *)
Definition contains (pat s : str) : bool :=
  match find_sub pat s with Some _ => true | None => false end.

(** [str::replace(from, to)] with non-empty [from]: non-overlapping matches,
    left to right.  [skip] counts the chars of a match still to be consumed. *)
Fixpoint replace_aux (from to : str) (skip : nat) (s : str) : str :=
  match s with
  | [] => []
  | c :: s' =>
      match skip with
      | S k => replace_aux from to k s'
      | O => if starts_with from s
             then to ++ replace_aux from to (List.length from - 1) s'
             else c :: replace_aux from to 0 s'
      end
  end.
Definition replace (from to s : str) : str := replace_aux from to 0 s.

(** [str::split_once] with a one-character pattern. *)
Fixpoint split_once (p : char) (s : str) : option (str * str) :=
  match s with
  | [] => None
  | c :: s' =>
      if (c =? p)%N then Some ([], s')
      else option_map (fun ab => (c :: fst ab, snd ab)) (split_once p s')
  end.

(** [str::strip_prefix], [str::strip_suffix] *)
Fixpoint strip_prefix (pat s : str) : option str :=
  match pat, s with
  | [], _ => Some s
  | p :: pat', c :: s' => if (p =? c)%N then strip_prefix pat' s' else None
  | _ :: _, [] => None
  end.
Definition strip_suffix (pat s : str) : option str :=
  option_map (@rev char) (strip_prefix (rev pat) (rev s)).

Definition in_range (lo hi c : N) : bool := (lo <=? c)%N && (c <=? hi)%N.

(** [char::is_whitespace] and regex [\s]: Unicode property White_Space. *)
Definition is_whitespace (c : char) : bool :=
  in_range 9 13 c || (c =? 32)%N || (c =? 133)%N || (c =? 160)%N
  || (c =? 5760)%N || in_range 8192 8202 c || (c =? 8232)%N || (c =? 8233)%N
  || (c =? 8239)%N || (c =? 8287)%N || (c =? 12288)%N.

(** [str::trim] *)
Fixpoint trim_start (s : str) : str :=
  match s with
  | [] => []
  | c :: s' => if is_whitespace c then trim_start s' else s
  end.
Definition trim_end (s : str) : str := rev (trim_start (rev s)).
Definition trim (s : str) : str := trim_end (trim_start s).

(** Comparison of strings ([Ord for str]).  Rust compares UTF-8 bytes, which
    is the same as comparing code points (proved in Utf8Facts.v). *)
Fixpoint str_cmp (a b : str) : comparison :=
  match a, b with
  | [], [] => Eq
  | [], _ :: _ => Lt
  | _ :: _, [] => Gt
  | x :: a', y :: b' =>
      match (x ?= y)%N with Eq => str_cmp a' b' | o => o end
  end.

(** [char::to_digit(16)] *)
Definition hex_digit (c : char) : option N :=
  if in_range 48 57 c then Some (c - 48)%N
  else if in_range 97 102 c then Some (c - 87)%N
  else if in_range 65 70 c then Some (c - 55)%N
  else None.

Fixpoint hex_digits (s : str) (acc : N) : option N :=
  match s with
  | [] => Some acc
  | c :: s' =>
      match hex_digit c with
      | None => None
      | Some d =>
          let acc' := (acc * 16 + d)%N in
          if (acc' <? 4294967296)%N then hex_digits s' acc' else None
      end
  end.

(** [u32::from_str_radix(s, 16)]: optional leading '+', at least one digit,
    overflow is an error. *)
Definition from_str_radix16 (s : str) : option N :=
  match s with
  | [] => None
  | c :: s' =>
      if (c =? 43)%N
      then match s' with [] => None | _ :: _ => hex_digits s' 0 end
      else hex_digits s 0
  end.

(** [char::from_u32] *)
Definition char_from_u32 (n : N) : option char :=
  if in_range 55296 57343 n then None
  else if (n <=? 1114111)%N then Some n
  else None.

(** * UTF-8 *)

(** [char::encode_utf8], as a list of byte values. *)
Definition utf8_char (c : char) : list N :=
  if (c <? 128)%N then [c]
  else if (c <? 2048)%N then [192 + c / 64; 128 + c mod 64]%N
  else if (c <? 65536)%N then
    [224 + c / 4096; 128 + (c / 64) mod 64; 128 + c mod 64]%N
  else [240 + c / 262144; 128 + (c / 4096) mod 64;
        128 + (c / 64) mod 64; 128 + c mod 64]%N.
Definition utf8 (s : str) : list N := flat_map utf8_char s.

(** * Vec *)

Section Vec.
  Context {A : Type}.
  (** [v[i]] *)
  Definition vget (l : list A) (i : nat) : outcome A := unwrap (nth_error l i).
  (** [Vec::remove] *)
  Fixpoint vremove (l : list A) (i : nat) : outcome (A * list A) :=
    match l, i with
    | [], _ => Panic
    | x :: l', O => Ok (x, l')
    | x :: l', S i' => do yr <- vremove l' i'; Ok (fst yr, x :: snd yr)
    end.
  (** [Vec::insert] *)
  Fixpoint vinsert (l : list A) (i : nat) (a : A) : outcome (list A) :=
    match i, l with
    | O, _ => Ok (a :: l)
    | S _, [] => Panic
    | S i', x :: l' => do r <- vinsert l' i' a; Ok (x :: r)
    end.
  (** [v[i] = a] *)
  Fixpoint vset (l : list A) (i : nat) (a : A) : outcome (list A) :=
    match l, i with
    | [], _ => Panic
    | _ :: l', O => Ok (a :: l')
    | x :: l', S i' => do r <- vset l' i' a; Ok (x :: r)
    end.
End Vec.

(** * HashMap *)

(** A map is an association list; the order of the list plays the role of the
    iteration order, which Rust leaves unspecified. *)
Section Map.
  Context {K V : Type} (keq : K -> K -> bool).
  Fixpoint mget (k : K) (m : list (K * V)) : option V :=
    match m with
    | [] => None
    | (k', v) :: m' => if keq k k' then Some v else mget k m'
    end.
  (** [HashMap::insert]: replaces the value of an existing key. *)
  Fixpoint mset (k : K) (v : V) (m : list (K * V)) : list (K * V) :=
    match m with
    | [] => [(k, v)]
    | (k', v') :: m' => if keq k k' then (k', v) :: m' else (k', v') :: mset k v m'
    end.
  Fixpoint mdel (k : K) (m : list (K * V)) : list (K * V) :=
    match m with
    | [] => []
    | (k', v') :: m' => if keq k k' then m' else (k', v') :: mdel k m'
    end.
  Definition mhas (k : K) (m : list (K * V)) : bool :=
    match mget k m with Some _ => true | None => false end.
End Map.

(** String-keyed maps (attributes, namespace contexts). *)
Definition amap := list (str * str).
Definition aget : str -> amap -> option str := mget str_eqb.
Definition aset : str -> str -> amap -> amap := mset str_eqb.
Definition adel : str -> amap -> amap := mdel str_eqb.
Definition ahas : str -> amap -> bool := mhas str_eqb.

(** [HashMap == HashMap]: same size and every entry of the first found in the
    second. *)
Definition amap_eqb (m1 m2 : amap) : bool :=
  (List.length m1 =? List.length m2) &&
  forallb (fun kv => match aget (fst kv) m2 with
                     | Some v => str_eqb (snd kv) v
                     | None => false
                     end) m1.

(** [Option == Option] on strings *)
Definition ostr_eqb (a b : option str) : bool :=
  match a, b with
  | None, None => true
  | Some x, Some y => str_eqb x y
  | _, _ => false
  end.

(** Model of [Regex::new] (the [regex] crate) for the pattern syntax that occurs
    in the crate: literals, character classes, [.], [^], [$], groups, [|], the
    repetitions [*], [+], [?] and their lazy forms, and the flags [(?ms)] at the
    start.  [None]: not in this subset (or not a pattern at all).  The patterns
    themselves are copied from the source below; Parse.v and Dom.v work with
    hand-translated forms of them, which theorem C78 compares with these. *)
From Coq Require Import List NArith Arith Bool Ascii String.
From Verif Require Import Base Parse Dom.
From Verif Require Regex.
Import ListNotations.
Import Regex(cls, mkCls, cls_neg, cls_ranges).

(** Syntax trees.  [.] becomes a class, [^] and [$] remember whether the
    multi-line flag is on. *)
Inductive pat :=
| PEmpty
| PClass (k : cls)
| PBegin (multi : bool)
| PEnd (multi : bool)
| PCat (p q : pat)
| POr (p q : pat)
| PStar (p : pat).

Record flags := mkFlags { multi_line : bool; dot_all : bool }.

Definition ch (a : string) : char := match lit a with c :: _ => c | [] => 0%N end.

(** The characters with a meaning of their own outside of classes. *)
Definition meta : str := lit "\.+*?()|[]{}^$".
Definition is_meta (c : char) : bool := existsb (N.eqb c) meta.

(** [\s]: the Unicode property White_Space. *)
Definition space_class : list (N * N) :=
  [(9, 13); (32, 32); (133, 133); (160, 160); (5760, 5760); (8192, 8202);
   (8232, 8233); (8239, 8239); (8287, 8287); (12288, 12288)]%N.

(** Hexadecimal digits up to the closing brace. *)
Fixpoint hex_to_brace (s : str) (acc : N) (some : bool) : option (char * str) :=
  match s with
  | [] => None
  | c :: s' =>
      if (c =? ch "}")%N then
        (if some then match char_from_u32 acc with Some x => Some (x, s') | None => None end else None)
      else match hex_digit c with
           | Some d => hex_to_brace s' (acc * 16 + d)%N true
           | None => None
           end
  end.

(** An escape that stands for one character; [s] is what follows the backslash:
    [\xHH], [\x{H...}], or an ASCII punctuation character. *)
Definition escaped_char (s : str) : option (char * str) :=
  match s with
  | [] => None
  | c :: s' =>
      if (c =? ch "x")%N then
        match s' with
        | b :: r =>
            if (b =? ch "{")%N then hex_to_brace r 0%N false
            else match hex_digit b, r with
                 | Some h, l :: r' =>
                     match hex_digit l with Some d => Some ((h * 16 + d)%N, r') | None => None end
                 | _, _ => None
                 end
        | [] => None
        end
      else if is_meta c || (c =? ch "-")%N then Some (c, s')
      else None
  end.

(** One character in a class: an escape or any character that has no meaning of
    its own there. *)
Definition class_char (s : str) : option (char * str) :=
  match s with
  | [] => None
  | c :: s' =>
      if (c =? ch "\")%N then escaped_char s'
      else if existsb (N.eqb c) (lit "[]^-&~") then None
      else Some (c, s')
  end.

(** The items of a class up to the closing bracket: characters and ranges. *)
Fixpoint class_items (fuel : nat) (s : str) (acc : list (N * N)) : option (list (N * N) * str) :=
  match fuel with
  | O => None
  | S fuel' =>
      match s with
      | [] => None
      | c :: s' =>
          if (c =? ch "]")%N then
            match acc with [] => None | _ => Some (rev acc, s') end
          else
            match class_char s with
            | None => None
            | Some (lo, r) =>
                match r with
                | d :: r' =>
                    if (d =? ch "-")%N then
                      match class_char r' with
                      | Some (hi, r'') =>
                          if (lo <=? hi)%N then class_items fuel' r'' ((lo, hi) :: acc) else None
                      | None => None
                      end
                    else class_items fuel' r ((lo, lo) :: acc)
                | [] => None
                end
            end
      end
  end.

(** A character class after its opening bracket. *)
Definition class_body (s : str) : option (pat * str) :=
  let '(neg, r) := match s with
                   | c :: s' => if (c =? ch "^")%N then (true, s') else (false, s)
                   | [] => (false, s)
                   end in
  match class_items (S (List.length r)) r [] with
  | Some (items, r') => Some (PClass (mkCls neg items), r')
  | None => None
  end.

(** A repetition after an atom; a second question mark makes it lazy, which
    does not change the set of strings matched. *)
Definition lazy (s : str) : str :=
  match s with c :: s' => if (c =? ch "?")%N then s' else s | [] => s end.
Definition repeated (p : pat) (s : str) : pat * str :=
  match s with
  | [] => (p, s)
  | c :: s' =>
      if (c =? ch "*")%N then (PStar p, lazy s')
      else if (c =? ch "+")%N then (PCat p (PStar p), lazy s')
      else if (c =? ch "?")%N then (POr p PEmpty, lazy s')
      else (p, s)
  end.

Section Syntax.
  Variable f : flags.

  (** An atom that is not a group. *)
  Definition atom (s : str) : option (pat * str) :=
    match s with
    | [] => None
    | c :: s' =>
        if (c =? ch "[")%N then class_body s'
        else if (c =? ch ".")%N then
          Some (PClass (mkCls true (if dot_all f then [] else [(10, 10)%N])), s')
        else if (c =? ch "^")%N then Some (PBegin (multi_line f), s')
        else if (c =? ch "$")%N then Some (PEnd (multi_line f), s')
        else if (c =? ch "\")%N then
          match s' with
          | d :: r =>
              if (d =? ch "s")%N then Some (PClass (mkCls false space_class), r)
              else if (d =? ch "S")%N then Some (PClass (mkCls true space_class), r)
              else match escaped_char s' with
                   | Some (x, r') => Some (PClass (mkCls false [(x, x)]), r')
                   | None => None
                   end
          | [] => None
          end
        else if is_meta c then None
        else Some (PClass (mkCls false [(c, c)]), s')
    end.

  (** Alternatives of sequences of repeated atoms, up to a closing parenthesis
      or the end.  [alts] are the alternatives before, [seq] the sequence so
      far. *)
  Fixpoint alternatives (fuel : nat) (s : str) (alts : list pat) (sq : list pat) : option (pat * str) :=
    let close := fun _ : unit =>
      fold_right (fun p q => POr p q) (fold_right PCat PEmpty (rev sq)) (rev alts) in
    match fuel with
    | O => None
    | S fuel' =>
        match s with
        | [] => Some (close tt, [])
        | c :: s' =>
            if (c =? ch ")")%N then Some (close tt, s)
            else if (c =? ch "|")%N then
              alternatives fuel' s' (fold_right PCat PEmpty (rev sq) :: alts) []
            else if (c =? ch "(")%N then
              match alternatives fuel' s' [] [] with
              | Some (p, d :: r) =>
                  if (d =? ch ")")%N then
                    let '(q, r') := repeated p r in alternatives fuel' r' alts (q :: sq)
                  else None
              | _ => None
              end
            else
              match atom s with
              | Some (p, r) => let '(q, r') := repeated p r in alternatives fuel' r' alts (q :: sq)
              | None => None
              end
        end
    end.
End Syntax.

(** [Regex::new]: the flags, then the pattern to the end. *)
Definition compile (s : str) : option pat :=
  let '(f, r) := match strip_prefix (lit "(?ms)") s with
                 | Some r => (mkFlags true true, r)
                 | None => (mkFlags false false, s)
                 end in
  match alternatives f (S (List.length r)) r [] [] with
  | Some (p, []) => Some p
  | _ => None
  end.

(** * The patterns of the crate, copied *)

(** src/dom.rs:985 [check_attr_name] *)
Definition attr_name_source : str := lit "^[_a-zA-Z]\S*$".
(** src/dom.rs:999 [check_elem_name] *)
Definition elem_name_source : str := lit "^[_a-zA-Z]\S*$".
(** src/dom.rs:1659 [Text::is_whitespace] *)
Definition whitespace_source : str := lit "^\s+$".
(** src/lib.rs:872 [real_text] *)
Definition blank_source : str := lit "^\s*$".
(** src/lib.rs:733 *)
Definition name_start_char : str := lit
  "[:A-Z_a-z\xC0-\xD6\xD8-\xF6\xF8-\x{2FF}\x{370}-\x{37D}\x{37F}-\x{1FFF}\x{200C}-\x{200D}\x{2070}-\x{218F}\x{2C00}-\x{2FEF}\x{3001}-\x{D7FF}\x{F900}-\x{FDCF}\x{FDF0}-\x{FFFD}\x{10000}-\x{EFFFF}]".
(** src/lib.rs:734 *)
Definition name_char : str := lit
  "[:A-Z_a-z\xC0-\xD6\xD8-\xF6\xF8-\x{2FF}\x{370}-\x{37D}\x{37F}-\x{1FFF}\x{200C}-\x{200D}\x{2070}-\x{218F}\x{2C00}-\x{2FEF}\x{3001}-\x{D7FF}\x{F900}-\x{FDCF}\x{FDF0}-\x{FFFD}\x{10000}-\x{EFFFF}.\-0-9\xB7\x{0300}-\x{036F}\x{203F}-\x{2040}]".
(** src/lib.rs:735, [format!] with the two classes filled in *)
Definition tag_source : str :=
  lit "(?ms)</?" ++ name_start_char ++ name_char ++ lit "*(:" ++ name_start_char ++ name_char ++
  lit "*)?(\s+" ++ name_start_char ++ name_char ++ lit "*=("".*?""|'.*?'))*\s*/?>".

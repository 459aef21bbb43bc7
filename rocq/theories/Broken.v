(** A stderr that cannot be written any more, such as a pipe whose reader is gone or a
    full disk: `eprintln!` panics then.  (A stderr that was closed is written to without
    effect; this is the case of Warn.v.)  [k] messages can be written before that. *)
From Coq Require Import List NArith Arith Bool Ascii String.
From Verif Require Import Base Dom Parse Files Warn.
Import ListNotations.

(** std::io::_eprint, for a computation that prints [fst r] before its result. *)
Fixpoint print_all {A M} (k : nat) (ms : list M) (r : outcome A) {struct ms} : outcome A :=
  match ms with
  | [] => r
  | _ :: ms' => match k with O => Panic | S k' => print_all k' ms' r end
  end.
(** src/lib.rs:381-602 with :421 and :430 *)
Definition parse_str_on (k : nat) (s : str) : outcome document := print_all k (fst (parse_str_w s)) (snd (parse_str_w s)).
(** src/lib.rs:363-367 *)
Definition parse_filepath_on (k : nat) (w : fs) (p : path) : outcome document :=
  do content <- read_to_string w p;
  parse_str_on k content.
(** src/dom.rs:128-152 with :133, and src/dom.rs:1541-1556 with :1547 *)
Definition doc_to_string_on (k : nat) (d : document) (i : str) : outcome str :=
  print_all k (fst (doc_to_string_w d i)) (Ok (snd (doc_to_string_w d i))).
Definition elem_to_string_on (k : nat) (e : elem) (i : str) : outcome str :=
  print_all k (fst (elem_to_string_w e i)) (Ok (snd (elem_to_string_w e i))).
(** src/dom.rs:164-173: the directories are created, then the text is made, then the file
    is opened and written *)
Definition write_to_filepath_on (k : nat) (d : document) (w : fs) (p : path) (i : str) : fs * outcome unit :=
  let (w1, r) := match parent p with None => (w, Ok tt) | Some dir => create_dir_all w dir end in
  match r with
  | Ok _ => match doc_to_string_on k d i with
            | Ok text => fs_write w1 p (utf8 text)
            | Err x => (w1, Err x)
            | Panic => (w1, Panic)
            | Fuel => (w1, Fuel)
            end
  | _ => (w1, r)
  end.
(** src/lib.rs:372-376 *)
Definition parse_stream_on (k : nat) (l : list read_event) : outcome document :=
  do bs <- read_to_end l;
  do buffer <- string_of bs;
  parse_str_on k buffer.
(** src/dom.rs:185-187: the text is made before anything is written *)
Definition write_to_file_on (k : nat) (d : document) (out : list write_event) (i : str) : list N * outcome unit :=
  match doc_to_string_on k d i with
  | Ok text => write_all out (utf8 text)
  | Err x => ([], Err x)
  | Panic => ([], Panic)
  | Fuel => ([], Fuel)
  end.

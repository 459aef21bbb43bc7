(** Model of the functions that read and write files and streams, with the parts
    of the standard library they use: UTF-8 decoding, the [Read] and [Write]
    traits and a file system.  Bytes are numbers below 256. *)
From Coq Require Import List NArith Arith Bool Ascii String.
From Verif Require Import Base Dom Parse.
Import ListNotations.
Open Scope N_scope.

(** * UTF-8 decoding *)

Definition cont (b : N) : bool := in_range 128 191 b.
(** Second byte allowed after a first byte of a sequence of three or four
    (The Unicode Standard, table 3-7). *)
Definition second3 (b0 b1 : N) : bool :=
  if b0 =? 224 then in_range 160 191 b1
  else if b0 =? 237 then in_range 128 159 b1
  else in_range 225 239 b0 && cont b1.
Definition second4 (b0 b1 : N) : bool :=
  if b0 =? 240 then in_range 144 191 b1
  else if b0 =? 244 then in_range 128 143 b1
  else in_range 241 243 b0 && cont b1.
(** [core::str::from_utf8] / [String::from_utf8]: [None] is the error. *)
Fixpoint from_utf8 (bs : list N) : option str :=
  match bs with
  | [] => Some []
  | b0 :: r0 =>
      if b0 <? 128 then option_map (cons b0) (from_utf8 r0)
      else match r0 with
      | [] => None
      | b1 :: r1 =>
          if in_range 194 223 b0
          then if cont b1 then option_map (cons ((b0 - 192) * 64 + (b1 - 128))) (from_utf8 r1) else None
          else match r1 with
          | [] => None
          | b2 :: r2 =>
              if in_range 224 239 b0
              then if second3 b0 b1 && cont b2
                   then option_map (cons ((b0 - 224) * 4096 + (b1 - 128) * 64 + (b2 - 128))) (from_utf8 r2) else None
              else match r2 with
              | [] => None
              | b3 :: r3 =>
                  if in_range 240 244 b0 && second4 b0 b1 && cont b2 && cont b3
                  then option_map (cons ((b0 - 240) * 262144 + (b1 - 128) * 4096 + (b2 - 128) * 64 + (b3 - 128))) (from_utf8 r3)
                  else None
              end
          end
      end
  end.
(** What [read_to_string] does with the bytes read: invalid UTF-8 is an
    [io::Error] of kind InvalidData. *)
Definition string_of (bs : list N) : outcome str :=
  match from_utf8 bs with Some s => Ok s | None => Err IOError end.

(** * Streams *)

(** What the successive calls of [Read::read] return; after the last one the
    stream is at its end ([Ok(0)]). *)
Inductive read_event :=
| Chunk (bs : list N)      (* Ok(n), n bytes; n = 0 means end of the stream *)
| Interrupted              (* Err of kind Interrupted *)
| ReadFails.               (* any other Err *)
(** [Read::read_to_end]: reads up to the first [Ok(0)]; interrupted reads are
    retried. *)
Fixpoint read_to_end (l : list read_event) : outcome (list N) :=
  match l with
  | [] => Ok []
  | Chunk [] :: _ => Ok []
  | Chunk bs :: l' => do r <- read_to_end l'; Ok (bs ++ r)
  | Interrupted :: l' => read_to_end l'
  | ReadFails :: _ => Err IOError
  end.
(** src/lib.rs:372-376 [parse_stream] *)
Definition parse_stream (l : list read_event) : outcome document :=
  do bs <- read_to_end l;
  do buffer <- string_of bs;
  parse_str buffer.

(** What the successive calls of [Write::write] do; after the last one every
    call writes everything. *)
Inductive write_event :=
| Accepts (n : nat)        (* Ok(n): writes [n] bytes, or all if there are fewer *)
| WInterrupted
| WriteFails.
(** [Write::write_all]: the bytes that reach the stream, and the result.  A
    write of no bytes is an error (WriteZero). *)
Fixpoint write_all (l : list write_event) (bs : list N) : list N * outcome unit :=
  match bs with
  | [] => ([], Ok tt)
  | _ =>
      match l with
      | [] => (bs, Ok tt)
      | Accepts O :: _ => ([], Err IOError)
      | Accepts n :: l' =>
          let (w, r) := write_all l' (skipn n bs) in (firstn n bs ++ w, r)
      | WInterrupted :: l' => write_all l' bs
      | WriteFails :: _ => ([], Err IOError)
      end
  end.
(** src/dom.rs:185-187 [Document::write_to_file_with_indent]: [write!] of one
    string is one [write_all]. *)
Definition write_to_file_with_indent (d : document) (out : list write_event) (indent : str) : list N * outcome unit :=
  write_all out (utf8 (doc_to_string_with_indent d indent)).
(** src/dom.rs:178-180 [Document::write_to_file] *)
Definition write_to_file (d : document) (out : list write_event) : list N * outcome unit :=
  write_to_file_with_indent d out (lit "  ").

(** * Files *)

(** A path is the list of its components, outermost first (no links, no "..");
    [] is the root or current directory, which exists.  [fs_denied] says for
    which paths the operating system refuses access, and [fs_disk] what the
    writes to an opened file do (the disk may be full). *)
Definition path := list str.
Inductive entry := Dir | File (bs : list N).
Record fs := mkFs { fs_entries : list (path * entry); fs_denied : path -> bool; fs_disk : list write_event }.
Fixpoint path_eqb (a b : path) : bool :=
  match a, b with
  | [], [] => true
  | x :: a', y :: b' => str_eqb x y && path_eqb a' b'
  | _, _ => false
  end.
Definition lookup (w : fs) (p : path) : option entry :=
  match p with [] => Some Dir | _ => mget path_eqb p (fs_entries w) end.
Definition put (w : fs) (p : path) (e : entry) : fs := mkFs (mset path_eqb p e (fs_entries w)) (fs_denied w) (fs_disk w).
(** [Path::parent]: [None] for the root. *)
Definition parent (p : path) : option path :=
  match p with [] => None | _ => Some (removelast p) end.
(** [fs::read_to_string] *)
Definition read_to_string (w : fs) (p : path) : outcome str :=
  if fs_denied w p then Err IOError
  else match lookup w p with
       | Some (File bs) => string_of bs
       | _ => Err IOError
       end.
(** [fs::create_dir_all]: creates the missing directories one after the other,
    outermost first; [done] is the part of the path already dealt with. *)
Fixpoint create_dirs (w : fs) (done rest : path) : fs * outcome unit :=
  match rest with
  | [] => (w, Ok tt)
  | c :: rest' =>
      let p := done ++ [c] in
      match lookup w p with
      | Some Dir => create_dirs w p rest'
      | Some (File _) => (w, Err IOError)
      | None => if fs_denied w p then (w, Err IOError) else create_dirs (put w p Dir) p rest'
      end
  end.
Definition create_dir_all (w : fs) (p : path) : fs * outcome unit := create_dirs w [] p.
(** [fs::write]: [File::create] creates or truncates the file, [write_all] writes
    the bytes. *)
Definition fs_write (w : fs) (p : path) (bs : list N) : fs * outcome unit :=
  if fs_denied w p then (w, Err IOError)
  else match lookup w p, parent p with
       | Some Dir, _ => (w, Err IOError)
       | _, Some d => match lookup w d with
                      | Some Dir => let (written, r) := write_all (fs_disk w) bs in (put w p (File written), r)
                      | _ => (w, Err IOError)
                      end
       | _, None => (w, Err IOError)
       end.
(** src/lib.rs:363-367 [parse_filepath] *)
Definition parse_filepath (w : fs) (p : path) : outcome document :=
  do content <- read_to_string w p;
  parse_str content.
(** src/dom.rs:164-173 [Document::write_to_filepath_with_indent] *)
Definition write_to_filepath_with_indent (d : document) (w : fs) (p : path) (indent : str) : fs * outcome unit :=
  let (w1, r) := match parent p with None => (w, Ok tt) | Some dir => create_dir_all w dir end in
  match r with
  | Ok _ => fs_write w1 p (utf8 (doc_to_string_with_indent d indent))
  | _ => (w1, r)
  end.
(** src/dom.rs:157-159 [Document::write_to_filepath] *)
Definition write_to_filepath (d : document) (w : fs) (p : path) : fs * outcome unit :=
  write_to_filepath_with_indent d w p (lit "  ").

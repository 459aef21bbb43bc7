(** Model of the escaping functions of src/lib.rs. *)
From Coq Require Import List NArith Arith Bool Ascii String.
From Verif Require Import Base.
Import ListNotations.

(** Literals used by the code. *)
Definition sAmp    := Eval vm_compute in lit "&".
Definition sLt     := Eval vm_compute in lit "<".
Definition sGt     := Eval vm_compute in lit ">".
Definition sApos   := Eval vm_compute in lit "'".
Definition sQuot   := Eval vm_compute in [34%N].
Definition eAmp    := Eval vm_compute in lit "&amp;".
Definition eLt     := Eval vm_compute in lit "&lt;".
Definition eGt     := Eval vm_compute in lit "&gt;".
Definition eApos   := Eval vm_compute in lit "&apos;".
Definition eQuot   := Eval vm_compute in lit "&quot;".
Definition cSemi : char := 59%N.

(** src/lib.rs:252-257 [text_escape] *)
Definition text_escape (text : str) : str :=
  replace sGt eGt (replace sLt eLt (replace sAmp eAmp text)).

(** src/lib.rs:267-274 [escape] *)
Definition escape (text : str) : str :=
  replace sQuot eQuot
    (replace sApos eApos (replace sGt eGt (replace sLt eLt (replace sAmp eAmp text)))).

(** src/lib.rs:261-263 [attribute_escape] *)
Definition attribute_escape (text : str) : str := escape text.

(** [String::truncate]: no effect when [n >= len], panics off a boundary. *)
Definition truncate (s : str) (n : nat) : outcome str :=
  if blen s <=? n then Ok s else slice_to s n.

(** src/lib.rs:354-359 [string_insert] *)
Definition string_insert (buffer : str) (a b : nat) (insert : str) : outcome str :=
  do back <- slice_from buffer b;
  do front <- truncate buffer a;
  Ok (front ++ insert ++ back).

(** src/lib.rs:293-327, the body of [if k == ';'] in [unescape]'s inner loop.
    [slc] is the copy of [buffer[i..]] made at line 289 and [j] the offset of
    the ';' in it. *)
Definition unescape_entity (i j : nat) (slc buffer : str) (char_size : nat)
  : outcome (str * nat) :=
  let start := i in
  let fin := i + j + 1 in
  do slc <- slice_to slc j;
  do buffer <- (if str_eqb slc (lit "&amp") then string_insert buffer start fin sAmp else Ok buffer);
  do buffer <- (if str_eqb slc (lit "&lt") then string_insert buffer start fin sLt else Ok buffer);
  do buffer <- (if str_eqb slc (lit "&gt") then string_insert buffer start fin sGt else Ok buffer);
  do buffer <- (if str_eqb slc (lit "&apos") then string_insert buffer start fin sApos else Ok buffer);
  do buffer <- (if str_eqb slc (lit "&quot") then string_insert buffer start fin sQuot else Ok buffer);
  if starts_with (lit "&#") slc then
    do hex <- slice_from slc 2;
    match from_str_radix16 hex with
    | Some codepoint =>
        match char_from_u32 codepoint with
        | Some unicode =>
            do buffer <- string_insert buffer start fin [unicode];
            Ok (buffer, len_utf8 unicode)
        | None => Ok (buffer, char_size)
        end
    | None => Ok (buffer, char_size)
    end
  else Ok (buffer, char_size).

(** src/lib.rs:291-328, the [for (j, k) in slice.char_indices()] loop; [rest]
    is what remains of [slc] from byte offset [j] on. *)
Fixpoint unescape_scan (i : nat) (slc rest : str) (j : nat) (buffer : str) (char_size : nat)
  : outcome (str * nat) :=
  match rest with
  | [] => Ok (buffer, char_size)
  | k :: rest' =>
      let char_size := len_utf8 k in
      do bc <- (if (k =? cSemi)%N then unescape_entity i j slc buffer char_size
                else Ok (buffer, char_size));
      unescape_scan i slc rest' (j + len_utf8 k) (fst bc) (snd bc)
  end.

(** src/lib.rs:282-332, the outer [loop] *)
Fixpoint unescape_loop (fuel : nat) (buffer : str) (last_i : nat) : outcome str :=
  match fuel with
  | O => Fuel
  | S fuel' =>
      if blen buffer <=? last_i then Ok buffer
      else
        do tail <- slice_from buffer last_i;
        match find_sub sAmp tail with
        | None => Ok buffer
        | Some i0 =>
            let i := i0 + last_i in
            do slc <- slice_from buffer i;
            do bc <- unescape_scan i slc slc 0 buffer 1;
            unescape_loop fuel' (fst bc) (i + snd bc)
        end
  end.

(** src/lib.rs:279-334 [unescape] *)
Definition unescape (text : str) : outcome str :=
  unescape_loop (S (blen text)) text 0.

(** Bytes, files and streams: C51, C52. *)
From Coq Require Import List NArith Arith Bool Ascii String Lia.
From Verif Require Import Base Escape BaseFacts Dom Spec SpecDom SerFacts Parse SpecParse SpecDoc Files SpecBytes SpecFiles Utf8Facts FilesFacts DocCheck P_Doc.
Import ListNotations.

(** * C51: texts as bytes *)

(** Rust compares strings by their bytes; the model compares code points. *)
Theorem C51_order : forall a b, text_ok a -> text_ok b ->
  str_cmp (utf8 a) (utf8 b) = str_cmp a b /\ (str_lt (utf8 a) (utf8 b) <-> str_lt a b) /\ (utf8 a = utf8 b <-> a = b).
Proof.
  intros a b Ha Hb. pose proof (utf8_cmp a b Ha Hb) as E. split; [exact E|].
  split; [now rewrite <- !str_cmp_lt, E|]. split; [now apply utf8_inj|now intros ->].
Qed.
(** Decoding undoes encoding, and accepts nothing but encodings. *)
Theorem C51_decode : forall bs s, from_utf8 bs = Some s <-> text_ok s /\ utf8 s = bs.
Proof. exact from_utf8_spec. Qed.
Theorem C51_round_trip : forall s, text_ok s -> from_utf8 (utf8 s) = Some s.
Proof. exact from_utf8_utf8. Qed.
Theorem C51_bytes : forall s, text_ok s -> Forall (fun b => (b < 256)%N) (utf8 s) /\ List.length (utf8 s) = blen s.
Proof. intros s H. split; [now apply utf8_bytes|apply utf8_length]. Qed.
(** The model's offsets, slices and searches are those of the bytes. *)
Theorem C51_boundary : forall s i, text_ok s -> (boundary s i <-> byte_boundary (utf8 s) i).
Proof. intros s i H. now apply boundary_bytes. Qed.
Theorem C51_slice : forall s a b t, text_ok s ->
  (slice s a b = Ok t <-> a <= b /\ byte_boundary (utf8 s) a /\ byte_boundary (utf8 s) b /\ text_ok t /\
   utf8 t = firstn (b - a) (skipn a (utf8 s))).
Proof. exact slice_bytes. Qed.
Theorem C51_slice_panics : forall s a b, text_ok s ->
  (slice s a b = Panic <-> ~ (a <= b /\ byte_boundary (utf8 s) a /\ byte_boundary (utf8 s) b)).
Proof.
  intros s a b H. destruct (slice_result s a b) as [[t E]|E].
  - rewrite E. split; [discriminate|]. intro N. exfalso. apply N. apply slice_bytes in E; [|easy]. tauto.
  - split; [|easy]. intros _ (L & Ba & Bb). apply boundary_bytes in Ba, Bb; try easy.
    destruct Ba as (x & y & Es & Lx). destruct Bb as (x' & y' & Es' & Lx').
    assert (exists t, x' = x ++ t) as [t ->].
    { rewrite Es in Es'. apply app_eq_app in Es'. destruct Es' as [l [[-> ->]|[-> ->]]]; [|now exists l].
      rewrite blen_app in Lx. destruct l as [|c l]; [exists []; now rewrite !app_nil_r|].
      exfalso. cbn [blen] in Lx. pose proof (len_utf8_pos c). lia. }
    enough (slice s a b = Ok t) by congruence. apply slice_parts. exists x, y'. rewrite blen_app in Lx'.
    split; [now rewrite app_assoc|]. lia.
Qed.
Theorem C51_find : forall p s i, p <> [] -> text_ok p -> text_ok s ->
  (find_sub p s = Some i <-> stands_at (utf8 p) (utf8 s) i /\ forall j, stands_at (utf8 p) (utf8 s) j -> i <= j).
Proof. exact find_bytes. Qed.
Theorem C51_starts : forall p s, text_ok p -> text_ok s -> (starts_with p s = true <-> exists v, utf8 s = utf8 p ++ v).
Proof. exact starts_bytes. Qed.
Theorem C51_ends : forall p s, text_ok p -> text_ok s -> (ends_with p s = true <-> exists u, utf8 s = u ++ utf8 p).
Proof. exact ends_bytes. Qed.
Example C51_example : utf8 [97; 233; 9788; 128512]%N = [97; 195; 169; 226; 152; 188; 240; 159; 152; 128]%N /\
  text_ok [97; 233; 9788; 128512]%N /\ from_utf8 [195]%N = None /\ from_utf8 [192; 128]%N = None /\
  from_utf8 [237; 160; 128]%N = None /\ slice [97; 233]%N 0 2 = Panic.
Proof. repeat split; try (vm_compute; reflexivity). now apply scalarb_ok. Qed.
(** UTF-16 would order these differently. *)
Example C51_order_example : str_cmp [65535]%N [65536]%N = Lt /\ str_cmp (utf8 [65535]%N) (utf8 [65536]%N) = Lt.
Proof. split; vm_compute; reflexivity. Qed.

(** * C52: files and streams *)

(** Whatever pieces the stream comes in, even if they cut characters in two. *)
Theorem C52_stream : forall l s, text_ok s -> delivers l (utf8 s) -> parse_stream l = parse_str s.
Proof. exact stream_text. Qed.
Theorem C52_stream_invalid : forall l bs, delivers l bs -> (forall s, text_ok s -> utf8 s <> bs) -> parse_stream l = Err IOError.
Proof. exact stream_invalid. Qed.
Theorem C52_stream_breaks : forall l, breaks l -> parse_stream l = Err IOError.
Proof. exact stream_breaks. Qed.
Theorem C52_stream_cases : forall l, (exists bs, delivers l bs) \/ breaks l.
Proof. exact read_cases. Qed.
Theorem C52_file : forall w p bs s, fs_denied w p = false -> lookup w p = Some (File bs) -> text_ok s -> bs = utf8 s ->
  parse_filepath w p = parse_str s.
Proof. exact file_text. Qed.
Theorem C52_file_invalid : forall w p bs, lookup w p = Some (File bs) -> (forall s, text_ok s -> utf8 s <> bs) ->
  parse_filepath w p = Err IOError.
Proof. exact file_invalid. Qed.
Theorem C52_file_unreadable : forall w p, fs_denied w p = true \/ lookup w p = None \/ lookup w p = Some Dir ->
  parse_filepath w p = Err IOError.
Proof. exact file_unreadable. Qed.
(** Writing to a stream writes the whole text or fails after a part of it. *)
Theorem C52_write_stream : forall d out ind bs r, write_to_file_with_indent d out ind = (bs, r) ->
  (r = Ok tt /\ bs = utf8 (doc_to_string_with_indent d ind)) \/
  (r = Err IOError /\ exists rest, rest <> [] /\ utf8 (doc_to_string_with_indent d ind) = bs ++ rest).
Proof. intros d out ind bs r H. now apply write_all_ok in H. Qed.
Theorem C52_write_stream_succeeds : forall d out ind, Forall (fun e => e = WInterrupted \/ exists n, e = Accepts (S n)) out ->
  write_to_file_with_indent d out ind = (utf8 (doc_to_string_with_indent d ind), Ok tt).
Proof. intros d out ind H. now apply write_all_succeeds. Qed.
(** Writing to a path changes that file and creates the directories on the way
    to it, and nothing else. *)
Theorem C52_write_path : forall d w p ind w' r, write_to_filepath_with_indent d w p ind = (w', r) ->
  ((r = Ok tt /\ fs_denied w p = false /\ lookup w' p = Some (File (utf8 (doc_to_string_with_indent d ind))) /\
      forall q, on_the_way q p -> lookup w' q = Some Dir) \/
   (r = Err IOError /\ (lookup w' p = lookup w p \/
      exists written rest, lookup w' p = Some (File written) /\ rest <> [] /\ utf8 (doc_to_string_with_indent d ind) = written ++ rest))) /\
  (lookup w p = Some Dir -> lookup w' p = Some Dir) /\
  fs_denied w' = fs_denied w /\
  forall q, q <> p -> lookup w' q = lookup w q \/ (lookup w q = None /\ lookup w' q = Some Dir /\ on_the_way q p).
Proof. exact write_path. Qed.
Theorem C52_write_path_succeeds : forall d w p ind, p <> [] -> fs_denied w p = false -> lookup w p <> Some Dir ->
  (forall q, on_the_way q p -> lookup w q = Some Dir \/ (lookup w q = None /\ fs_denied w q = false)) ->
  Forall (fun e => e = WInterrupted \/ exists n, e = Accepts (S n)) (fs_disk w) ->
  snd (write_to_filepath_with_indent d w p ind) = Ok tt.
Proof. exact write_path_succeeds. Qed.
(** What was written is Unicode text, and is read back as such. *)
Theorem C52_text : forall d ind, elem_ok (root_element d) -> unicode_doc d -> text_ok (doc_to_string_with_indent d ind).
Proof. exact doc_text_ok. Qed.
Theorem C52_file_back : forall d w p ind w', elem_ok (root_element d) -> unicode_doc d ->
  write_to_filepath_with_indent d w p ind = (w', Ok tt) -> parse_filepath w' p = parse_str (doc_to_string_with_indent d ind).
Proof. exact file_back. Qed.
Theorem C52_stream_back : forall d out ind bs l, elem_ok (root_element d) -> unicode_doc d ->
  write_to_file_with_indent d out ind = (bs, Ok tt) -> delivers l bs -> parse_stream l = parse_str (doc_to_string_with_indent d ind).
Proof. exact stream_back. Qed.
Theorem C52_file_round_trip : forall d w p ind w', writable_doc d -> unicode_doc d ->
  write_to_filepath_with_indent d w p ind = (w', Ok tt) -> exists d', parse_filepath w' p = Ok d' /\ doc_eqb d' d = true.
Proof.
  intros d w p ind w' W U H. destruct (C31_round_trip d ind W) as (d' & P & E). exists d'. split; [|exact E].
  rewrite <- P. apply (file_back d w p ind w'); [now destruct W|easy|easy].
Qed.
Theorem C52_defaults : forall d w p out, write_to_filepath d w p = write_to_filepath_with_indent d w p (lit "  ") /\
  write_to_file d out = write_to_file_with_indent d out (lit "  ").
Proof. now split. Qed.

Example C52_example_doc : unicode_doc ex_document.
Proof. apply unicode_docb_ok. vm_compute. reflexivity. Qed.
Definition ex_world : fs :=
  mkFs [([lit "d"], Dir); ([lit "d"; lit "f"], File [1; 2]%N); ([lit "secret"], File (utf8 (lit "<a/>")))]
    (fun p => path_eqb p [lit "secret"]) [Accepts 3; WInterrupted; Accepts 100].
Example C52_example_write :
  let (w', r) := write_to_filepath ex_document ex_world [lit "d"; lit "new"; lit "out"] in
  r = Ok tt /\ lookup w' [lit "d"; lit "new"] = Some Dir /\ lookup w' [lit "d"; lit "f"] = Some (File [1; 2]%N) /\
  lookup w' [lit "d"; lit "new"; lit "out"] = Some (File (utf8 (doc_to_string ex_document))).
Proof. vm_compute. repeat split. Qed.
Example C52_example_refused : snd (write_to_filepath ex_document ex_world [lit "secret"]) = Err IOError /\
  snd (write_to_filepath ex_document ex_world [lit "d"]) = Err IOError /\
  snd (write_to_filepath ex_document ex_world [lit "d"; lit "f"; lit "x"]) = Err IOError /\
  parse_filepath ex_world [lit "secret"] = Err IOError.
Proof. vm_compute. repeat split. Qed.
(** <aé/> in pieces that cut the é in two. *)
Example C52_example_stream : delivers [Chunk [60; 97; 195]; Interrupted; Chunk [169; 47; 62]; Chunk []; ReadFails]%N (utf8 [60; 97; 233; 47; 62]%N) /\
  exists d, parse_stream [Chunk [60; 97; 195]; Interrupted; Chunk [169; 47; 62]; Chunk []; ReadFails]%N = Ok d.
Proof.
  split.
  - change (delivers [Chunk [60; 97; 195]; Interrupted; Chunk [169; 47; 62]; Chunk []; ReadFails]%N ([60; 97; 195] ++ [169; 47; 62] ++ [])%N).
    apply dv_chunk, dv_again, dv_chunk, dv_end.
  - eexists. vm_compute. reflexivity.
Qed.
Print Assumptions C51_order.
Print Assumptions C51_decode.
Print Assumptions C51_round_trip.
Print Assumptions C51_bytes.
Print Assumptions C51_boundary.
Print Assumptions C51_slice.
Print Assumptions C51_slice_panics.
Print Assumptions C51_find.
Print Assumptions C51_starts.
Print Assumptions C51_ends.
Print Assumptions C52_stream.
Print Assumptions C52_stream_invalid.
Print Assumptions C52_stream_breaks.
Print Assumptions C52_stream_cases.
Print Assumptions C52_file.
Print Assumptions C52_file_invalid.
Print Assumptions C52_file_unreadable.
Print Assumptions C52_write_stream.
Print Assumptions C52_write_stream_succeeds.
Print Assumptions C52_write_path.
Print Assumptions C52_write_path_succeeds.
Print Assumptions C52_text.
Print Assumptions C52_file_back.
Print Assumptions C52_stream_back.
Print Assumptions C52_file_round_trip.
Print Assumptions C52_defaults.

(** Properties C01-C07: escaping and unescaping. *)
From Coq Require Import List NArith Arith Bool Ascii String Lia.
From Verif Require Import Base Escape BaseFacts Spec EscapeFacts.
Import ListNotations.

(** ** C01: unescape inverts escape (and attribute_escape, its alias) *)

Theorem C01_unescape_escape : forall t : str,
  last_ascii t \/ (forall c, In c all_special -> ~ In c t) ->
  unescape (escape t) = Ok t /\ unescape (attribute_escape t) = Ok t.
Proof. intros t H. split; exact (unescape_escape t H). Qed.

(** Outside the guard: a panic for every non-ASCII character... *)
Theorem C01_guard_needed_panic : forall c : char, ~ ascii c -> unescape (escape [amp; c]) = Panic.
Proof. exact unescape_escape_panics. Qed.
(** ... and silently changed texts. *)
Theorem C01_unguarded_refuted : exists t r : str, unescape (escape t) = Ok r /\ r <> t.
Proof. exists (lit "&<" ++ [9788%N]), (lit "&&lt;" ++ [9788%N]). split; [vm_compute; reflexivity|discriminate]. Qed.

Example C01_example :
  let t := lit "a<b & 'c' " ++ [9788; 8364]%N ++ lit "&amp;x" in
  last_ascii t /\ unescape (escape t) = Ok t /\ escape t <> t.
Proof.
  cbv zeta. assert (last_ascii (lit "a<b & 'c' " ++ [9788; 8364]%N ++ lit "&amp;x")) as H.
  { right. exists (lit "a<b & 'c' " ++ [9788; 8364]%N ++ lit "&amp;"), 120%N.
    split; reflexivity. }
  split; [exact H|]. split; [apply C01_unescape_escape; now left|]. vm_compute. discriminate.
Qed.

(** ** C02 *)

Theorem C02_unescape_text_escape : forall t : str,
  last_ascii t \/ (forall c, In c text_special -> ~ In c t) ->
  unescape (text_escape t) = Ok t.
Proof. exact unescape_text_escape. Qed.
Theorem C02_unguarded_refuted : exists t : str, unescape (text_escape t) = Panic.
Proof. exists [amp; 9788%N]. vm_compute. reflexivity. Qed.
Example C02_example : unescape (text_escape (lit "1 < 2 && 'x'")) = Ok (lit "1 < 2 && 'x'").
Proof.
  apply C02_unescape_text_escape. left. right. exists (lit "1 < 2 && 'x"), 39%N. split; reflexivity.
Qed.

(** ** C03: escaped text carries no markup and escaping is character-wise *)

Theorem C03_escape_no_markup : forall t : str,
  (forall c, In c (escape t) -> c <> 60 /\ c <> 62 /\ c <> 39 /\ c <> 34)%N /\
  (forall a b, escape t = a ++ amp :: b ->
     exists nm c b', In (nm, c) predefined /\ b = nm ++ [semi] ++ b').
Proof. exact escape_no_markup. Qed.
Theorem C03_text_escape_no_markup : forall t : str,
  (forall c, In c (text_escape t) -> c <> 60 /\ c <> 62)%N /\
  (forall a b, text_escape t = a ++ amp :: b ->
     exists nm b', In nm [lit "amp"; lit "lt"; lit "gt"] /\ b = nm ++ [semi] ++ b').
Proof. exact text_escape_no_markup. Qed.
Theorem C03_escape_characterwise : forall t : str,
  escape t = flat_map (escape_char all_special) t /\
  text_escape t = flat_map (escape_char text_special) t.
Proof. intro t. split; [exact (escape_char_map t)|exact (text_escape_char_map t)]. Qed.
Theorem C03_escape_app : forall a b : str,
  escape (a ++ b) = escape a ++ escape b /\ text_escape (a ++ b) = text_escape a ++ text_escape b.
Proof. intros a b. split; [exact (escape_app a b)|exact (text_escape_app a b)]. Qed.
Example C03_example :
  escape [97; 38; 60; 62; 39; 34; 9788]%N = lit "a&amp;&lt;&gt;&apos;&quot;" ++ [9788%N].
Proof. vm_compute. reflexivity. Qed.

(** ** C04: escaping is injective *)

Theorem C04_escape_injective : forall a b : str,
  (escape a = escape b -> a = b) /\ (text_escape a = text_escape b -> a = b).
Proof. intros a b. split; [exact (escape_injective a b)|exact (text_escape_injective a b)]. Qed.
Example C04_example : escape (lit "&lt;") <> escape (lit "<").
Proof. vm_compute. discriminate. Qed.

(** ** C05: unescape is one left-to-right pass *)

Theorem C05_unescape_single_pass : forall t r : str,
  last_ascii t -> ascii_refs t -> decodes t r -> unescape t = Ok r.
Proof. exact unescape_decodes. Qed.
(** The specification relates every text to exactly one result. *)
Theorem C05_decodes_function : forall t : str, exists! r : str, decodes t r.
Proof. exact decodes_unique. Qed.
Example C05_example : unescape (lit "&amp;lt; &#41; &x; &lt") = Ok (lit "&lt; A &x; &lt").
Proof. vm_compute. reflexivity. Qed.
Example C05_example_spec : decodes (lit "&amp;lt;&#4a;") (lit "&lt;J").
Proof.
  change (lit "&amp;lt;&#4a;") with ([amp] ++ lit "amp" ++ [semi] ++ lit "lt;&#4a;").
  apply (dec_ref (lit "amp")); [constructor; cbn; tauto|].
  do 3 (apply dec_char; [discriminate|]).
  apply (dec_ref (lit "#" ++ lit "4a") 74%N [] []); [|constructor].
  apply ent_hex; [|left; reflexivity].
  apply (hex_more (lit "4") 4%N 97%N 10%N); [|now left]. apply (hex_one 52%N). now left.
Qed.
(** Without the guards the single-pass law fails. *)
Theorem C05_unguarded_refuted : exists t r r' : str, decodes t r /\ unescape t = Ok r' /\ r <> r'.
Proof. exact unescape_not_decodes. Qed.

(** ** C06: termination and panics *)

Theorem C06_unescape_terminates : forall t : str,
  (exists r, unescape t = Ok r) \/ unescape t = Panic.
Proof. exact unescape_returns. Qed.
Theorem C06_no_panic_ascii : forall t : str,
  all_ascii t -> ~ substring (lit "&#") t -> exists r, unescape t = Ok r.
Proof. exact unescape_ascii. Qed.
Theorem C06_panic_amp : forall c : char, ~ ascii c -> unescape [amp; c] = Panic.
Proof. exact unescape_amp_panics. Qed.
Theorem C06_panic_numeric : forall (h : str) (c : char) (s : str),
  hex_number h c -> scalar c -> ~ ascii c -> s <> [] -> last_ascii s ->
  unescape (lit "&#" ++ h ++ [semi] ++ s) = Panic.
Proof. exact unescape_ref_panics. Qed.
Example C06_example : unescape (lit "&#263c; a") = Panic.
Proof.
  apply (C06_panic_numeric (lit "263c") 9788%N (lit " a")).
  - change (lit "263c") with ((([50] ++ [54]) ++ [51]) ++ [99])%N.
    change 9788%N with (16 * (16 * (16 * 2 + 6) + 3) + 12)%N.
    repeat (apply hex_more; [|now left]). apply hex_one. now left.
  - left. reflexivity.
  - intro H. discriminate H.
  - discriminate.
  - right. exists (lit " "), 97%N. split; reflexivity.
Qed.
Example C06_example_ascii : all_ascii (lit "a &lt; b &amp;&") /\ ~ substring (lit "&#") (lit "a &lt; b &amp;&").
Proof.
  split; [repeat constructor|]. intro H. apply contains_spec in H. vm_compute in H. discriminate.
Qed.

(** ** C07 *)

Theorem C07_unescape_identity : forall t : str, ~ In amp t -> unescape t = Ok t.
Proof. exact unescape_no_amp. Qed.
Theorem C07_unescape_never_grows : forall t r : str, unescape t = Ok r -> blen r <= blen t.
Proof. exact unescape_size. Qed.
Example C07_example : blen (lit "&#10FFFF;") = 9 /\ exists r, unescape (lit "&#10FFFF;") = Ok r /\ blen r = 4.
Proof. split; [reflexivity|]. exists [1114111%N]. split; vm_compute; reflexivity. Qed.

Print Assumptions C01_unescape_escape.
Print Assumptions C01_guard_needed_panic.
Print Assumptions C01_unguarded_refuted.
Print Assumptions C02_unescape_text_escape.
Print Assumptions C02_unguarded_refuted.
Print Assumptions C03_escape_no_markup.
Print Assumptions C03_text_escape_no_markup.
Print Assumptions C03_escape_characterwise.
Print Assumptions C03_escape_app.
Print Assumptions C04_escape_injective.
Print Assumptions C05_unescape_single_pass.
Print Assumptions C05_decodes_function.
Print Assumptions C05_unguarded_refuted.
Print Assumptions C06_unescape_terminates.
Print Assumptions C06_no_panic_ascii.
Print Assumptions C06_panic_amp.
Print Assumptions C06_panic_numeric.
Print Assumptions C07_unescape_identity.
Print Assumptions C07_unescape_never_grows.

(** Property C97: the debug form of errors. *)
From Coq Require Import List NArith ZArith Arith Bool Ascii String Lia.
From Verif Require Import Base Dom Errors BaseFacts Spec SpecDom SpecLex P_Errors P_Api Stderr SpecStderr StderrFacts ErrDebug.
Import ListNotations.

(** ** Specification *)

(** The text an error quotes consists of code points. *)
Definition error_chars (e : kiss_error) : Prop :=
  match e with
  | KParsing m | KTypeCast m | KDoesNotExist m | KAttributeName m | KElementName m | KContent m | KNotSupported m => Forall is_char m
  | KIndex _ | KIO _ => True
  end.

(** ** Facts *)

Lemma show_Z_next z z' x y (r r' : str) : ~ (x = 45 \/ 48 <= x <= 57)%N -> ~ (y = 45 \/ 48 <= y <= 57)%N ->
  show_Z z ++ x :: r = show_Z z' ++ y :: r' -> z = z' /\ r = r'.
Proof.
  intros Hx Hy E.
  destruct (split_unique (fun c => c = 45 \/ 48 <= c <= 57)%N _ _ _ _ _ _
    (integer_text_chars _ _ (show_Z_spec z)) (integer_text_chars _ _ (show_Z_spec z')) Hx Hy E) as (A & _ & C).
  split; [|exact C]. apply (integer_text_fun _ _ (show_Z z)); [apply show_Z_spec|rewrite A; apply show_Z_spec].
Qed.
Lemma index_debug_tells a b u v : index_error_debug a ++ u = index_error_debug b ++ v -> a = b.
Proof.
  destruct a as [i x], b as [j y]. unfold index_error_debug. cbn [i_index i_bounds]. intro E. rewrite <- !app_assoc in E.
  apply app_inv_head in E. apply show_Z_next in E as [-> E]; try (cbn; lia).
  apply (app_inv_head (lit " bounds: ")) in E. destruct x as [[lo hi]|], y as [[lo' hi']|]; try discriminate E; [|reflexivity].
  rewrite <- !app_assoc in E. apply (app_inv_head (lit "Some((")) in E. apply show_Z_next in E as [-> E]; try (cbn; lia).
  apply (app_inv_head (lit " ")) in E. apply show_Z_next in E as [-> _]; try (cbn; lia). reflexivity.
Qed.
Section Tables.
Variables extend printable : char -> bool.
Hypothesis tables : ascii_like extend printable.
Lemma debug_str_tells s t u v : Forall is_char s -> Forall is_char t -> debug_str extend printable s ++ u = debug_str extend printable t ++ v -> s = t.
Proof.
  intros Hs Ht E. unfold debug_str in E. rewrite <- !app_assoc in E. cbn [app] in E. injection E as E. now apply (codes_prefix extend printable tables) in E as [-> _].
Qed.
Lemma msg_debug_tells name m m' u v : Forall is_char m -> Forall is_char m' ->
  msg_debug extend printable name m ++ u = msg_debug extend printable name m' ++ v -> m = m'.
Proof.
  intros H H' E. unfold msg_debug in E. rewrite <- !app_assoc in E. do 4 apply app_inv_head in E. now apply debug_str_tells in E.
Qed.
Lemma debug_str_visible s : Forall visible (debug_str extend printable s).
Proof.
  unfold debug_str. apply Forall_app. split; [apply visible_by; reflexivity|]. apply Forall_app. split; [|apply visible_by; reflexivity].
  induction s as [|c s IH]; [constructor|]. cbn [flat_map]. apply Forall_app. split; [now apply code_visible|exact IH].
Qed.
Lemma msg_debug_visible name m : Forall visible name -> Forall visible (msg_debug extend printable name m).
Proof.
  intro H. unfold msg_debug. repeat first [exact H|apply debug_str_visible|apply Forall_app; split]; apply visible_by; reflexivity.
Qed.
Lemma show_Z_visible z : Forall visible (show_Z z).
Proof. eapply Forall_impl; [|exact (integer_text_chars _ _ (show_Z_spec z))]. intros c H. left. cbn in H. lia. Qed.
Lemma index_debug_visible e : Forall visible (index_error_debug e).
Proof.
  destruct e as [i [[lo hi]|]]; unfold index_error_debug; cbn [i_index i_bounds]; repeat first [apply show_Z_visible|apply Forall_app; split]; apply visible_by; reflexivity.
Qed.
End Tables.

(** ** C97 *)

(** Errors of the crate are printed on one line, without control characters. *)
Theorem C97_line : forall extend printable, ascii_like extend printable -> forall io e, ~ is_io e ->
  Forall visible (error_debug extend printable io e).
Proof.
  intros extend printable T io e N.
  destruct e as [m|m|m|x|m|m|m|m|d]; cbn [error_debug]; try (apply msg_debug_visible; [exact T|apply visible_by; reflexivity]).
  - apply index_debug_visible.
  - destruct N. now exists d.
Qed.
(** What is printed tells the error, also in the midst of other output. *)
Theorem C97_tells : forall extend printable, ascii_like extend printable -> forall io a b u v,
  ~ is_io a -> ~ is_io b -> error_chars a -> error_chars b ->
  error_debug extend printable io a ++ u = error_debug extend printable io b ++ v -> a = b.
Proof.
  intros extend printable T io a b u v Na Nb Ca Cb E.
  destruct a as [m|m|m|x|m|m|m|m|d]; try (destruct Na; now exists d);
    destruct b as [m'|m'|m'|x'|m'|m'|m'|m'|d']; try (destruct Nb; now exists d'); cbn [error_debug error_chars] in *; try discriminate E;
    try (f_equal; now apply (msg_debug_tells extend printable T) in E).
  f_equal. now apply index_debug_tells in E.
Qed.
(** The form of each error: its kind, and its message or its index and bounds. *)
Inductive debug_form : kiss_error -> str -> Prop :=
| df_parsing m b : shows_all m b -> debug_form (KParsing m) (lit "ParsingError(ParsingError { msg: """ ++ b ++ lit """ })")
| df_type_cast m b : shows_all m b -> debug_form (KTypeCast m) (lit "TypeCastError(TypeCastError { msg: """ ++ b ++ lit """ })")
| df_not_exist m b : shows_all m b -> debug_form (KDoesNotExist m) (lit "DoesNotExistError(DoesNotExistError { msg: """ ++ b ++ lit """ })")
| df_attribute m b : shows_all m b -> debug_form (KAttributeName m) (lit "InvalidAttributeName(InvalidAttributeName { msg: """ ++ b ++ lit """ })")
| df_element m b : shows_all m b -> debug_form (KElementName m) (lit "InvalidElementName(InvalidElementName { msg: """ ++ b ++ lit """ })")
| df_content m b : shows_all m b -> debug_form (KContent m) (lit "InvalidContent(InvalidContent { msg: """ ++ b ++ lit """ })")
| df_not_supported m b : shows_all m b -> debug_form (KNotSupported m) (lit "NotSupportedError(NotSupportedError { msg: """ ++ b ++ lit """ })")
| df_index i si : integer_text i si ->
    debug_form (KIndex (mkIndex i None)) (lit "IndexOutOfBounds(IndexOutOfBounds { index: " ++ si ++ lit ", bounds: None })")
| df_bounds i si lo sl hi sh : integer_text i si -> integer_text lo sl -> integer_text hi sh ->
    debug_form (KIndex (mkIndex i (Some (lo, hi))))
      (lit "IndexOutOfBounds(IndexOutOfBounds { index: " ++ si ++ lit ", bounds: Some((" ++ sl ++ lit ", " ++ sh ++ lit ")) })").
Theorem C97_form : forall extend printable, ascii_like extend printable -> forall io e, ~ is_io e -> error_chars e ->
  debug_form e (error_debug extend printable io e).
Proof.
  intros extend printable T io e N C.
  destruct e as [m|m|m|[i [[lo hi]|]]|m|m|m|m|d]; cbn [error_debug error_chars] in *;
    try (destruct (codes_show extend printable T m C) as (b & E & S); unfold msg_debug; rewrite E, <- !app_assoc; now constructor).
  - unfold index_error_debug. cbn [i_index i_bounds]. rewrite <- !app_assoc. apply df_bounds; apply show_Z_spec.
  - unfold index_error_debug. cbn [i_index i_bounds]. apply df_index. apply show_Z_spec.
  - destruct N. now exists d.
Qed.
(** With [Display] neither is the case: whoever chooses a name that is refused chooses
    lines of the message, for every line, ... *)
Theorem C97_display_any_line : forall l, exists nm e, new_from_name nm = Err e /\
  forall io, exists u v, error_text io e = u ++ [10%N] ++ l ++ [10%N] ++ v.
Proof.
  intro l. exists (10%N :: l ++ [10%N]), (InvalidElementName (10%N :: l ++ [10%N])). split.
  - apply C08_new_from_name. intros (c & r & E & H & _). injection E as <- _. clear - H. lia.
  - intro io. exists (lit "InvalidElementName: '"), (lit "' is not a valid name"). unfold error_text. cbn [error_value]. unfold element_name_error_new. cbn [error_display].
    change (lit "InvalidElementName: " ++ lit "'" ++ (10%N :: (l ++ [10%N]) ++ lit "' is not a valid name") = lit "InvalidElementName: " ++ lit "'" ++ (10%N :: l ++ [10%N] ++ lit "' is not a valid name")). now rewrite <- app_assoc.
Qed.
(** ... and the end of a message is not marked. *)
Theorem C97_display_tells_refuted : ~ forall a b u v, ~ is_io a -> ~ is_io b -> error_chars a -> error_chars b ->
  error_display a ++ u = error_display b ++ v -> a = b.
Proof.
  intro H. specialize (H (KContent (lit "a")) (KContent (lit "ab")) (lit "b") []).
  assert (K : KContent (lit "a") = KContent (lit "ab")); [|discriminate K].
  apply H; try (intros [d E]; discriminate E); try (repeat constructor); reflexivity.
Qed.

Example C97_example :
  error_debug (fun _ => false) (fun c => (32 <=? c) && (c <? 127))%N [] (index_error_new 12 (Some (0, 3)%N)) =
    lit "IndexOutOfBounds(IndexOutOfBounds { index: 12, bounds: Some((0, 3)) })" /\
  error_debug (fun _ => false) (fun c => (32 <=? c) && (c <? 127))%N [] (parsing_error_new (lit "closing tag </" ++ [10; 233]%N ++ lit "> does not match <a>")) =
    lit "ParsingError(ParsingError { msg: ""closing tag </\n\u{e9}> does not match <a>"" })" /\
  error_debug (fun _ => false) (fun c => (32 <=? c) && (c <? 127))%N [] does_not_exist_default =
    lit "DoesNotExistError(DoesNotExistError { msg: ""requested item not found"" })".
Proof. split; [|split]; vm_compute; reflexivity. Qed.
Print Assumptions C97_line.
Print Assumptions C97_tells.
Print Assumptions C97_form.
Print Assumptions C97_display_any_line.
Print Assumptions C97_display_tells_refuted.

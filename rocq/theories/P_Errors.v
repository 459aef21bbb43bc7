(** Property C58: error messages. *)
From Coq Require Import List NArith ZArith Arith Bool Ascii String Lia.
From Verif Require Import Base Errors BaseFacts Spec SpecLex.
Import ListNotations.

(** ** Specification *)

(** The number that a string of decimal digits stands for. *)
Definition digit_value (c : char) : N := (c - 48)%N.
Definition decimal_value (s : str) : N := fold_left (fun n c => (10 * n + digit_value c)%N) s 0%N.
Definition decimal (s : str) : Prop :=
  s <> [] /\ Forall (fun c => 48 <= c <= 57)%N s /\ (forall r, s = 48%N :: r -> r = []).
(** [s] is written as the integer [z] usually is. *)
Definition integer_text (z : Z) (s : str) : Prop :=
  (0 <= z /\ decimal s /\ Z.of_N (decimal_value s) = z)%Z \/
  (z < 0 /\ exists r, s = lit "-" ++ r /\ decimal r /\ (- Z.of_N (decimal_value r) = z))%Z.
Definition is_io (e : kiss_error) : Prop := exists d, e = KIO d.

(** ** Facts *)

Lemma trim_start_matches_spec p : p <> [] -> forall fuel s, List.length s <= fuel ->
  exists k, s = List.concat (repeat p k) ++ trim_start_matches fuel p s /\ ~ begins p (trim_start_matches fuel p s).
Proof.
  intros Hp fuel. induction fuel as [|fuel IH]; intros s L; cbn [trim_start_matches].
  - exists 0. split; [reflexivity|]. destruct s; [|cbn in L; lia]. intros [r Hr]. destruct p; [easy|discriminate].
  - destruct (starts_with p s) eqn:E.
    + apply starts_with_spec in E as [r ->]. rewrite skipn_app, skipn_all, Nat.sub_diag. cbn [skipn app].
      destruct (IH r) as (k & A & B). { rewrite app_length in L. destruct p; [easy|]. cbn in L. lia. }
      exists (S k). split; [|exact B]. cbn [repeat List.concat]. rewrite <- app_assoc. now rewrite <- A.
    + exists 0. split; [reflexivity|]. intros [r Hr]. rewrite Hr, starts_with_app in E. discriminate.
Qed.
Lemma trim_start_matches_fix p fuel s : ~ begins p s -> trim_start_matches fuel p s = s.
Proof.
  intro H. destruct fuel; [easy|]. cbn [trim_start_matches]. destruct (starts_with p s) eqn:E; [|easy].
  exfalso. apply H. apply starts_with_spec in E. exact E.
Qed.

Lemma decimal_value_app a c : decimal_value (a ++ [c]) = (10 * decimal_value a + digit_value c)%N.
Proof. unfold decimal_value. rewrite fold_left_app. reflexivity. Qed.
Lemma digit_of (n : N) : digit_value (48 + n mod 10)%N = (n mod 10)%N.
Proof. unfold digit_value. rewrite N.add_comm. apply N.add_sub. Qed.
Lemma digits_spec fuel : forall n acc, (N.log2 n <= N.of_nat fuel)%N -> exists s, digits fuel n acc = s ++ acc /\ decimal s /\ decimal_value s = n.
Proof.
  assert (D : forall n, (n < 10)%N -> decimal [48 + n mod 10]%N /\ decimal_value [48 + n mod 10]%N = n).
  { intros n H. rewrite N.mod_small by easy. split; [|unfold decimal_value, digit_value; cbn [fold_left]; lia].
    split; [easy|]. split; [constructor; [lia|constructor]|]. intros r E. now injection E. }
  induction fuel as [|fuel IH]; intros n acc L; cbn [digits].
  - exists [48 + n mod 10]%N. split; [reflexivity|]. apply D.
    destruct n as [|p]; [easy|]. pose proof (N.log2_spec (Npos p) eq_refl) as [_ K].
    assert (E : N.log2 (Npos p) = 0%N) by (apply N.le_0_r; exact L). rewrite E in K. change (2 ^ N.succ 0)%N with 2%N in K. lia.
  - destruct (N.ltb_spec n 10) as [H|H]; [exists [48 + n mod 10]%N; split; [reflexivity|now apply D]|].
    destruct (IH (n / 10)%N ((48 + n mod 10)%N :: acc)) as (s & A & (B1 & B2 & B3) & C).
    { apply N.lt_succ_r. assert (N.log2 (n / 10) < N.log2 n)%N; [|lia].
      apply N.lt_le_trans with (N.log2 (2 * (n / 10)))%N.
      - assert (n / 10 <> 0)%N by (intro Z; apply N.div_small_iff in Z; lia).
        rewrite N.log2_double by (apply N.neq_0_lt_0; easy). apply N.lt_succ_diag_r.
      - apply N.log2_le_mono. pose proof (N.mul_div_le n 10 ltac:(easy)) as K. revert K. generalize (n / 10)%N. intros q K. lia. }
    exists (s ++ [48 + n mod 10]%N). split; [rewrite A, <- app_assoc; reflexivity|]. split.
    + split; [now destruct s|]. split.
      * apply Forall_app. split; [easy|]. constructor; [|constructor]. pose proof (N.mod_lt n 10 ltac:(easy)) as K. revert K. generalize (n mod 10)%N. intros q K. lia.
      * intros r E. destruct s as [|c s]; [easy|]. cbn in E. injection E as -> <-.
        rewrite (B3 s eq_refl) in C. cbn in C. exfalso. apply eq_sym, N.div_small_iff in C; lia.
    + rewrite decimal_value_app, C, digit_of. symmetry. apply N.div_mod. easy.
Qed.
Lemma show_N_spec n : decimal (show_N n) /\ decimal_value (show_N n) = n.
Proof.
  unfold show_N. destruct (digits_spec (N.to_nat (N.log2 n)) n []) as (s & A & B & C); [lia|].
  rewrite A, app_nil_r. now split.
Qed.
Lemma show_Z_spec z : integer_text z (show_Z z).
Proof.
  destruct z as [|p|p]; cbn [show_Z].
  - left. destruct (show_N_spec 0) as [A B]. rewrite B. easy.
  - left. destruct (show_N_spec (Npos p)) as [A B]. rewrite B. easy.
  - right. destruct (show_N_spec (Npos p)) as [A B]. split; [easy|]. exists (show_N (Npos p)). rewrite B. easy.
Qed.
Lemma minus_no_decimal r : ~ decimal (45%N :: r).
Proof. intros (_ & H & _). inversion H. lia. Qed.
Lemma integer_text_fun z z' s : integer_text z s -> integer_text z' s -> z = z'.
Proof.
  intros [(A & B & C)|(A & r & -> & B & C)] [(A' & B' & C')|(A' & r' & E & B' & C')]; try lia.
  - subst s. now apply minus_no_decimal in B.
  - now apply minus_no_decimal in B'.
  - apply app_inv_head in E as ->. lia.
Qed.
(** The characters of an integer: no space, no parenthesis. *)
Lemma integer_text_chars z s : integer_text z s -> Forall (fun c => c = 45 \/ 48 <= c <= 57)%N s.
Proof.
  intros [(_ & (_ & H & _) & _)|(_ & r & -> & (_ & H & _) & _)].
  - eapply Forall_impl; [|exact H]. intros c K. now right.
  - constructor; [now left|]. eapply Forall_impl; [|exact H]. intros c K. now right.
Qed.
Lemma split_unique (P : char -> Prop) (a b : str) x y (r r' : str) : Forall P a -> Forall P b -> ~ P x -> ~ P y ->
  a ++ x :: r = b ++ y :: r' -> a = b /\ x = y /\ r = r'.
Proof.
  intros Ha. revert b. induction Ha as [|c a Hc Ha IH]; intros b Hb Hx Hy E.
  - destruct b as [|d b]; [cbn in E; now injection E as -> ->|]. injection E as -> _. exfalso. apply Hx. now inversion Hb.
  - destruct b as [|d b]; [injection E as -> _; now destruct Hy|]. cbn in E. injection E as -> E. inversion Hb. subst.
    destruct (IH b) as (-> & -> & ->); easy.
Qed.
Lemma index_display_injective a b : index_error_display a = index_error_display b -> a = b.
Proof.
  assert (K : forall z z' x y (r r' : str), ~ (x = 45 \/ 48 <= x <= 57)%N -> ~ (y = 45 \/ 48 <= y <= 57)%N ->
    show_Z z ++ x :: r = show_Z z' ++ y :: r' -> z = z' /\ r = r').
  { intros z z' x y r r' Hx Hy E.
    destruct (split_unique (fun c => c = 45 \/ 48 <= c <= 57)%N _ _ _ _ _ _
      (integer_text_chars _ _ (show_Z_spec z)) (integer_text_chars _ _ (show_Z_spec z')) Hx Hy E) as (A & _ & C).
    split; [|exact C]. apply (integer_text_fun _ _ (show_Z z)); [apply show_Z_spec|rewrite A; apply show_Z_spec]. }
  destruct a as [i [[lo hi]|]], b as [j [[lo' hi']|]]; unfold index_error_display; cbn [i_index i_bounds]; intro E;
    apply app_inv_head in E; apply K in E as [-> E]; try (cbn; lia); try discriminate E; try reflexivity.
  assert (E' : show_Z lo ++ lit " - " ++ show_Z hi ++ lit ")" = show_Z lo' ++ lit " - " ++ show_Z hi' ++ lit ")").
  { exact (app_inv_head (lit "is out of bounds (valid range: ") _ _ E). }
  apply K in E' as [-> E']; try (cbn; lia).
  assert (E2 : show_Z hi ++ lit ")" = show_Z hi' ++ lit ")") by exact (app_inv_head (lit "- ") _ _ E').
  apply K in E2 as [-> _]; try (cbn; lia). reflexivity.
Qed.

(** ** C58 *)

(** A new parsing error drops every "ParsingError: " in front of its message, and
    nothing else. *)
Theorem C58_parsing_new : forall m, exists k r,
  m = List.concat (repeat (lit "ParsingError: ") k) ++ r /\ ~ begins (lit "ParsingError: ") r /\ parsing_error_new m = KParsing r.
Proof.
  intro m. destruct (trim_start_matches_spec (lit "ParsingError: ") ltac:(discriminate) _ m (le_n _)) as (k & A & B).
  exists k, (trim_start_matches (List.length m) (lit "ParsingError: ") m). now split.
Qed.
(** Wrapping the message of a parsing error in a new parsing error, any number
    of times, changes nothing: the prefix is displayed once. *)
Theorem C58_nested : forall m, parsing_error_new (error_display (parsing_error_new m)) = parsing_error_new m.
Proof.
  intro m. destruct (C58_parsing_new m) as (k & r & _ & B & ->). unfold parsing_error_new, error_display.
  destruct (trim_start_matches_spec (lit "ParsingError: ") ltac:(discriminate) _ (lit "ParsingError: " ++ r) (le_n _)) as (j & A & C).
  f_equal. remember (trim_start_matches (List.length (lit "ParsingError: " ++ r)) (lit "ParsingError: ") (lit "ParsingError: " ++ r)) as t.
  destruct j as [|[|j]]; cbn [repeat List.concat] in A.
  - exfalso. apply C. exists r. symmetry. exact A.
  - rewrite app_nil_r in A. now apply app_inv_head in A.
  - exfalso. apply B. rewrite <- app_assoc in A. apply app_inv_head in A. rewrite <- app_assoc in A. rewrite A. now eexists.
Qed.
Theorem C58_display_once : forall m, exists r,
  error_display (parsing_error_new m) = lit "ParsingError: " ++ r /\ ~ begins (lit "ParsingError: ") r.
Proof. intro m. destruct (C58_parsing_new m) as (k & r & _ & B & ->). now exists r. Qed.
(** Integers are displayed in decimal. *)
Theorem C58_integers : forall z, integer_text z (show_Z z).
Proof. exact show_Z_spec. Qed.
(** The index displayed is the index given, below 2^63. *)
Theorem C58_index : forall i n, (i < 2 ^ 63 -> n < 2 ^ 63 ->
  exists si sn, integer_text (Z.of_N i) si /\ integer_text (Z.of_N n) sn /\
  error_display (index_error_new i (Some (0, n))) =
  lit "Index " ++ si ++ lit " is out of bounds (valid range: 0 - " ++ sn ++ lit ")")%N.
Proof.
  intros i n Hi Hn. assert (K : forall x, (x < 2 ^ 63)%N -> as_isize x = Z.of_N x).
  { intros x H. unfold as_isize. assert (Z.of_N x < 2 ^ 63)%Z by lia. rewrite Z.mod_small by lia.
    destruct (Z.ltb_spec (Z.of_N x) (2 ^ 63)); lia. }
  exists (show_Z (Z.of_N i)), (show_Z (Z.of_N n)). split; [apply show_Z_spec|]. split; [apply show_Z_spec|].
  unfold index_error_new. cbn [error_display index_error_display i_bounds i_index option_map fst snd].
  unfold index_error_display. cbn [i_bounds i_index]. now rewrite (K i Hi), (K n Hn).
Qed.
(** From 2^63 on it is not. *)
Theorem C58_index_refuted : error_display (index_error_new (2 ^ 64 - 1) None) = lit "Index -1 is out of bounds".
Proof. vm_compute. reflexivity. Qed.
(** Errors of the crate are told apart by what they display. *)
Theorem C58_injective : forall a b, ~ is_io a -> ~ is_io b -> error_display a = error_display b -> a = b.
Proof.
  intros a b Ha Hb. destruct a as [m|m|m|x|m|m|m|m|m], b as [m'|m'|m'|x'|m'|m'|m'|m'|m'];
    try (exfalso; apply Ha; now eexists); try (exfalso; apply Hb; now eexists);
    cbn [error_display]; intro E; try discriminate E;
    try (apply app_inv_head in E; now subst);
    try (unfold index_error_display in E; destruct (i_bounds x) as [[? ?]|]; discriminate E);
    try (unfold index_error_display in E; destruct (i_bounds x') as [[? ?]|]; discriminate E).
  f_equal. now apply index_display_injective.
Qed.
Example C58_example :
  error_display (parsing_error_new (lit "ParsingError: ParsingError: no root")) = lit "ParsingError: no root" /\
  error_display (index_error_new 12 (Some (0, 3)%N)) = lit "Index 12 is out of bounds (valid range: 0 - 3)" /\
  error_display does_not_exist_default = lit "DoesNotExistError: requested item not found" /\
  show_Z (-250) = lit "-250".
Proof. repeat split; vm_compute; reflexivity. Qed.
Print Assumptions C58_parsing_new.
Print Assumptions C58_nested.
Print Assumptions C58_display_once.
Print Assumptions C58_integers.
Print Assumptions C58_index.
Print Assumptions C58_index_refuted.
Print Assumptions C58_injective.

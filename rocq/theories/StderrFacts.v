(** Proofs about the text printed on stderr. *)
From Coq Require Import List NArith Arith Bool Ascii String Lia.
From Verif Require Import Base BaseFacts Escape Dom Spec SpecDom Parse SpecLex SpecParse SpecDoc ParseFacts DocFacts AcceptFacts PrintFacts PrintDoc RegexFacts SerFacts P_Parse LexRun SpecErr Warn SpecWarn WarnFacts EmbedFacts WhiteFacts AppendFacts Stderr SpecStderr.
Import ListNotations.

(** * Digits *)

Definition undigit (c : char) : N := if (c <? 58)%N then (c - 48)%N else (c - 87)%N.
Definition number (l : str) : N := fold_left (fun a c => (16 * a + undigit c)%N) l 0%N.
Lemma undigit_digit n : (n < 16)%N -> undigit (digit n) = n.
Proof.
  intro H. unfold digit, undigit. destruct (N.ltb_spec n 10).
  - replace (48 + n <? 58)%N with true by (symmetry; apply N.ltb_lt; lia). lia.
  - replace (87 + n <? 58)%N with false by (symmetry; apply N.ltb_ge; lia). lia.
Qed.
Lemma digit_range n : (n < 16)%N -> (48 <= digit n <= 102)%N.
Proof. intro H. unfold digit. destruct (N.ltb_spec n 10); lia. Qed.
Lemma hex_number : forall f n, (n < 16 ^ N.of_nat (S f))%N -> number (hex f n) = n.
Proof.
  induction f as [|f IH]; intros n H; cbn [hex]; destruct (N.ltb_spec n 16) as [L|L].
  - cbn. now rewrite undigit_digit.
  - cbn in H. lia.
  - cbn. now rewrite undigit_digit.
  - unfold number in *. rewrite fold_left_app. cbn [fold_left]. rewrite IH.
    + rewrite undigit_digit by (apply N.mod_lt; lia). symmetry. rewrite N.add_comm. rewrite N.add_comm. apply N.div_mod. lia.
    + apply N.div_lt_upper_bound; [lia|]. rewrite Nat2N.inj_succ, N.pow_succ_r' in H. exact H.
Qed.
Lemma digit_value n : (n < 16)%N -> hex_value (digit n) n.
Proof.
  intro H. left. assert (K : In n (map N.of_nat (seq 0 16))). { apply in_map_iff. exists (N.to_nat n). split; [apply N2Nat.id|]. apply in_seq. lia. }
  revert K. generalize n. clear. apply Forall_forall. cbn. repeat constructor.
Qed.
Lemma hex_is_number : forall f n, (n < 16 ^ N.of_nat (S f))%N -> Spec.hex_number (hex f n) n.
Proof.
  induction f as [|f IH]; intros n H; cbn [hex]; destruct (N.ltb_spec n 16) as [L|L].
  - constructor. now apply digit_value.
  - cbn in H. lia.
  - constructor. now apply digit_value.
  - rewrite (N.div_mod n 16) at 3 by lia. constructor; [|apply digit_value, N.mod_lt; lia].
    apply IH. apply N.div_lt_upper_bound; [lia|]. rewrite Nat2N.inj_succ, N.pow_succ_r' in H. exact H.
Qed.
Lemma hex_range : forall f n, Forall (fun c => 48 <= c <= 102)%N (hex f n).
Proof.
  induction f as [|f IH]; intro n; cbn [hex]; destruct (N.ltb_spec n 16) as [L|L].
  - constructor; [now apply digit_range|constructor].
  - constructor.
  - constructor; [now apply digit_range|constructor].
  - apply Forall_app. split; [apply IH|]. constructor; [apply digit_range, N.mod_lt; lia|constructor].
Qed.
Lemma split_at (x : char) a b u v : ~ In x a -> ~ In x b -> a ++ x :: u = b ++ x :: v -> a = b /\ u = v.
Proof.
  revert b. induction a as [|c a IH]; intros [|c' b] Ha Hb E; cbn [app] in E.
  - now injection E.
  - injection E as <- _. destruct Hb. now left.
  - injection E as -> _. destruct Ha. now left.
  - injection E as <- E. destruct (IH b) as [-> ->]; [intro H; apply Ha; now right|intro H; apply Hb; now right|exact E|easy].
Qed.

(** * Quoted strings *)

Local Opaque hex.

Section Debug.
Variables extend printable : char -> bool.
Hypothesis ascii_tables : ascii_like extend printable.
Notation code := (debug_char extend printable).
Definition table : list (char * char) := [(0, 48); (9, 116); (13, 114); (10, 110); (92, 92); (34, 34)]%N.
Lemma code_cases c : (code c = [c] /\ c <> 92%N /\ c <> 34%N /\ visible c) \/ (exists k, In (c, k) table /\ code c = [92%N; k]) \/
  code c = 92%N :: 117%N :: 123%N :: hex 8 c ++ [125%N].
Proof.
  unfold debug_char.
  destruct (N.eqb_spec c 0) as [->|]; [right; left; eexists; split; [|reflexivity]; unfold table; cbn; tauto|].
  destruct (N.eqb_spec c 9) as [->|]; [right; left; eexists; split; [|reflexivity]; unfold table; cbn; tauto|].
  destruct (N.eqb_spec c 13) as [->|]; [right; left; eexists; split; [|reflexivity]; unfold table; cbn; tauto|].
  destruct (N.eqb_spec c 10) as [->|]; [right; left; eexists; split; [|reflexivity]; unfold table; cbn; tauto|].
  destruct (N.eqb_spec c 92) as [->|]; [right; left; eexists; split; [|reflexivity]; unfold table; cbn; tauto|].
  destruct (N.eqb_spec c 34) as [->|]; [right; left; eexists; split; [|reflexivity]; unfold table; cbn; tauto|].
  destruct (extend c); [right; right; reflexivity|]. destruct (printable c) eqn:P; [|right; right; reflexivity].
  left. repeat split; try easy. unfold visible. destruct (N.ltb_spec c 128) as [L|L]; [|now right]. left.
  apply ascii_tables in L as [_ L]. rewrite P in L. symmetry in L. apply andb_true_iff in L as [L1 L2]. apply N.leb_le in L1. apply N.ltb_lt in L2. lia.
Qed.
Lemma table_fun c c' k : In (c, k) table -> In (c', k) table -> c = c'.
Proof. unfold table. cbn. intuition congruence. Qed.
Lemma table_u c k : In (c, k) table -> k <> 117%N.
Proof. unfold table. cbn. intuition congruence. Qed.
Lemma code_prefix c c' u v : is_char c -> is_char c' -> code c ++ u = code c' ++ v -> c = c' /\ u = v.
Proof.
  unfold is_char. intros B B' E.
  destruct (code_cases c) as [(C & N1 & _)|[(k & K & C)|C]]; destruct (code_cases c') as [(C' & N1' & _)|[(k' & K' & C')|C']]; rewrite C, C' in E; cbn [app] in E.
  - now injection E.
  - injection E as -> _. now destruct N1.
  - injection E as -> _. now destruct N1.
  - injection E as E _. now destruct N1'.
  - injection E as <- <-. split; [now apply (table_fun _ _ k)|easy].
  - injection E as -> _. now apply table_u in K.
  - injection E as E _. now destruct N1'.
  - injection E as <- _. now apply table_u in K'.
  - injection E as E. rewrite <- !app_assoc in E. cbn [app] in E.
    assert (R : forall n, ~ In 125%N (hex 8 n)). { intros n H. pose proof (hex_range 8 n) as F. rewrite Forall_forall in F. apply F in H. lia. }
    apply split_at in E as [E ->]; [|apply R|apply R]. split; [|easy].
    rewrite <- (hex_number 8 c), <- (hex_number 8 c'); [now rewrite E|cbn; lia|cbn; lia].
Qed.
Lemma code_shows c : is_char c -> shows c (code c).
Proof.
  intro B. destruct (code_cases c) as [(C & N1 & N2 & V)|[(k & K & C)|C]]; rewrite C.
  - now constructor.
  - constructor. unfold table in K. cbn in K |- *. tauto.
  - change (92%N :: 117%N :: 123%N :: hex 8 c ++ [125%N]) with (lit "\u{" ++ hex 8 c ++ lit "}"). constructor. apply hex_is_number. unfold is_char in B. cbn. lia.
Qed.
Theorem codes_show s : Forall is_char s -> exists b, debug_str extend printable s = [34%N] ++ b ++ [34%N] /\ shows_all s b.
Proof.
  intro H. exists (flat_map code s). split; [easy|]. induction H as [|c s Hc H IH]; [constructor|]. cbn [flat_map]. constructor; [now apply code_shows|exact IH].
Qed.
Theorem message_shows i : Forall is_char i -> exists b, shows_all i b /\
  indent_message extend printable i = lit "WARNING: """ ++ b ++
    lit """ is not a valid indentation. Must be either 1 tab or any number of spaces. The default of 2 spaces will be used instead" ++ [10%N].
Proof.
  intro H. destruct (codes_show i H) as (b & E & S). exists b. split; [exact S|]. unfold indent_message. rewrite E, <- !app_assoc. reflexivity.
Qed.
Lemma code_nonempty c : code c <> [].
Proof. destruct (code_cases c) as [(C & _)|[(k & _ & C)|C]]; rewrite C; discriminate. Qed.
Lemma code_quote c u v : code c ++ u <> 34%N :: v.
Proof. destruct (code_cases c) as [(C & _ & N & _)|[(k & _ & C)|C]]; rewrite C; cbn [app]; intro E; injection E; intros; congruence. Qed.
Lemma codes_prefix : forall s t u v, Forall is_char s -> Forall is_char t ->
  flat_map code s ++ 34%N :: u = flat_map code t ++ 34%N :: v -> s = t /\ u = v.
Proof.
  induction s as [|c s IH]; intros [|c' t] u v Hs Ht E; cbn [flat_map app] in E.
  - now injection E.
  - exfalso. rewrite <- app_assoc in E. symmetry in E. now apply code_quote in E.
  - exfalso. rewrite <- app_assoc in E. now apply code_quote in E.
  - rewrite <- !app_assoc in E. apply Forall_cons_iff in Hs as [Hc Hs]. apply Forall_cons_iff in Ht as [Hc' Ht].
    apply code_prefix in E as [-> E]; [|easy..]. apply IH in E as [-> ->]; easy.
Qed.
Theorem message_tells i j u v : Forall is_char i -> Forall is_char j ->
  indent_message extend printable i ++ u = indent_message extend printable j ++ v -> i = j.
Proof.
  intros Hi Hj E. unfold indent_message, debug_str in E. rewrite <- !app_assoc in E. apply app_inv_head in E. apply app_inv_head in E.
  change ([34%N]) with (34%N :: []) in E. cbn [app] in E. now apply codes_prefix in E as [-> _].
Qed.
Lemma code_visible c : Forall visible (code c).
Proof.
  assert (H : forall x, (32 <= x < 127)%N -> visible x) by (intros x Hx; now left).
  destruct (code_cases c) as [(C & _ & _ & V)|[(k & K & C)|C]]; rewrite C.
  - now constructor.
  - constructor; [apply H; lia|]. constructor; [|constructor]. apply H. unfold table in K. cbn in K. intuition (match goal with E : (_, _) = (_, _) |- _ => injection E as <- <- end; lia).
  - constructor; [apply H; lia|]. constructor; [apply H; lia|]. constructor; [apply H; lia|]. apply Forall_app. split; [|constructor; [apply H; lia|constructor]].
    eapply Forall_impl; [|apply hex_range]. intros x Hx. apply H. cbn in Hx. lia.
Qed.
Lemma visible_by l : forallb (fun c => (32 <=? c) && (c <? 127))%N l = true -> Forall visible l.
Proof.
  intro F. rewrite forallb_forall in F. apply Forall_forall. intros c Hc. apply F in Hc. apply andb_true_iff in Hc as [H1 H2]. apply N.leb_le in H1. apply N.ltb_lt in H2. left. lia.
Qed.
Theorem message_line i : exists m, indent_message extend printable i = m ++ [10%N] /\ Forall visible m.
Proof.
  unfold indent_message. eexists. split; [rewrite !app_assoc; reflexivity|]. apply Forall_app. split; [|apply visible_by; vm_compute; reflexivity].
  apply Forall_app. split; [apply visible_by; vm_compute; reflexivity|]. unfold debug_str. apply Forall_app. split; [apply visible_by; reflexivity|].
  apply Forall_app. split; [|apply visible_by; reflexivity]. induction i as [|c i IH]; [constructor|]. cbn [flat_map]. apply Forall_app. split; [apply code_visible|exact IH].
Qed.
End Debug.

(** * Any line *)

Lemma lines_wf l : ~ substring (lit "]]>") l -> cdata_wf (10%N :: l ++ [10%N]).
Proof.
  intros H (a & b & E). apply H. destruct a as [|x a]; [discriminate E|]. injection E as _ E. destruct b as [|y b] using rev_ind.
  - exfalso. assert (E' : l ++ [10%N] = (a ++ [93; 93]%N) ++ [62%N]) by (rewrite E, <- app_assoc; reflexivity). apply app_inj_tail in E' as [_ E']. discriminate E'.
  - assert (E' : l ++ [10%N] = (a ++ lit "]]>" ++ b) ++ [y]) by (rewrite E, <- !app_assoc; reflexivity). apply app_inj_tail in E' as [E' _]. now exists a, b.
Qed.
Lemma a_at : tag_at (lit "<a/>") (lit "<a/>") [].
Proof.
  assert (S : splits (lit "<a/>") [([], lit "<a/>")] []) by lex_by. destruct S as [L _]. inversion L as [|txt s t rest toks tail N T L' E]; subst.
  cbn [app] in E. subst s. inversion L'; subst. exact T.
Qed.
Lemma forged_at l rest : ~ substring (lit "]]>") l -> tag_at (forged l ++ rest) (forged l) rest.
Proof. intro H. unfold forged. repeat rewrite <- app_assoc. apply (cdata_at (10%N :: l ++ [10%N])). now apply lines_wf. Qed.
Theorem forged_accepted l : ~ substring (lit "]]>") l -> exists d, parse_str (forged l ++ lit "<a/>") = Ok d.
Proof.
  intro H. assert (A : exists d, accepts (forged l ++ lit "<a/>") d).
  { eexists. eapply (ac _ [([], forged l)] [] (lit "<a/>") []).
    - cbn [app]. apply (lx_tag [] (forged l ++ lit "<a/>") (forged l) (lit "<a/>")); [easy|now apply forged_at|].
      apply (lx_tag [] (lit "<a/>") (lit "<a/>") []); [easy|exact a_at|constructor].
    - apply pg_other; [constructor|unfold forged; eexists; reflexivity|intros [x E]; discriminate E|intros [x E]; discriminate E|]. apply pg_nil.
    - constructor.
    - split; [intros [x E]; discriminate E|]. split; [intros [x E]; discriminate E|]. split; [intros [x E]; discriminate E|]. vm_compute. reflexivity.
    - vm_compute. reflexivity.
    - vm_compute. reflexivity.
    - split; [constructor|easy].
    - intros _. split; reflexivity.
    - intro N. destruct N. exists (lit "<a"). reflexivity.
    - reflexivity. }
  destruct A as [d A]. destruct (parse_str_result (forged l ++ lit "<a/>")) as [d' _|x N|_ N]; [now exists d'|now destruct (N d)|now destruct (N d)].
Qed.
Theorem forged_printed l rest : ~ substring (lit "]]>") l -> exists u v, stderr_parse (forged l ++ rest) = u ++ [10%N] ++ l ++ [10%N] ++ v.
Proof.
  intro H. unfold stderr_parse, parse_str_w. cbn [fst].
  pose proof (prolog_step_w (blen (forged l ++ rest)) [] [] _ _ _ None [] 0 0 (fun x => x) (forged_at l rest H)) as E.
  cbn [app] in E. change (blen []) with 0 in E. rewrite E. change (real_text []) with (@Ok (option str) None). cbn [and_then].
  unfold prolog_tag_w. change (starts_with (lit "<?xml") (forged l)) with false. change (starts_with (lit "<!--") (forged l)) with false.
  change (starts_with (lit "<!DOCTYPE") (forged l)) with false. change (starts_with (lit "<!") (forged l)) with true. cbn [say fst flat_map].
  unfold ignored_warning, forged. eexists (lit "WARNING: Ignoring " ++ lit "<![CDATA["), _.
  repeat (rewrite <- !app_assoc; cbn [app]). reflexivity.
Qed.

(** * Characters of the messages *)

Lemma shortened_chars t what c : shortened t what -> In c what -> In c t \/ c = 8230%N.
Proof.
  intros [[_ ->]|(_ & a & m & b & -> & _ & _ & ->)] H; [now left|]. rewrite !in_app_iff in *. cbn in H. intuition.
Qed.
Lemma visible_lit l c : forallb (fun c => (32 <=? c) && (c <? 127))%N l = true -> In c l -> visible c.
Proof. intros F H. apply visible_by in F. rewrite Forall_forall in F. now apply F. Qed.
Lemma tag_warns_chars toks t l m c : tag_warns toks t l -> In m l -> In c m -> In c t \/ visible c.
Proof.
  intros W Hm Hc. destruct W as [what _ S|_ _ _|_ _|_|_]; cbn [In] in Hm; try easy; destruct Hm as [<-|[]]; rewrite !in_app_iff in Hc; destruct Hc as [Hc|[Hc|Hc]].
  - right. revert Hc. apply visible_lit. vm_compute. reflexivity.
  - destruct (shortened_chars _ _ _ S Hc) as [H| ->]; [now left|]. right. right. lia.
  - right. revert Hc. apply visible_lit. vm_compute. reflexivity.
  - right. revert Hc. apply visible_lit. vm_compute. reflexivity.
  - now left.
  - right. revert Hc. apply visible_lit. vm_compute. reflexivity.
Qed.
Lemma warns_chars toks l : warns toks l -> forall m c, In m l -> In c m -> (exists x, In x toks /\ In c (snd x)) \/ visible c.
Proof.
  induction 1 as [|toks txt t l l' W IH T]; intros m c Hm Hc; [easy|]. apply in_app_iff in Hm as [Hm|Hm].
  - destruct (IH m c Hm Hc) as [(x & Hx & H)|H]; [left; exists x; split; [apply in_app_iff; now left|easy]|now right].
  - destruct (tag_warns_chars _ _ _ _ _ T Hm Hc) as [H|H]; [left; exists (txt, t); split; [apply in_app_iff; right; now left|easy]|now right].
Qed.
Theorem parse_chars s m c : In m (fst (parse_str_w s)) -> In c m -> In c s \/ visible c.
Proof.
  intros Hm Hc. destruct (parse_w_warns s) as (toks & [[rest R] _] & W).
  destruct (warns_chars _ _ W m c Hm Hc) as [(x & Hx & H)|H]; [left|now right].
  apply reads_depth in R as [L _]. apply lexed_flatten in L. rewrite L. apply in_app_iff. left. unfold flatten. apply in_flat_map. exists x. split; [easy|]. destruct x. cbn in *. apply in_app_iff. now right.
Qed.
Theorem stderr_chars s c : In c (stderr_parse s) -> In c s \/ c = 10%N \/ visible c.
Proof.
  unfold stderr_parse. intro H. apply in_flat_map in H as (m & Hm & H). apply in_app_iff in H as [H|[<-|[]]]; [|now right; left].
  destruct (parse_chars _ _ _ Hm H) as [G|G]; [now left|now right; right].
Qed.
Theorem clean_lines s : Forall visible s -> exists toks l, prolog_tags s toks /\ warns toks l /\
  stderr_parse s = flat_map (fun m => m ++ [10%N]) l /\ Forall (Forall visible) l.
Proof.
  intro V. destruct (parse_w_warns s) as (toks & P & W). exists toks, (fst (parse_str_w s)). split; [exact P|]. split; [exact W|]. split; [easy|].
  apply Forall_forall. intros m Hm. apply Forall_forall. intros c Hc. destruct (parse_chars _ _ _ Hm Hc) as [H|H]; [|exact H].
  rewrite Forall_forall in V. now apply V.
Qed.

(** * Telling the messages *)

Definition a_tag (t : str) : Prop := tag_at t t [].
Lemma a_tag_prefix t t' u v : a_tag t -> a_tag t' -> t ++ u = t' ++ v -> t = t' /\ u = v.
Proof.
  intros T T' E. apply (tag_at_more _ _ _ u) in T. apply (tag_at_more _ _ _ v) in T'. cbn [app] in T, T'. rewrite E in T. now destruct (tag_at_fun _ _ _ _ _ T T').
Qed.
Definition comment_end : str := lit " outside of root element. Comments outside of the root are not supported and will be ignored.".
Definition ignored_end : str := lit " (not supported outside root element)".
Inductive message : str -> Prop :=
| ms_comment t what : a_tag t -> begins (lit "<!--") t -> shortened t what -> message (lit "WARNING: Encountered comment " ++ what ++ comment_end)
| ms_ignored t : a_tag t -> message (lit "WARNING: Ignoring " ++ t ++ ignored_end).
Lemma same_blen (a b u v : str) : blen a = blen b -> a ++ u = b ++ v -> a = b /\ u = v.
Proof.
  revert b. induction a as [|c a IH]; intros [|c' b] H E; cbn [app] in E.
  - easy.
  - exfalso. cbn [blen] in H. pose proof (len_utf8_pos c'). cbn in H. lia.
  - exfalso. cbn [blen] in H. pose proof (len_utf8_pos c). cbn in H. lia.
  - injection E as <- E. cbn [blen] in H. destruct (IH b) as [-> ->]; [lia|exact E|easy].
Qed.
Lemma prefix_blen (a b u v : str) : blen a < blen b -> a ++ u = b ++ v -> exists w, b = a ++ w /\ u = w ++ v.
Proof.
  revert b. induction a as [|c a IH]; intros [|c' b] H E; cbn [app] in E.
  - cbn in H. lia.
  - exists (c' :: b). now split.
  - cbn in H. lia.
  - injection E as <- E. cbn [blen] in H. destruct (IH b) as (w & -> & ->); [lia|exact E|]. now exists w.
Qed.
Lemma comment_gt t : a_tag t -> begins (lit "<!--") t -> exists p, t = p ++ [62%N].
Proof.
  intros T [x B]. destruct T as [_ (_ & [p ->] & _)|[y B'] _|[y B'] _|_ N _ _|_ _ N _].
  - exists (p ++ lit "--"). now rewrite <- app_assoc.
  - rewrite B in B'. discriminate B'.
  - rewrite B in B'. discriminate B'.
  - destruct N. now exists x.
  - destruct N. exists (lit "--" ++ x). exact B.
Qed.
Lemma full_short t t' a m b u v : a_tag t -> a_tag t' -> begins (lit "<!--") t' -> blen t <= 32 -> t' = a ++ m ++ b -> blen a = 15 -> blen b = 16 ->
  t ++ comment_end ++ u = (a ++ [8230%N] ++ b) ++ v -> False.
Proof.
  intros T T' B L -> La Lb E. apply comment_gt in B as [p Ep]; [|exact T'].
  destruct b as [|z b _] using rev_ind; [discriminate Lb|]. rewrite !app_assoc in Ep. apply app_inj_tail in Ep as [_ ->].
  assert (Lw : blen (a ++ [8230%N] ++ b ++ [62%N]) = 34). { rewrite !blen_app in *. cbn in *. lia. }
  assert (K : blen t < blen (a ++ [8230%N] ++ b ++ [62%N])) by (rewrite Lw; clear - L; lia).
  destruct (prefix_blen _ _ _ _ K E) as (w & Ew & E').
  assert (Hw : exists w', w = w' ++ [62%N]).
  { destruct w as [|y w _] using rev_ind; [|exists w; rewrite !app_assoc in Ew; apply app_inj_tail in Ew as [_ <-]; reflexivity].
    exfalso. rewrite app_nil_r in Ew. rewrite Ew in Lw. lia. }
  destruct Hw as [w' ->]. assert (Lw' : blen w' <= 34). { rewrite Ew in Lw. rewrite !blen_app in Lw. clear - Lw. lia. }
  assert (C : blen (w' ++ [62%N]) < blen comment_end). { rewrite blen_app. change (blen comment_end) with 93. cbn. lia. }
  symmetry in E'. destruct (prefix_blen _ _ _ _ C E') as (x & Ex & _).
  assert (G : In 62%N comment_end). { rewrite Ex. rewrite !in_app_iff. left. right. now left. }
  clear - G. vm_compute in G. intuition discriminate.
Qed.
Lemma message_prefix m m' u v : message m -> message m' -> m ++ 10%N :: u = m' ++ 10%N :: v -> m = m' /\ u = v.
Proof.
  intros M M' E.
  assert (G : m = m'); [|subst m'; apply app_inv_head in E; now injection E].
  destruct M as [t what T B S|t T]; destruct M' as [t' what' T' B' S'|t' T']; try discriminate E.
  - rewrite <- !app_assoc in E. apply app_inv_head in E.
    assert (G : what = what'); [|now rewrite G].
    destruct S as [[L ->]|(_ & a & x & b & Et & La & Lb & ->)]; destruct S' as [[L' ->]|(_ & a' & x' & b' & Et' & La' & Lb' & ->)].
    + now apply a_tag_prefix in E as [-> _].
    + exfalso. exact (full_short _ _ _ _ _ _ _ T T' B' L Et' La' Lb' E).
    + exfalso. symmetry in E. exact (full_short _ _ _ _ _ _ _ T' T B L' Et La Lb E).
    + apply same_blen in E as [E _]; [exact E|]. rewrite !blen_app. lia.
  - rewrite <- !app_assoc in E. apply app_inv_head in E. now apply a_tag_prefix in E as [-> _].
Qed.
Lemma messages_tell : forall l l', Forall message l -> Forall message l' ->
  flat_map (fun m => m ++ [10%N]) l = flat_map (fun m => m ++ [10%N]) l' -> l = l'.
Proof.
  assert (N : forall (m : str) x, (m ++ [10%N]) ++ x <> []) by (intros m x E; apply app_eq_nil in E as [E _]; now apply app_eq_nil in E).
  induction l as [|m l IH]; intros [|m' l'] H H' E; cbn [flat_map] in E.
  - easy.
  - symmetry in E. now apply N in E.
  - now apply N in E.
  - apply Forall_cons_iff in H as [Hm H]. apply Forall_cons_iff in H' as [Hm' H']. rewrite <- !app_assoc in E. cbn [app] in E.
    apply message_prefix in E as [-> E]; [|easy..]. f_equal. now apply IH.
Qed.
Lemma lexed_tags s toks rest : lexed s toks rest -> Forall (fun x => a_tag (snd x)) toks.
Proof.
  induction 1 as [|txt s t rest toks tail N T L IH]; constructor; [|exact IH]. cbn [snd].
  pose proof (tag_at_nonempty _ _ _ T) as [E _]. subst s. apply (tag_at_swap t rest []) in T. rewrite app_nil_r in T. exact T.
Qed.
Lemma warns_messages toks l : warns toks l -> Forall (fun x => a_tag (snd x)) toks -> Forall message l.
Proof.
  induction 1 as [|toks txt t l l' W IH T]; intro H; [constructor|]. apply Forall_app in H as [H Ht]. apply Forall_cons_iff in Ht as [Ht _]. cbn in Ht.
  apply Forall_app. split; [now apply IH|]. destruct T as [what [B _] S|_ _ _|_ _|_|_].
  - constructor; [now apply (ms_comment t)|constructor].
  - constructor; [now apply ms_ignored|constructor].
  - constructor.
  - constructor.
  - constructor.
Qed.
Theorem stderr_tells s s' : stderr_parse s = stderr_parse s' -> fst (parse_str_w s) = fst (parse_str_w s').
Proof.
  apply messages_tell.
  - destruct (parse_w_warns s) as (toks & [[rest R] _] & W). apply reads_depth in R as [L _]. apply (warns_messages toks); [exact W|]. exact (lexed_tags _ _ _ L).
  - destruct (parse_w_warns s') as (toks & [[rest R] _] & W). apply reads_depth in R as [L _]. apply (warns_messages toks); [exact W|]. exact (lexed_tags _ _ _ L).
Qed.

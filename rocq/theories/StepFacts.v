(** The steps of the parser are those of SpecErr.v. *)
From Coq Require Import List NArith Arith Bool Ascii String Lia.
From Verif Require Import Base BaseFacts Escape Dom Spec EscapeFacts SpecDom DomFacts SpecApi ApiFacts Regex RegexFacts
  ParseTree SpecTree ParseTreeFacts Parse SpecLex SpecParse SpecEsc LexFacts ParseFacts DocFacts TagFacts AcceptFacts PosFacts
  DocProps SpecDoc UnescFacts PrintFacts PrintDoc PrologFacts ParsedFacts NsFacts FormFacts SpecErr ReadFacts ErrFacts.
Import ListNotations.

(** * The form of tags *)

Lemma listed_start_cls c : listed_start c <-> cls_in (mkCls false name_start_ranges) c = true.
Proof.
  rewrite cls_spec. unfold listed_start, name_start, name_start_ranges. rewrite !Exists_cons, !Exists_nil.
  unfold between_. cbn [fst snd]. lia.
Qed.
Lemma listed_char_cls c : listed_char c <-> cls_in (mkCls false name_char_ranges) c = true.
Proof.
  rewrite cls_spec. unfold listed_char, name_char, name_start, name_char_ranges. rewrite Exists_app. unfold name_start_ranges.
  rewrite !Exists_cons, !Exists_nil. unfold between_. cbn [fst snd]. lia.
Qed.
Lemma listed_match c r : listed_start c -> Forall listed_char r -> matches tpNS [c] /\ matches (RStar tpNC) r.
Proof.
  intros Hc Hr. split.
  - constructor. now apply listed_start_cls.
  - apply star_chars. eapply Forall_impl; [|exact Hr]. intro x. apply listed_char_cls.
Qed.
Lemma listed_inv c r : matches tpNS c -> matches (RStar tpNC) r -> listed_name (c ++ r).
Proof.
  intros Hc Hr. apply matches_cls_inv in Hc. destruct Hc as (c0 & -> & Hc). apply star_cls_inv in Hr. exists c0, r. split; [easy|].
  split; [now apply listed_start_cls|]. eapply Forall_impl; [|exact Hr]. intro x. apply listed_char_cls.
Qed.
Lemma quoted_match q v : matches (tpQuoted q) ([q] ++ v ++ [q]).
Proof. unfold tpQuoted. apply seqs_cons; [apply char_match|]. apply seqs_cons; [apply star_any|apply char_match]. Qed.
Lemma quoted_inv q s : matches (tpQuoted q) s -> exists v, s = [q] ++ v ++ [q].
Proof.
  intro H. unfold tpQuoted in H. cbn [RSeqs] in H. apply matches_seq_inv in H. destruct H as (a & s1 & -> & Ha & H).
  apply char_inv in Ha. subst a. apply matches_seq_inv in H. destruct H as (v & b & -> & _ & Hb). apply char_inv in Hb. subst b. now exists v.
Qed.
Lemma written_attr_match a : written_attr a <-> matches tpAttr a.
Proof.
  split.
  - intros (w & k & q & v & -> & Hw & Hws & (c & r & -> & Hc & Hr) & Hq). destruct (listed_match c r Hc Hr) as [M1 M2].
    unfold tpAttr. apply seqs_cons; [now apply ws_plus_match|]. change ((c :: r) ++ lit "=" ++ [q] ++ v ++ [q]) with ([c] ++ r ++ lit "=" ++ [q] ++ v ++ [q]).
    apply seqs_cons; [exact M1|]. apply seqs_cons; [exact M2|]. apply seqs_cons; [apply char_match|].
    apply is_quote_cases in Hq. cbn [RSeqs]. destruct Hq as [-> | ->]; [apply m_alt_l|apply m_alt_r]; apply quoted_match.
  - intro H. unfold tpAttr in H. cbn [RSeqs] in H.
    apply matches_seq_inv in H. destruct H as (w & s1 & -> & Hw & H).
    apply matches_seq_inv in H. destruct H as (c & s2 & -> & Hc & H).
    apply matches_seq_inv in H. destruct H as (cs & s3 & -> & Hcs & H).
    apply matches_seq_inv in H. destruct H as (e & s4 & -> & He & H). apply char_inv in He. subst e.
    apply matches_seq_inv in Hw. destruct Hw as (w1 & w2 & -> & Hw1 & Hw2). apply matches_cls_inv in Hw1. destruct Hw1 as (x & -> & Hx).
    assert (exists q v, s4 = [q] ++ v ++ [q] /\ is_quote q = true) as (q & v & -> & Hq).
    { apply matches_alt_inv in H. destruct H as [H|H]; apply quoted_inv in H; destruct H as [v ->]; [exists cDq|exists cSq]; now exists v. }
    exists ([x] ++ w2), (c ++ cs), q, v. split; [now rewrite <- !app_assoc|]. split; [easy|]. split.
    { constructor; [now apply ws_cls|now apply star_ws_inv]. }
    split; [now apply listed_inv|easy].
Qed.
Lemma star_attrs s : matches (RStar tpAttr) s <-> exists l, s = List.concat l /\ Forall written_attr l.
Proof.
  split.
  - intro H. remember (RStar tpAttr) as r eqn:E. induction H as [| | | | |a|a s t H1 _ H2 IH]; try discriminate.
    + now exists [].
    + specialize (IH E). injection E as ->. destruct IH as (l & -> & F). exists (s :: l). split; [easy|].
      constructor; [now apply written_attr_match|easy].
  - intros (l & -> & F). induction F as [|a l Ha F IH]; [constructor|]. cbn [List.concat]. apply m_star_cons; [|easy].
    now apply written_attr_match.
Qed.
Lemma tag_form_match u : tag_form u <-> matches tag_pattern u.
Proof.
  split.
  - intros (o1 & nm & l & w & o2 & -> & H1 & (c & r & -> & Hc & Hr) & Hl & Hw & H2). destruct (listed_match c r Hc Hr) as [M1 M2].
    assert (Sl : forall s, s = [] \/ s = lit "/" -> matches (ROpt (RChar 47%N)) s).
    { intros s [->| ->]; [apply opt_none|apply opt_some, char_match]. }
    unfold tag_pattern. change ((c :: r) ++ List.concat l ++ w ++ o2 ++ lit ">") with ([c] ++ r ++ [] ++ List.concat l ++ w ++ o2 ++ lit ">").
    apply seqs_cons; [apply char_match|]. apply seqs_cons; [now apply Sl|]. apply seqs_cons; [exact M1|].
    apply seqs_cons; [exact M2|]. apply seqs_cons; [apply opt_none|]. apply seqs_cons; [apply star_attrs; now exists l|].
    apply seqs_cons; [now apply ws_match|]. apply seqs_cons; [now apply Sl|]. apply char_match.
  - intro H. unfold tag_pattern in H. cbn [RSeqs] in H.
    apply matches_seq_inv in H. destruct H as (l & x1 & -> & Hl & H). apply char_inv in Hl. subst l.
    apply matches_seq_inv in H. destruct H as (s1 & x2 & -> & H1 & H).
    apply matches_seq_inv in H. destruct H as (c & x3 & -> & Hc & H).
    apply matches_seq_inv in H. destruct H as (cs & x4 & -> & Hcs & H).
    apply matches_seq_inv in H. destruct H as (o & x5 & -> & Ho & H).
    apply matches_seq_inv in H. destruct H as (A & x6 & -> & HA & H).
    apply matches_seq_inv in H. destruct H as (w & x7 & -> & Hw & H).
    apply matches_seq_inv in H. destruct H as (s2 & g & -> & H2 & Hg). apply char_inv in Hg. subst g.
    apply star_attrs in HA. destruct HA as (l & -> & F).
    exists s1, (c ++ cs ++ o), l, w, s2. split; [now rewrite <- !app_assoc|].
    split; [apply opt_inv in H1; destruct H1 as [->|H1]; [now left|right; now apply char_inv]|]. split.
    { apply opt_inv in Ho. destruct Ho as [->|Ho]; [rewrite app_nil_r; now apply listed_inv|].
      apply matches_seq_inv in Ho. destruct Ho as (k & y1 & -> & Hk & Ho). apply char_inv in Hk. subst k.
      apply matches_seq_inv in Ho. destruct Ho as (d & y2 & -> & Hd & Ho).
      destruct (listed_inv _ _ Hc Hcs) as (c0 & r0 & E0 & Hc0 & Hr0). destruct (listed_inv _ _ Hd Ho) as (d0 & r1 & E1 & Hd0 & Hr1).
      exists c0, (r0 ++ [cColon] ++ d0 :: r1). rewrite <- E1, app_assoc, E0. split; [easy|]. split; [easy|].
      apply Forall_app. split; [easy|]. apply Forall_app. split.
      - constructor; [|constructor]. now apply listed_char_cls.
      - rewrite E1. constructor; [|easy]. destruct Hd0 as [G|G]; [left; now left|now right]. }
    split; [easy|]. split; [now apply star_ws_inv|].
    apply opt_inv in H2. destruct H2 as [->|H2]; [now left|right; now apply char_inv].
Qed.
Lemma formed_check t : formed t <-> check_element_tag t = Ok tt.
Proof.
  unfold check_element_tag. destruct (is_match tag_pattern t) eqn:E.
  - split; [easy|]. intros _. apply is_match_spec in E. destruct E as (a & m & b & -> & M). exists a, m, b. split; [easy|now apply tag_form_match].
  - split; [|discriminate]. intros (a & m & b & -> & M). apply tag_form_match in M.
    assert (is_match tag_pattern (a ++ m ++ b) = true) by (apply is_match_spec; now exists a, m, b). congruence.
Qed.
Lemma not_formed_check t : ~ formed t <-> check_element_tag t = Err (ParsingError PInvalidElement None).
Proof. rewrite formed_check. unfold check_element_tag. destruct (is_match _ _); split; intro H; easy. Qed.

(** * Closing tags *)

Lemma ends_ws_slash a w : ws w -> ends (lit "/") (w ++ a) <-> ends (lit "/") a.
Proof.
  intro Hw. split.
  - intros [y E]. destruct (exists_last_or a) as [->|(a' & c & ->)].
    + exfalso. rewrite app_nil_r in E. subst w. apply Forall_app in Hw. destruct Hw as [_ Hw]. inversion Hw. discriminate.
    + rewrite app_assoc in E. apply app_inj_tail in E. destruct E as [_ ->]. now exists a'.
  - intros [y ->]. exists (w ++ y). now rewrite app_assoc.
Qed.
Lemma strip_closes t n : delimited t -> begins (lit "</") t -> trimmed n -> strip_tag t = Ok n <-> closes t n.
Proof.
  intros [x E] [y Ey] Tn. assert (exists x', y = x' ++ lit ">") as [x' ->].
  { destruct (exists_last_or y) as [->|(y' & c & ->)].
    - rewrite app_nil_r in Ey. rewrite E in Ey. destruct x as [|x0 [|x1 x]]; discriminate.
    - rewrite Ey, !app_assoc in E. apply app_inj_tail in E. destruct E as [_ ->]. now exists y'. }
  clear E x. subst t. rename x' into x.
  assert (K : strip_tag (lit "</" ++ x ++ lit ">") = Ok (trim (if ends_with (lit "/") x then removelast x else x))).
  { unfold strip_tag.
    change (lit "</" ++ x ++ lit ">") with (lit "<" ++ (lit "/" ++ x ++ lit ">")).
    rewrite starts_with_app. change 1 with (blen (lit "<")) at 1. rewrite slice_from_app. cbn [bind].
    rewrite starts_with_app. change 1 with (blen (lit "/")) at 1. rewrite slice_from_app. cbn [bind].
    rewrite ends_with_app. change 1 with (blen (lit ">")) at 1. rewrite slice_to_suffix. cbn [bind].
    destruct (ends_with (lit "/") x) eqn:E; [|easy].
    apply ends_spec in E. destruct E as [a ->]. change 1 with (blen (lit "/")). rewrite slice_to_suffix. cbn [bind].
    change (lit "/") with [47%N]. now rewrite removelast_last. }
  rewrite K. clear K.
  assert (TS : forall a, trim a = n <-> exists w1 w2, a = w1 ++ n ++ w2 /\ ws w1 /\ ws w2).
  { intro a. split.
    - intros <-. destruct (trim_spec a) as (w1 & w2 & Ea & H1 & H2 & _). exists w1, w2. split; [easy|]. split; now apply all_ws_ws.
    - intros (w1 & w2 & -> & H1 & H2). destruct Tn. apply trim_surrounded; [now apply all_ws_ws|now apply all_ws_ws|easy|easy]. }
  destruct (ends_with (lit "/") x) eqn:E.
  - apply ends_spec in E. destruct E as [a ->]. change (lit "/") with [47%N]. rewrite removelast_last. split.
    + intros [= H]. apply TS in H. destruct H as (w1 & w2 & -> & H1 & H2). exists w1, w2, (lit "/").
      split; [now rewrite <- !app_assoc|]. split; [easy|]. split; [easy|now left].
    + intros (w1 & w2 & o & Eo & H1 & H2 & Ho). f_equal. apply TS.
      apply app_inv_head in Eo. rewrite !app_assoc in Eo. apply app_inv_tail in Eo.
      destruct Ho as [-> | [-> Ho]].
      * apply app_inv_tail in Eo. exists w1, w2. split; [now rewrite app_assoc|easy].
      * exfalso. rewrite app_nil_r in Eo. apply Ho. apply ends_ws_slash with w1; [easy|]. exists a. now rewrite app_assoc.
  - split.
    + intros [= H]. apply TS in H. destruct H as (w1 & w2 & -> & H1 & H2). exists w1, w2, [].
      split; [now rewrite <- !app_assoc|]. split; [easy|]. split; [easy|]. right. split; [easy|]. intro G.
      apply (ends_ws_slash _ w1) in G; [|easy]. apply ends_spec in G. congruence.
    + intros (w1 & w2 & o & Eo & H1 & H2 & Ho). f_equal. apply TS.
      apply app_inv_head in Eo. rewrite !app_assoc in Eo. apply app_inv_tail in Eo.
      destruct Ho as [-> | [-> Ho]].
      * exfalso. assert (ends_with (lit "/") x = true) by (apply ends_spec; eexists; exact Eo). congruence.
      * rewrite app_nil_r in Eo. exists w1, w2. split; [now rewrite app_assoc|easy].
Qed.
Lemma words_first b n l : words b (n :: l) -> n <> [] /\ solid None n.
Proof. intro H. inversion H; subst; easy. Qed.
Lemma reads_trimmed_name outer t n : element_reads outer t n -> trimmed n.
Proof.
  intros (kvs & l & nm & (comps & (b & o & _ & W & _) & _) & _ & _ & Lp & V & _). apply words_first in W. destruct W as [Hn Hs]. split.
  - destruct n as [|c n]; [easy|]. apply solid_cons in Hs. now apply Hs.
  - assert (exists a c, nm = a ++ [c] /\ is_whitespace c = false) as (a & c & -> & Hc).
    { destruct V as (c & r & -> & Hc & Hr). destruct (exists_last_or r) as [->|(r' & x & ->)].
      - exists [], c. split; [easy|]. unfold is_whitespace. rewrite !orb_false_iff. unfold in_range. rewrite !andb_false_iff, ?N.leb_gt, ?N.eqb_neq. lia.
      - exists (c :: r'), x. split; [easy|]. apply Forall_app in Hr. destruct Hr as [_ Hr]. now inversion Hr. }
    destruct Lp as [[-> _]|(p & -> & _)].
    + rewrite rev_app_distr. exact Hc.
    + rewrite !app_assoc, rev_app_distr. exact Hc.
Qed.
Lemma reads_inside_trimmed s : forall st rest, reads s st rest -> forall names, st = Inside names -> Forall trimmed names.
Proof.
  induction 1 as [| | |toks rest txt t r rest' n H IH Nx Hw Np Nc F E Z|names rest txt t r rest' names' H IH Nx Tf G];
    intros ns Es; try discriminate; injection Es as <-.
  - constructor; [|constructor]. now apply reads_trimmed_name with True t.
  - specialize (IH _ eq_refl). destruct G as [| |n names' -> _ _ _| |n _ _ _ E _]; try easy.
    + now inversion IH.
    + constructor; [|easy]. now apply reads_trimmed_name with (names = []) t.
Qed.

(** * Abbreviated tags *)

Lemma abbreviate_shortened t what : abbreviate t 32 = Ok what -> shortened t what.
Proof.
  unfold abbreviate. change (32 <? 4) with false. change (Nat.div 32 2 - 1) with 15. change (Nat.div 32 2) with 16.
  cbn [orb]. destruct (blen t <=? 32) eqn:E.
  { apply Nat.leb_le in E. intros [= <-]. now left. }
  apply Nat.leb_gt in E. intro H. right. split; [lia|].
  apply bind_ok in H. destruct H as (a & Ha & H). apply bind_ok in H. destruct H as (b & Hb & H). injection H as <-.
  apply slice_from_inv in Hb. destruct Hb as (r2 & Et & Hb).
  assert (exists r1, t = a ++ r1 /\ blen a = 15) as (r1 & E1 & L1).
  { destruct (slice_to_cases t 15) as [[(a' & r1 & E1 & L1) [x Hx]]|[_ Hp]]; [|congruence].
    exists r1. rewrite E1, L1 in Ha. change (slice ([] ++ a' ++ r1) (blen []) (blen [] + blen a') = Ok a) in Ha.
    rewrite slice_app in Ha. injection Ha as <-. easy. }
  assert (L2 : blen t = blen r2 + blen b) by (rewrite Et at 1; apply blen_app).
  rewrite E1 in Et. apply app_eq_app in Et. destruct Et as (m & [[Ea Eb]|[Ea Eb]]).
  - exfalso. apply (f_equal blen) in Ea. rewrite blen_app in Ea. lia.
  - exists a, m, b. split; [now rewrite E1, Eb|]. split; [easy|]. split; [lia|easy].
Qed.
Lemma shortened_abbreviate t what : shortened t what -> abbreviate t 32 = Ok what.
Proof.
  unfold abbreviate. change (32 <? 4) with false. change (Nat.div 32 2 - 1) with 15. change (Nat.div 32 2) with 16. cbn [orb].
  intros [[L ->]|(L & a & m & b & -> & La & Lb & ->)].
  - apply Nat.leb_le in L. now rewrite L.
  - assert (blen (a ++ m ++ b) <=? 32 = false) as -> by now apply Nat.leb_gt.
    assert (slice (a ++ m ++ b) 0 15 = Ok a) as ->.
    { rewrite <- La. apply (slice_app [] a (m ++ b)). }
    cbn [bind]. assert (blen (a ++ m ++ b) - 16 = blen (a ++ m)) as -> by (rewrite !blen_app, <- Lb; lia).
    rewrite (app_assoc a m b), slice_from_app. easy.
Qed.
Inductive abbreviated (t : str) : outcome str -> Prop :=
| abb_ok what : shortened t what -> abbreviated t (Ok what)
| abb_panic : (forall what, ~ shortened t what) -> abbreviated t Panic.
Lemma abbreviate_outcome t : abbreviated t (abbreviate t 32).
Proof.
  destruct (abbreviate t 32) as [what|x| |] eqn:E.
  - apply abb_ok. now apply abbreviate_shortened.
  - exfalso. now apply abbreviate_err in E.
  - apply abb_panic. intros what H. apply shortened_abbreviate in H. congruence.
  - exfalso. revert E. unfold abbreviate. destruct (_ || _); [discriminate|]. change (Nat.div 32 2 - 1) with 15.
    destruct (slice_to_cases t 15) as [[_ [a ->]]|[_ ->]]; cbn [bind]; [|discriminate].
    destruct (slice_from_cases t (blen t - Nat.div 32 2)) as [[_ [b ->]]|[_ ->]]; discriminate.
Qed.

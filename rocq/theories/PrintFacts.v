(** Written tags are found, pass the tag check and are read as written. *)
From Coq Require Import List NArith Arith Bool Ascii String Lia.
From Verif Require Import Base BaseFacts Escape Dom Spec EscapeFacts SpecDom DomFacts SpecApi ApiFacts
  ParseTree SpecTree ParseTreeFacts Parse SpecLex SpecParse LexFacts ParseFacts DocFacts TagFacts AcceptFacts ParsedFacts
  RegexFacts SpecDoc.
From Verif Require Regex.
Import ListNotations.

(** * Characters *)

Lemma in_range_true a b c : in_range a b c = true <-> between_ a b c.
Proof. unfold in_range, between_. rewrite andb_true_iff, !N.leb_le. easy. Qed.
Lemma cls_spec l c : Regex.cls_in (Regex.mkCls false l) c = true <-> Exists (fun r => between_ (fst r) (snd r) c) l.
Proof.
  unfold Regex.cls_in. cbn [Regex.cls_neg Regex.cls_ranges]. rewrite xorb_false_l, existsb_exists, Exists_exists.
  split; intros (x & H1 & H2); exists x; (split; [easy|]); now apply in_range_true.
Qed.
Lemma name_start_cls c : name_start c -> Regex.cls_in (Regex.mkCls false name_start_ranges) c = true.
Proof. intros [H _]. now apply cls_spec. Qed.
Lemma name_char_cls c : name_char c -> Regex.cls_in (Regex.mkCls false name_char_ranges) c = true.
Proof.
  intro H. apply cls_spec. unfold name_char_ranges. apply Exists_app. destruct H as [[H _]|H]; [now left|right].
  rewrite !Exists_cons, !Exists_nil in *. unfold between_ in *. cbn [fst snd] in *. lia.
Qed.

Lemma name_char_odd c : name_char c ->
  is_whitespace c = false /\ is_quote c = false /\ c <> lt_ /\ c <> gt_ /\ c <> 47%N /\ c <> cEq /\ c <> 63%N /\ c <> 33%N.
Proof.
  intro H. assert (K : ((c = 58 \/ 65 <= c <= 90 \/ c = 95 \/ 97 <= c <= 122 \/ c = 45 \/ c = 46 \/ 48 <= c <= 57 \/
    c = 183 \/ 192 <= c <= 8191 \/ 8204 <= c <= 8205 \/ 8255 <= c <= 8256 \/ 8304 <= c <= 12271 \/ 12289 <= c) /\ c <> 5760)%N).
  { unfold name_char, name_start in H. rewrite !Exists_cons, !Exists_nil in H. unfold between_ in H. cbn [fst snd] in H. lia. }
  clear H. unfold lt_, gt_, cEq. split.
  - apply not_true_iff_false. unfold is_whitespace. rewrite !orb_true_iff, !in_range_true, !N.eqb_eq. unfold between_. lia.
  - split; [|lia]. apply not_true_iff_false. unfold is_quote, dquote, squote. rewrite orb_true_iff, !N.eqb_eq. lia.
Qed.
Lemma letter_start c : (c = 95 \/ 65 <= c <= 90 \/ 97 <= c <= 122)%N -> name_start c.
Proof. intro H. split; [|lia]. rewrite !Exists_cons. unfold between_. cbn [fst snd]. lia. Qed.
Lemma plain_xml n : plain_name n -> xml_name n.
Proof. intros (c & r & -> & H & Hr). exists c, r. split; [easy|]. split; [now apply letter_start|easy]. Qed.
Lemma xml_name_chars n : xml_name n -> Forall name_char n.
Proof. intros (c & r & -> & H & Hr). constructor; [now left|easy]. Qed.
Lemma plain_valid n : plain_name n -> valid_name n.
Proof.
  intros (c & r & -> & H & Hr). exists c, r. split; [easy|]. split; [easy|].
  eapply Forall_impl; [|exact Hr]. intros x Hx. now apply name_char_odd.
Qed.
Lemma named_xml nm p n : named nm p n -> xml_name nm /\ plain_name n.
Proof.
  intros [m H _|q m (c & r & -> & H1 & H2) _ H].
  - split; [now apply plain_xml|easy].
  - split; [|easy]. exists c, (r ++ [colon] ++ m). split; [easy|]. split; [easy|].
    apply Forall_app. split; [easy|]. constructor; [|now apply xml_name_chars, plain_xml].
    left. split; [|easy]. apply Exists_cons. left. split; easy.
Qed.
Lemma named_qname nm p n : named nm p n -> qname nm p n.
Proof. intros [m H Hc|q m H Hc H']; [now constructor|now apply (qn_prefixed q m)]. Qed.
Lemma named_fun nm p n p' n' : named nm p n -> named nm p' n' -> p = p' /\ n = n'.
Proof.
  intros H H'. destruct H as [m H Hc|q m H Hc Hm].
  - inversion H' as [m' K Kc E|q' m' K Kc Km E]; subst; [easy|]. exfalso. apply Hc. apply in_or_app. right. now left.
  - inversion H' as [m' K Kc E|q' m' K Kc Km E].
    + subst. exfalso. apply Kc. apply in_or_app. right. now left.
    + subst n'. assert (q = q' /\ m = m') as [-> ->]; [|easy].
      assert (S1 : split_once colon (q ++ [colon] ++ m) = Some (q, m)) by now apply split_once_some.
      assert (S2 : split_once colon (q' ++ [colon] ++ m') = Some (q', m')) by now apply split_once_some.
      change (q' ++ [colon] ++ m' = q ++ [colon] ++ m) in E. rewrite E, S1 in S2. injection S2 as -> ->. easy.
Qed.

(** * Quotes *)

(** No quotes, no markup. *)
Definition calm (s : str) : Prop := Forall (fun c => is_quote c = false /\ c <> lt_ /\ c <> gt_) s.
Lemma calm_open s : calm s -> open_quote None s = None.
Proof. induction 1 as [|c s [H _] Hs IH]; [easy|]. cbn. now rewrite H. Qed.
Lemma calm_unquoted s : calm s -> unquoted None s = s.
Proof. induction 1 as [|c s [H _] Hs IH]; [easy|]. cbn. now rewrite H, IH. Qed.
Lemma calm_app a b : calm a -> calm b -> calm (a ++ b).
Proof. intros H1 H2. now apply Forall_app. Qed.
Lemma ws_calm w : ws w -> calm w.
Proof.
  intro H. eapply Forall_impl; [|exact H]. intros c Hc. cbn beta in Hc. repeat split.
  - destruct (is_quote c) eqn:Q; [|easy]. apply quote_not_ws in Q. congruence.
  - intros ->. discriminate.
  - intros ->. discriminate.
Qed.
Lemma chars_calm s : Forall name_char s -> calm s.
Proof. intro H. eapply Forall_impl; [|exact H]. intros c Hc. apply name_char_odd in Hc. easy. Qed.
Lemma inside_quote q s : ~ In q s -> open_quote (Some q) s = Some q /\ unquoted (Some q) s = [].
Proof.
  induction s as [|c s IH]; intro H; [easy|]. cbn. destruct (c =? q)%N eqn:E.
  - apply N.eqb_eq in E. subst. exfalso. apply H. now left.
  - apply IH. intro Hi. apply H. now right.
Qed.
Lemma quoted_open q s : is_quote q = true -> ~ In q s ->
  open_quote None ([q] ++ s ++ [q]) = None /\ unquoted None ([q] ++ s ++ [q]) = [].
Proof.
  intros Hq H. cbn [app open_quote unquoted]. rewrite Hq.
  destruct (inside_quote q s H) as [H1 H2]. rewrite open_quote_app, unquoted_app, H1, H2. cbn.
  now rewrite N.eqb_refl.
Qed.
Lemma quote_cases q : q = dquote \/ q = squote <-> is_quote q = true.
Proof. unfold is_quote. now rewrite orb_true_iff, !N.eqb_eq. Qed.

(** What stands before the quotes of an attribute. *)
Definition attr_front (a : cattr) : str := a_space a ++ a_key a ++ a_eq1 a ++ lit "=" ++ a_eq2 a.
Definition quoted (q : char) (s : str) : str := [q] ++ s ++ [q].
Lemma attr_print_front a : attr_print a = attr_front a ++ quoted (a_quote a) (a_raw a).
Proof. unfold attr_print, attr_front, quoted. now rewrite <- !app_assoc. Qed.
(** [attr_wf], with any condition on the value. *)
Definition attr_shape (R : str -> Prop) (a : cattr) : Prop :=
  a_space a <> [] /\ ws (a_space a) /\ plain_name (a_key a) /\ ws (a_eq1 a) /\ ws (a_eq2 a) /\
  (a_quote a = dquote \/ a_quote a = squote) /\ ~ In (a_quote a) (a_raw a) /\ R (a_raw a).
Section Shape.
Context {R : str -> Prop}.
Lemma attr_front_calm a : attr_shape R a -> calm (attr_front a).
Proof.
  intros (_ & H1 & H2 & H3 & H4 & _). unfold attr_front.
  repeat apply calm_app; try now apply ws_calm.
  - now apply chars_calm, xml_name_chars, plain_xml.
  - repeat constructor; discriminate.
Qed.
Lemma attr_quotes a : attr_shape R a -> open_quote None (attr_print a) = None /\ unquoted None (attr_print a) = attr_front a.
Proof.
  intro H. pose proof (attr_front_calm a H) as C. destruct H as (_ & _ & _ & _ & _ & Hq & Hr & _).
  apply quote_cases in Hq. destruct (quoted_open _ _ Hq Hr) as [Q1 Q2]. rewrite attr_print_front.
  unfold quoted. rewrite open_quote_app, unquoted_app, (calm_open _ C), (calm_unquoted _ C), Q1, Q2. now rewrite app_nil_r.
Qed.
Lemma attrs_quotes l : Forall (attr_shape R) l -> open_quote None (flat_map attr_print l) = None /\
  unquoted None (flat_map attr_print l) = flat_map attr_front l.
Proof.
  induction 1 as [|a l Ha Hl [IH1 IH2]]; [easy|]. cbn [flat_map]. destruct (attr_quotes a Ha) as [Q1 Q2].
  now rewrite open_quote_app, unquoted_app, Q1, Q2, IH1, IH2.
Qed.
Lemma attrs_calm l : Forall (attr_shape R) l -> calm (flat_map attr_front l).
Proof. induction 1 as [|a l Ha Hl IH]; [constructor|]. cbn [flat_map]. apply calm_app; [now apply attr_front_calm|easy]. Qed.
Lemma head_quotes nm l w : Forall name_char nm -> Forall (attr_shape R) l -> calm w ->
  quotes_closed (head_print nm l ++ w) /\ calm (unquoted None (head_print nm l ++ w)).
Proof.
  intros Hn Hl Hw. unfold head_print, quotes_closed. apply chars_calm in Hn. destruct (attrs_quotes l Hl) as [Q1 Q2].
  rewrite !open_quote_app, !unquoted_app, !open_quote_app, (calm_open _ Hn), Q1, (calm_open _ Hw), (calm_unquoted _ Hn), Q2, (calm_unquoted _ Hw).
  split; [easy|]. repeat apply calm_app; try easy. now apply attrs_calm.
Qed.

(** * Finding tags *)

Lemma elem_tag_at b rest : quotes_closed b -> ~ In gt_ (unquoted None b) ->
  match b with [] => True | c :: _ => c <> 33%N /\ c <> 63%N end ->
  tag_at (lit "<" ++ b ++ lit ">" ++ rest) (lit "<" ++ b ++ lit ">") rest.
Proof.
  intros Hq Hg Hh. apply ta_elem.
  - now exists (b ++ lit ">" ++ rest).
  - intros [r E]. destruct b as [|c b]; [discriminate|]. injection E as E _. easy.
  - intros [r E]. destruct b as [|c b]; [discriminate|]. injection E as E _. easy.
  - split; [now rewrite <- !app_assoc|]. split; [now exists b|].
    intros t' r' E (b' & -> & Hb'). rewrite <- !app_assoc in E. apply app_inv_head in E.
    destruct (app_eq_app _ _ _ _ E) as (z & [[E1 E2]|[E1 E2]]).
    + subst b. destruct z as [|z0 z].
      * rewrite app_nil_r. apply begins_refl.
      * exfalso. injection E2 as <- _. apply Hg. rewrite unquoted_app, Hb'. apply in_or_app. right. cbn. now left.
    + subst b'. destruct z as [|z0 z].
      * rewrite app_nil_r. apply begins_refl.
      * injection E2 as <- E2. exists (z ++ lit ">"). cbn. now rewrite <- !app_assoc.
Qed.
Lemma calm_no_gt s : calm s -> ~ In gt_ s.
Proof. intros H Hi. unfold calm in H. rewrite Forall_forall in H. now apply H in Hi. Qed.

(** * The tag check *)

Import Regex.
Lemma star_chars k s : Forall (fun c => cls_in k c = true) s -> matches (RStar (RCls k)) s.
Proof. induction 1 as [|c s Hc Hs IH]; [constructor|]. apply (m_star_cons _ [c] s); [now constructor|easy]. Qed.
Lemma star_any s : matches (RStar RAny) s.
Proof. apply star_chars. apply Forall_forall. intros c _. reflexivity. Qed.
Lemma char_match c : matches (RChar c) [c].
Proof. constructor. apply cls_spec. apply Exists_cons. left. split; apply N.le_refl. Qed.
Lemma seqs_cons r1 r2 l s t : matches r1 s -> matches (RSeqs (r2 :: l)) t -> matches (RSeqs (r1 :: r2 :: l)) (s ++ t).
Proof. intros H1 H2. now apply m_seq. Qed.
Lemma opt_none r : matches (ROpt r) [].
Proof. apply m_alt_r. constructor. Qed.
Lemma opt_some r s : matches r s -> matches (ROpt r) s.
Proof. intro. now apply m_alt_l. Qed.
Lemma name_match n : xml_name n -> exists c r, n = [c] ++ r /\ matches tpNS [c] /\ matches (RStar tpNC) r.
Proof.
  intros (c & r & -> & Hc & Hr). exists c, r. split; [easy|]. split.
  - constructor. now apply name_start_cls.
  - apply star_chars. eapply Forall_impl; [|exact Hr]. apply name_char_cls.
Qed.
Lemma ws_match w : ws w -> matches (RStar tpWS) w.
Proof. intro H. apply star_chars. eapply Forall_impl; [|exact H]. intros c Hc. now rewrite ws_ranges_spec. Qed.
Lemma ws_plus_match w : w <> [] -> ws w -> matches (RPlus tpWS) w.
Proof.
  intros N H. destruct H as [|c w Hc Hw]; [easy|]. apply (m_seq _ _ [c] w); [|now apply ws_match].
  constructor. now rewrite ws_ranges_spec.
Qed.
Lemma attr_match w k q s : w <> [] -> ws w -> xml_name k -> q = dquote \/ q = squote ->
  matches tpAttr (w ++ k ++ lit "=" ++ [q] ++ s ++ [q]).
Proof.
  intros N Hw Hk Hq. unfold tpAttr. apply seqs_cons; [now apply ws_plus_match|].
  destruct (name_match k Hk) as (c & r & -> & H1 & H2). rewrite <- app_assoc. apply seqs_cons; [easy|].
  apply seqs_cons; [easy|]. apply seqs_cons; [apply char_match|].
  assert (Q : matches (tpQuoted q) ([q] ++ s ++ [q])).
  { unfold tpQuoted. apply seqs_cons; [apply char_match|]. apply seqs_cons; [apply star_any|apply char_match]. }
  cbn [RSeqs]. destruct Hq as [-> | ->]; [now apply m_alt_l|now apply m_alt_r].
Qed.
Lemma unspaced_print a : unspaced a -> attr_print a = a_space a ++ a_key a ++ lit "=" ++ [a_quote a] ++ a_raw a ++ [a_quote a].
Proof. intros [H1 H2]. unfold attr_print. rewrite H1, H2. reflexivity. Qed.
Lemma attrs_match l : grouped l -> Forall (attr_shape R) l -> matches (RStar tpAttr) (flat_map attr_print l).
Proof.
  intro G. induction G as [|a l U G IH|a m z l U Ez G IH]; intro H; [constructor| |].
  - apply Forall_cons_iff in H. destruct H as [(H1 & H2 & H3 & _ & _ & H4 & _) Hl]. cbn [flat_map].
    apply m_star_cons; [|now apply IH]. rewrite unspaced_print by easy. apply attr_match; try easy. now apply plain_xml.
  - apply Forall_cons_iff in H. destruct H as [(H1 & H2 & H3 & _ & _ & H4 & _) Hl]. apply Forall_app in Hl.
    destruct Hl as [_ Hl]. apply Forall_cons_iff in Hl. destruct Hl as [_ Hl].
    cbn [flat_map]. rewrite flat_map_app. cbn [flat_map]. rewrite !app_assoc. apply m_star_cons; [|now apply IH].
    rewrite unspaced_print by easy. rewrite (attr_print_front z). unfold quoted. rewrite Ez.
    replace _ with (a_space a ++ a_key a ++ lit "=" ++ [a_quote a] ++
      (a_raw a ++ [a_quote a] ++ flat_map attr_print m ++ attr_front z ++ [a_quote a] ++ a_raw z) ++ [a_quote a])
      by now rewrite <- !app_assoc.
    apply attr_match; try easy. now apply plain_xml.
Qed.
Lemma check_ok s1 nm A w s2 : s1 = [] \/ s1 = lit "/" -> xml_name nm -> matches (RStar tpAttr) A -> ws w ->
  s2 = [] \/ s2 = lit "/" -> check_element_tag (lit "<" ++ s1 ++ nm ++ A ++ w ++ s2 ++ lit ">") = Ok tt.
Proof.
  intros H1 Hn HA Hw H2. unfold check_element_tag.
  assert (is_match tag_pattern (lit "<" ++ s1 ++ nm ++ A ++ w ++ s2 ++ lit ">") = true) as ->; [|easy].
  apply is_match_spec. exists [], (lit "<" ++ s1 ++ nm ++ A ++ w ++ s2 ++ lit ">"), []. split; [now rewrite app_nil_r|].
  assert (Sl : forall s, s = [] \/ s = lit "/" -> matches (ROpt (RChar 47%N)) s).
  { intros s [->| ->]; [apply opt_none|apply opt_some, char_match]. }
  destruct (name_match nm Hn) as (c & r & -> & N1 & N2). unfold tag_pattern. rewrite <- app_assoc.
  apply seqs_cons; [apply char_match|]. apply seqs_cons; [now apply Sl|]. apply seqs_cons; [easy|].
  apply seqs_cons; [easy|]. change (A ++ w ++ s2 ++ lit ">") with ([] ++ A ++ w ++ s2 ++ lit ">").
  apply seqs_cons; [apply opt_none|]. apply seqs_cons; [easy|]. apply seqs_cons; [now apply ws_match|].
  apply seqs_cons; [now apply Sl|]. apply char_match.
Qed.

(** * Stripping *)

Lemma strip_printed s1 h w s2 : s1 = [] \/ s1 = lit "/" -> s2 = [] \/ s2 = lit "/" -> ws w ->
  match h with [] => False | c :: _ => is_whitespace c = false /\ c <> 47%N end ->
  (exists a c, h = a ++ [c] /\ is_whitespace c = false /\ c <> 47%N) ->
  strip_tag (lit "<" ++ s1 ++ h ++ w ++ s2 ++ lit ">") = Ok h.
Proof.
  intros H1 H2 Hw Hh (a & c & Eh & Hc1 & Hc2). unfold strip_tag.
  rewrite starts_with_app. change 1 with (blen (lit "<")) at 1. rewrite slice_from_app. cbn [bind].
  assert (SL : forall y, (do tag <- (if starts_with (lit "/") (s1 ++ h ++ y) then slice_from (s1 ++ h ++ y) 1 else Ok (s1 ++ h ++ y));
    Ok tag) = Ok (h ++ y)).
  { intro y. destruct H1 as [->| ->].
    - destruct h as [|h0 h]; [easy|]. cbn [app]. rewrite starts_slash_cons.
      destruct (47 =? h0)%N eqn:E; [|easy]. apply N.eqb_eq in E. now subst.
    - rewrite starts_with_app. change 1 with (blen (lit "/")). now rewrite slice_from_app. }
  specialize (SL (w ++ s2 ++ lit ">")).
  destruct (if starts_with (lit "/") (s1 ++ h ++ w ++ s2 ++ lit ">") then _ else _) as [y| | |]; try discriminate.
  cbn [bind] in SL |- *. injection SL as ->.
  rewrite !app_assoc. rewrite ends_with_app. change 1 with (blen (lit ">")) at 1. rewrite slice_to_suffix. cbn [bind].
  assert (T : trim (h ++ w) = h).
  { apply (trim_surrounded [] w h); [easy|now apply all_ws_ws| |].
    - now destruct h.
    - rewrite Eh, rev_app_distr. cbn. easy. }
  destruct H2 as [->| ->].
  - rewrite app_nil_r. assert (ends_with (lit "/") (h ++ w) = false) as ->.
    { apply ends_with_false. intros z E. destruct (exists_last_or w) as [->|(w' & x & ->)].
      - rewrite app_nil_r, Eh in E. apply app_inj_tail in E. destruct E as [_ ->]. easy.
      - rewrite app_assoc in E. apply app_inj_tail in E. destruct E as [_ ->].
        apply Forall_app in Hw. destruct Hw as [_ Hw]. now inversion Hw. }
    cbn [bind]. now rewrite T.
  - rewrite ends_with_app. change 1 with (blen (lit "/")). rewrite slice_to_suffix. cbn [bind]. now rewrite T.
Qed.

Lemma xml_name_last n : xml_name n -> exists a c, n = a ++ [c] /\ name_char c.
Proof.
  intro H. apply xml_name_chars in H as C. destruct (exists_last_or n) as [->|(a & c & ->)].
  - now destruct H as (? & ? & ? & _).
  - apply Forall_app in C. destruct C as [_ C]. inversion C. now exists a, c.
Qed.
Lemma quote_odd q : q = dquote \/ q = squote -> is_whitespace q = false /\ q <> 47%N /\ q <> cEq.
Proof. intros [-> | ->]; repeat split; discriminate. Qed.
Lemma head_first nm l : xml_name nm -> match head_print nm l with
  | [] => False | c :: _ => is_whitespace c = false /\ c <> 47%N /\ c <> 33%N /\ c <> 63%N end.
Proof.
  intros (c & r & -> & H & _). cbn.
  destruct (name_char_odd c (or_introl H)) as (H1 & _ & _ & _ & H2 & _ & H3 & H4). easy.
Qed.
Lemma head_last nm l : xml_name nm -> Forall (attr_shape R) l ->
  exists a c, head_print nm l = a ++ [c] /\ is_whitespace c = false /\ c <> 47%N.
Proof.
  intros Hn Hl. unfold head_print. destruct (exists_last_or l) as [->|(l' & a & ->)].
  - destruct (xml_name_last nm Hn) as (a & c & -> & Hc). exists a, c. cbn. rewrite app_nil_r. split; [easy|].
    apply name_char_odd in Hc. easy.
  - rewrite flat_map_app. cbn [flat_map]. rewrite app_nil_r, attr_print_front. unfold quoted.
    apply Forall_app in Hl. destruct Hl as [_ Hl]. apply Forall_cons_iff in Hl. destruct Hl as [(_ & _ & _ & _ & _ & Hq & _) _].
    exists (nm ++ flat_map attr_print l' ++ attr_front a ++ [a_quote a] ++ a_raw a), (a_quote a).
    split; [now rewrite <- !app_assoc|]. apply quote_odd in Hq. easy.
Qed.

(** * Words *)

Lemma word_app w c s l : ws w -> c <> [] -> solid None c -> quotes_closed c -> words s l ->
  match s with [] => True | x :: _ => is_whitespace x = true end -> words (w ++ c ++ s) (c :: l).
Proof.
  intros Hw Hc Hs Hq W Hx. destruct s as [|x s].
  - assert (l = []) as -> by (apply (words_fun [] l []); [easy|apply wd_end; constructor]).
    rewrite app_nil_r. now apply wd_last.
  - now apply wd_word.
Qed.
Lemma calm_solid c : calm c -> Forall (fun x => is_whitespace x = false) c -> solid None c.
Proof. intros H1 H2. unfold solid. now rewrite calm_unquoted. Qed.
Lemma name_solid n : Forall name_char n -> solid None n /\ quotes_closed n.
Proof.
  intro H. apply chars_calm in H as C. split; [apply calm_solid; [easy|]|now apply calm_open].
  eapply Forall_impl; [|exact H]. intros c Hc. now apply name_char_odd.
Qed.
Lemma solid_app a b : solid None a -> quotes_closed a -> solid None b -> solid None (a ++ b).
Proof. intros H1 H2 H3. unfold solid. rewrite unquoted_app, H2. now apply Forall_app. Qed.
Lemma closed_app a b : quotes_closed a -> quotes_closed b -> quotes_closed (a ++ b).
Proof. intros H1 H2. unfold quotes_closed. now rewrite open_quote_app, H1. Qed.
Lemma quoted_solid q s : is_quote q = true -> ~ In q s -> solid None (quoted q s) /\ quotes_closed (quoted q s).
Proof.
  intros Hq H. destruct (quoted_open q s Hq H) as [H1 H2]. split; [|exact H1].
  unfold solid, quoted. rewrite H2. constructor.
Qed.
Lemma eq_solid : solid None (lit "=") /\ quotes_closed (lit "=").
Proof. split; [repeat constructor|reflexivity]. Qed.

(** The components of an attribute before they are joined, and after. *)
Definition pieces (a : cattr) : list str :=
  match a_eq1 a, a_eq2 a with
  | [], [] => [a_key a ++ lit "=" ++ quoted (a_quote a) (a_raw a)]
  | [], _ :: _ => [a_key a ++ lit "="; quoted (a_quote a) (a_raw a)]
  | _ :: _, [] => [a_key a; lit "=" ++ quoted (a_quote a) (a_raw a)]
  | _ :: _, _ :: _ => [a_key a; lit "="; quoted (a_quote a) (a_raw a)]
  end.
Definition joined (a : cattr) : str := a_key a ++ lit "=" ++ quoted (a_quote a) (a_raw a).

Lemma attr_words a s l : attr_shape R a -> words s l -> match s with [] => True | x :: _ => is_whitespace x = true end ->
  words (attr_print a ++ s) (pieces a ++ l).
Proof.
  intros (N & Hw & Hk & H1 & H2 & Hq & Hr & _) W Hx. apply quote_cases in Hq.
  apply plain_xml, xml_name_chars in Hk as Kc. destruct (name_solid _ Kc) as [K1 K2].
  assert (Kn : a_key a <> []) by (destruct Hk as (? & ? & -> & _); easy).
  destruct (quoted_solid _ _ Hq Hr) as [Q1 Q2]. destruct eq_solid as [E1 E2].
  rewrite attr_print_front. unfold attr_front, pieces. rewrite <- !app_assoc.
  destruct (a_eq1 a) as [|x1 w1] eqn:D1, (a_eq2 a) as [|x2 w2] eqn:D2; cbn [app] in *.
  - replace (a_space a ++ _) with (a_space a ++ (a_key a ++ lit "=" ++ quoted (a_quote a) (a_raw a)) ++ s) by now rewrite <- !app_assoc.
    apply word_app; try easy.
    + now destruct (a_key a).
    + apply solid_app; [easy..|]. now apply solid_app.
    + apply closed_app; [easy|]. now apply closed_app.
  - replace (a_space a ++ _) with (a_space a ++ (a_key a ++ lit "=") ++ (x2 :: w2) ++ quoted (a_quote a) (a_raw a) ++ s) by now rewrite <- !app_assoc.
    apply word_app; try easy.
    + now destruct (a_key a).
    + now apply solid_app.
    + now apply closed_app.
    + now apply word_app.
    + inversion H2. easy.
  - apply (word_app (a_space a) (a_key a) ((x1 :: w1) ++ (lit "=" ++ quoted (a_quote a) (a_raw a)) ++ s)); try easy.
    + apply word_app; try easy. now apply solid_app.
    + inversion H1. easy.
  - apply (word_app (a_space a) (a_key a) ((x1 :: w1) ++ lit "=" ++ (x2 :: w2) ++ quoted (a_quote a) (a_raw a) ++ s)); try easy.
    + apply word_app; try easy; [now apply word_app|]. inversion H2. easy.
    + inversion H1. easy.
Qed.
Lemma attrs_words l : Forall (attr_shape R) l -> words (flat_map attr_print l) (flat_map pieces l) /\
  match flat_map attr_print l with [] => True | x :: _ => is_whitespace x = true end.
Proof.
  induction 1 as [|a l Ha Hl [IH1 IH2]]; [split; [apply wd_end; constructor|easy]|]. cbn [flat_map].
  split; [now apply attr_words|]. destruct Ha as (N & Hw & _). unfold attr_print. destruct Hw; [easy|]. easy.
Qed.
Lemma head_words nm l : xml_name nm -> Forall (attr_shape R) l -> words (head_print nm l) (nm :: flat_map pieces l).
Proof.
  intros Hn Hl. unfold head_print. destruct (attrs_words l Hl) as [W1 W2].
  apply xml_name_chars in Hn as Hc. destruct (name_solid _ Hc). apply (word_app []); try easy.
  - constructor.
  - destruct Hn as (? & ? & -> & _). easy.
Qed.

(** * Joining *)

Lemma ends_eq a c : ends_with (lit "=") (a ++ [c]) = true -> c = cEq.
Proof.
  intro H. apply ends_spec in H. destruct H as [b E]. apply app_inj_tail in E. easy.
Qed.
Lemma ends_eq_false a c : c <> cEq -> ends_with (lit "=") (a ++ [c]) = false.
Proof. intro H. apply not_true_iff_false. intro E. now apply ends_eq in E. Qed.
Lemma starts_eq_false c r : c <> cEq -> starts_with (lit "=") (c :: r) = false.
Proof. intro H. apply not_true_iff_false. intro E. apply starts_with_spec in E. destruct E as [x E]. injection E as -> _. easy. Qed.
Lemma quoted_ends q s a : q <> cEq -> ends_with (lit "=") (a ++ quoted q s) = false.
Proof. intro H. unfold quoted. rewrite !app_assoc. now apply ends_eq_false. Qed.

Definition no_eq_first (T : list str) : Prop := match T with [] => True | p :: _ => starts_with (lit "=") p = false end.
Lemma join_attr a T : attr_shape R a -> no_eq_first T -> join_loop (pieces a ++ T) = joined a :: join_loop T.
Proof.
  intros (_ & _ & Hk & _ & _ & Hq & _) HT. apply quote_odd in Hq. destruct Hq as (_ & _ & Hq).
  apply plain_xml in Hk. destruct (xml_name_last _ Hk) as (ka & kc & Ek & Hc).
  apply name_char_odd in Hc. destruct Hc as (_ & _ & _ & _ & _ & Hc & _).
  set (Q := quoted (a_quote a) (a_raw a)).
  assert (J1 : forall x p T', T = p :: T' -> should_join (x ++ Q) p = false).
  { intros x p T' ->. unfold should_join. cbn [no_eq_first] in HT. rewrite HT. unfold Q. rewrite quoted_ends; easy. }
  assert (SQ : starts_with (lit "=") Q = false) by (apply starts_eq_false; easy).
  assert (Fin : forall x, join_loop ((x ++ Q) :: T) = (x ++ Q) :: join_loop T).
  { intro x. cbn [join_loop]. destruct T as [|p T']; [easy|]. now rewrite (J1 x p T' eq_refl). }
  unfold pieces, joined. fold Q. destruct (a_eq1 a) as [|x1 w1], (a_eq2 a) as [|x2 w2]; cbn [app].
  - replace (a_key a ++ lit "=" ++ Q) with ((a_key a ++ lit "=") ++ Q) by now rewrite <- app_assoc. apply Fin.
  - cbn [join_loop]. unfold should_join at 1. rewrite ends_with_app. cbn [orb].
    destruct T as [|p T']; [now rewrite <- app_assoc|]. rewrite (J1 _ p T' eq_refl). now rewrite <- app_assoc.
  - cbn [join_loop]. unfold should_join at 1. rewrite starts_with_app, orb_true_r.
    destruct T as [|p T']; [easy|]. rewrite app_assoc, (J1 _ p T' eq_refl). easy.
  - cbn [join_loop]. unfold should_join at 1. replace (starts_with (lit "=") (lit "=")) with true by reflexivity.
    rewrite orb_true_r. unfold should_join at 1. rewrite ends_with_app. easy.
Qed.
Lemma pieces_first a T : attr_shape R a -> no_eq_first (pieces a ++ T).
Proof.
  intros (_ & _ & (c & r & E & Hc & _) & _). unfold pieces. rewrite E.
  assert (c <> cEq) as N by (unfold cEq; lia).
  destruct (a_eq1 a), (a_eq2 a); cbn [app no_eq_first]; now apply starts_eq_false.
Qed.
Lemma join_attrs l : Forall (attr_shape R) l -> join_loop (flat_map pieces l) = map joined l.
Proof.
  induction 1 as [|a l Ha Hl IH]; [easy|]. cbn [flat_map map]. rewrite join_attr; [now rewrite IH|easy|].
  destruct Hl as [|b l Hb Hl]; [easy|]. cbn [flat_map]. now apply pieces_first.
Qed.
End Shape.
Definition value (raw : str) : str := match unescape raw with Ok v => v | _ => [] end.
Definition bindings (l : list cattr) : list (str * str) := map (fun a => (a_key a, value (a_raw a))) l.
Lemma attrs_read l : Forall attr_wf l -> reads_attrs (map joined l) (bindings l).
Proof.
  induction 1 as [|a l Ha Hl IH]; [constructor|]. cbn [map bindings].
  destruct Ha as (_ & _ & Hk & _ & _ & Hq & _ & (v & Hv)). unfold joined, quoted. apply ra_cons; [|easy| |easy].
  - apply plain_xml, xml_name_chars in Hk. rewrite Forall_forall in Hk. intro Hi. apply Hk, name_char_odd in Hi. easy.
  - unfold value. now rewrite Hv.
Qed.

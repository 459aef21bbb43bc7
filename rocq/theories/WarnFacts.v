(** The warnings printed are those of SpecWarn.v. *)
From Coq Require Import List NArith Arith Bool Ascii String Lia.
From Verif Require Import Base BaseFacts Escape Dom Spec EscapeFacts SpecDom DomFacts Regex ParseTree Parse SpecLex SpecParse SpecEsc
  LexFacts ParseFacts DocFacts TagFacts PosFacts SerFacts SpecDoc UnescFacts PrologFacts SpecErr ReadFacts ErrFacts StepFacts LoopFacts AppendFacts Warn SpecWarn.
Import ListNotations.

Lemma snd_and_then {A B} (x : outcome A) (f : A -> run B) : snd (and_then x f) = do a <- x; snd (f a).
Proof. now destruct x. Qed.
Lemma prolog_w_result : forall f buffer decl dtds n span, snd (prolog_loop_w f buffer decl dtds n span) = prolog_loop f buffer decl dtds n span.
Proof.
  induction f as [|f IH]; intros buffer decl dtds n span; [easy|]. cbn [prolog_loop_w prolog_loop].
  rewrite snd_and_then. destruct (next_tag buffer (snd span)) as [[[a|] [b|]]|x| |]; cbn [bind]; try easy.
  rewrite snd_and_then. destruct (slice buffer (snd span) a) as [tx|x| |]; cbn [bind]; try easy.
  rewrite snd_and_then. destruct (real_text tx) as [[v|]|x| |]; cbn [bind]; try easy.
  rewrite snd_and_then. destruct (slice buffer a b) as [t|x| |]; cbn [bind]; try easy.
  destruct (starts_with (lit "<?xml") t).
  { destruct (fst span =? 0); cbn [negb]; [|easy]. rewrite snd_and_then. destruct (declaration_from_str t); try easy. cbn [bind]. apply IH. }
  destruct (starts_with (lit "<!--") t).
  { destruct (n =? 0); [|apply IH]. rewrite snd_and_then. destruct (abbreviate t 32); try easy. cbn [bind say snd]. apply IH. }
  destruct (starts_with (lit "<!DOCTYPE") t).
  { rewrite snd_and_then. destruct (dtd_from_string t); try easy. cbn [bind]. apply IH. }
  destruct (starts_with (lit "<!") t); [cbn [say snd]; apply IH|].
  destruct (starts_with (lit "</") t); [easy|]. rewrite snd_and_then. now destruct (map_err (check_element_tag t) _).
Qed.
Theorem parse_w_result s : snd (parse_str_w s) = parse_str s.
Proof. unfold parse_str_w, parse_str. cbn [snd]. now rewrite prolog_w_result. Qed.

Definition prolog_tag_w (f : nat) (buffer : str) (decl : option str) (dtds : list str) (n : nat) (st tag_start tag_end : nat)
  (slc : str) : run (option str * list str * (nat * nat)) :=
  if starts_with (lit "<?xml") slc then
    if negb (st =? 0) then quiet (Err (perr PDeclNotFirst buffer tag_start))
    else and_then (declaration_from_str slc) (fun d => prolog_loop_w f buffer (Some d) dtds n (tag_start, tag_end))
  else if starts_with (lit "<!--") slc then
    let next := prolog_loop_w f buffer decl dtds (S n) (tag_start, tag_end) in
    if n =? 0 then and_then (abbreviate slc 32) (fun what => say (comment_warning what) next) else next
  else if starts_with (lit "<!DOCTYPE") slc then
    and_then (dtd_from_string slc) (fun d => prolog_loop_w f buffer decl (dtds ++ [d]) n (tag_start, tag_end))
  else if starts_with (lit "<!") slc then say (ignored_warning slc) (prolog_loop_w f buffer decl dtds n (tag_start, tag_end))
  else if starts_with (lit "</") slc then quiet (Err (perr PStartsWithClose buffer tag_start))
  else
    and_then (map_err (check_element_tag slc) (fun _ => perr PInvalidSyntax buffer tag_start)) (fun _c =>
    quiet (Ok (decl, dtds, (tag_start, tag_end)))).
Lemma prolog_step_w f pre txt s t rest decl dtds n st : no_tag txt -> tag_at s t rest ->
  prolog_loop_w (S f) (pre ++ txt ++ s) decl dtds n (st, blen pre) =
  and_then (real_text txt) (fun rt =>
  match rt with
  | Some _ => quiet (Err (perr PTextOutsideRoot (pre ++ txt ++ s) (blen pre)))
  | None => prolog_tag_w f ((pre ++ txt ++ t) ++ rest) decl dtds n st (blen pre + blen txt) (blen (pre ++ txt ++ t)) t
  end).
Proof.
  intros Hn T. cbn [prolog_loop_w snd fst]. rewrite (next_tag_at pre txt s t rest Hn T). cbn [and_then].
  destruct (tag_at_nonempty _ _ _ T) as [-> _].
  rewrite slice_app. cbn [and_then].
  destruct (real_text txt) as [[rt|]| | |]; [easy| |easy..]. cbn [and_then].
  replace (pre ++ txt ++ t ++ rest) with ((pre ++ txt) ++ t ++ rest) by now rewrite <- !app_assoc.
  rewrite <- blen_app, slice_app. cbn [and_then]. unfold prolog_tag_w.
  rewrite <- !blen_app, <- !app_assoc. easy.
Qed.

(** [toks] and then [toks'], with the warnings [l] for the latter. *)
Inductive warns_more : list (str * str) -> list (str * str) -> list str -> Prop :=
| wm_nil toks : warns_more toks toks []
| wm_tag toks txt t toks' l l' : tag_warns toks t l -> warns_more (toks ++ [(txt, t)]) toks' l' -> warns_more toks toks' (l ++ l').
Lemma warns_more_warns toks toks' l l' : warns toks l -> warns_more toks toks' l' -> warns toks' (l ++ l').
Proof.
  intros W M. revert l W. induction M as [toks|toks txt t toks' l1 l2 T M IH]; intros l W; [now rewrite app_nil_r|].
  rewrite app_assoc. apply IH. now apply wn_tag.
Qed.
(** No further tag of the prolog. *)
Definition prolog_over (toks : list (str * str)) (rest : str) : Prop :=
  forall txt t r rest', next_tag_is rest txt t r rest' -> ws txt -> ~ prolog_fine toks t.

Lemma broken_next pre s : broken s -> exists pos, next_tag (pre ++ s) (blen pre) = Ok (Some pos, None).
Proof.
  intros [txt s' Hn L Hno]. exists (blen pre + blen txt).
  destruct (next_tag_spec pre (txt ++ s')) as [Hs|txt' s'' E Hn' L' Hno'|txt' s'' t' rest' E Hn' T'].
  - exfalso. apply Hs. destruct L as [x ->]. apply in_or_app. right. now left.
  - destruct (split_lt _ _ _ _ Hn Hn' L L' E) as [-> _]. easy.
  - exfalso. destruct (split_lt _ _ _ _ Hn Hn' L (tag_at_lt _ _ _ T') E) as [-> ->]. now apply (Hno t' rest').
Qed.
Lemma prolog_w_warns : forall f pre s decl dtds n st toks, reads (pre ++ s) (Before toks) s ->
  (pre = [] <-> toks = []) -> (st = 0 <-> declaration_allowed toks) -> (n = 0 <-> no_comment_in toks) -> blen s < f ->
  exists toks' rest, reads (pre ++ s) (Before toks') rest /\ prolog_over toks' rest /\
    warns_more toks toks' (fst (prolog_loop_w f (pre ++ s) decl dtds n (st, blen pre))).
Proof.
  induction f as [|f IH]; intros pre s decl dtds n st toks R Hpre Hst Hcm Hf; [lia|].
  destruct (lex_cases s) as [Hn|[Hb|(txt & s' & t & rest & -> & Hn & T & Hlt)]].
  - exists toks, s. split; [easy|]. split; [intros txt t r rest' N; no_next|].
    cbn [prolog_loop_w snd]. rewrite (next_tag_none pre s Hn). cbn. constructor.
  - destruct (broken_loops f pre s false st pt_new Hb) as (r & loc & U & _).
    exists toks, s. split; [easy|]. split; [intros txt t r' rest' N; no_next|].
    destruct (broken_next pre s Hb) as [pos E1].
    cbn [prolog_loop_w snd]. rewrite E1. cbn. constructor.
  - rewrite (prolog_step_w f pre txt s' t rest decl dtds n st Hn T).
    assert (Nx : next_tag_is (txt ++ s') txt t s' rest) by easy.
    assert (Stop : (ws txt -> ~ prolog_fine toks t) -> forall x, exists toks' rest0, reads (pre ++ txt ++ s') (Before toks') rest0 /\
      prolog_over toks' rest0 /\ warns_more toks toks' (fst (@quiet (option str * list str * (nat * nat)) x))).
    { intros H x. exists toks, (txt ++ s'). split; [easy|]. split; [|constructor]. intros txt0 t0 r0 rest0 N0 W. same_next. auto. }
    destruct (real_text_cases txt) as [[B E]|[(B & v & U & E)|(B & U & E)]]; rewrite E; cbn [and_then].
    2,3: now apply Stop.
    destruct (tag_at_nonempty _ _ _ T) as [Et Ht].
    assert (Es : (pre ++ txt ++ t) ++ rest = pre ++ txt ++ s') by (rewrite Et; now rewrite <- !app_assoc).
    assert (Lt : blen t <> 0) by (intro Z; now apply blen_nil in Z).
    assert (Lr : blen rest < f) by (rewrite Et, !blen_app in Hf; lia).
    assert (Hp' : pre ++ txt ++ t = [] <-> toks ++ [(txt, t)] = []).
    { split; intro Z; [|now destruct toks]. apply app_eq_nil in Z. destruct Z as [_ Z]. apply app_eq_nil in Z. now destruct Z. }
    assert (Hst' : blen pre + blen txt = 0 <-> declaration_allowed (toks ++ [(txt, t)])).
    { split.
      - intro Z. assert (pre = []) as Z1 by (apply blen_nil; lia). assert (txt = []) as -> by (apply blen_nil; lia).
        apply Hpre in Z1. subst toks. right. now exists t.
      - intros [Z|[t' Z]]; [now destruct toks|]. destruct toks as [|y toks].
        + injection Z as -> _. rewrite (proj2 Hpre eq_refl). easy.
        + injection Z as _ Z. now destruct toks. }
    assert (Rec : forall decl dtds n' l, prolog_fine toks t -> (n' = 0 <-> no_comment_in (toks ++ [(txt, t)])) -> tag_warns toks t l ->
      exists toks' rest0, reads (pre ++ txt ++ s') (Before toks') rest0 /\ prolog_over toks' rest0 /\
      warns_more toks toks' (l ++ fst (prolog_loop_w f ((pre ++ txt ++ t) ++ rest) decl dtds n' (blen pre + blen txt, blen (pre ++ txt ++ t))))).
    { intros decl0 dtds0 n' l Fi Hn' Wl.
      assert (R2 : reads (pre ++ txt ++ s') (Before (toks ++ [(txt, t)])) rest) by (eapply rd_prolog; eassumption).
      rewrite <- Es in R2. destruct (IH _ _ decl0 dtds0 n' _ _ R2 Hp' Hst' Hn' Lr) as (toks' & rest' & R3 & O3 & W3).
      exists toks', rest'. rewrite <- Es. split; [easy|]. split; [easy|]. now apply wm_tag with txt t. }
    clear IH. unfold prolog_tag_w.
    assert (SameN : ~ begins (lit "<!--") t -> (n = 0 <-> no_comment_in (toks ++ [(txt, t)]))).
    { intro Nc. rewrite Hcm, no_comment_more. tauto. }
    destruct (starts_with (lit "<?xml") t) eqn:E1.
    { apply begins_spec in E1. destruct (st =? 0) eqn:Z; cbn [negb].
      - apply Nat.eqb_eq in Z. destruct (decl_ok _ _ _ T E1) as (d & _ & _ & Ed). rewrite Ed. cbn [and_then].
        apply (Rec _ _ _ []).
        + split; [now right|]. split; [intros _; now apply Hst|]. intros [G _]. exfalso. revert E1 G. clear. intros [a ->] [b E]. discriminate.
        + apply SameN. intro G. revert E1 G. clear. intros [a ->] [b E]. discriminate.
        + now apply tw_declaration.
      - apply Nat.eqb_neq in Z. apply Stop. intros _ (_ & G & _). apply Z, Hst. auto. }
    apply begins_false in E1.
    destruct (starts_with (lit "<!--") t) eqn:E2.
    { apply begins_spec in E2.
      assert (PL : prolog_like t) by (left; now apply comment_bang).
      assert (N2 : S n = 0 <-> no_comment_in (toks ++ [(txt, t)])).
      { rewrite no_comment_more. split; [discriminate|]. now intros [_ ?]. }
      destruct (n =? 0) eqn:Z.
      - apply Nat.eqb_eq in Z. assert (F1 : first_comment toks t) by (split; [easy|now apply Hcm]).
        destruct (abbreviate_outcome t) as [what H|H]; cbn [and_then say fst].
        + apply (Rec _ _ _ [_]); [|easy|now apply tw_comment]. split; [easy|]. split; [intro G; contradiction|]. intros _. now exists what.
        + apply Stop. intros _ (_ & _ & G). destruct (G F1) as [w Hw]. now apply (H w).
      - apply Nat.eqb_neq in Z. assert (F1 : ~ first_comment toks t) by (intros [_ G]; now apply Z, Hcm).
        apply (Rec _ _ _ []); [|easy|now apply tw_comment_again]. split; [easy|]. split; [intro G; contradiction|]. intro G. contradiction. }
    apply begins_false in E2.
    assert (Fi : begins (lit "<!") t -> prolog_fine toks t).
    { intro G. split; [now left|]. split; [intro; contradiction|]. intros [? _]. contradiction. }
    destruct (starts_with (lit "<!DOCTYPE") t) eqn:E3.
    { apply begins_spec in E3. destruct (dtd_ok _ _ _ T E3) as (d & _ & Ed). rewrite Ed. cbn [and_then].
      apply (Rec _ _ _ []); [|now apply SameN|now apply tw_doctype].
      apply Fi. apply (begins_trans _ (lit "<!DOCTYPE")); [now exists (lit "DOCTYPE")|easy]. }
    apply begins_false in E3.
    destruct (starts_with (lit "<!") t) eqn:E4.
    { apply begins_spec in E4. cbn [say fst]. apply (Rec _ _ _ [_]); [now apply Fi|now apply SameN|now apply tw_ignored]. }
    apply begins_false in E4. clear Rec.
    assert (NP : ~ prolog_like t) by now intros [?|?].
    assert (St : ws txt -> ~ prolog_fine toks t) by (intros _ [? _]; contradiction).
    destruct (starts_with (lit "</") t); [now apply Stop|].
    destruct (map_err (check_element_tag t) _); now apply Stop.
Qed.

(** * The tags of the prolog *)

Lemma steps_linear c a b : steps c a -> steps c b -> steps a b \/ steps b a.
Proof.
  induction 1 as [c|c d a H1 H2 IH]; intro Hb; [now left|].
  destruct Hb as [|d' b H1' Hb]; [right; now apply ss_step with d|]. rewrite (step_fun _ _ _ H1' H1) in Hb. now apply IH.
Qed.
Lemma steps_from_before c d : steps c d -> forall toks' rest', d = (Before toks', rest') ->
  exists toks rest, c = (Before toks, rest) /\ (c = d \/ exists more, toks' = toks ++ more /\ ~ prolog_over toks rest).
Proof.
  induction 1 as [c|c e d H1 H2 IH]; intros toks' rest' ->.
  - exists toks', rest'. auto.
  - destruct (IH _ _ eq_refl) as (toks & rest & -> & Ho). inversion H1 as [toks0 rest0 txt t r rest1 N W F| | |]; subst.
    exists toks0, rest0. split; [easy|]. right. destruct Ho as [Ho|(more & -> & _)].
    + injection Ho as <- <-. exists [(txt, t)]. split; [easy|]. intro O. exact (O _ _ _ _ N W F).
    + exists ((txt, t) :: more). rewrite <- app_assoc. split; [easy|]. intro O. exact (O _ _ _ _ N W F).
Qed.
Lemma prolog_over_tags s toks rest : reads s (Before toks) rest -> prolog_over toks rest -> prolog_tags s toks.
Proof.
  intros R O. split; [now exists rest|]. intros toks' rest' R'. apply reads_steps in R, R'.
  destruct (steps_linear _ _ _ R R') as [H|H]; destruct (steps_from_before _ _ H _ _ eq_refl) as (toks0 & rest0 & E & [Ho|(more & E2 & N)]);
    injection E as <- <-.
  - injection Ho as <- <-. exists []. now rewrite app_nil_r.
  - contradiction.
  - injection Ho as <- <-. exists []. now rewrite app_nil_r.
  - now exists more.
Qed.
Lemma prolog_tags_fun s a b : prolog_tags s a -> prolog_tags s b -> a = b.
Proof.
  intros [[r Ra] Ha] [[r' Rb] Hb]. destruct (Ha _ _ Rb) as [m E]. destruct (Hb _ _ Ra) as [m' E'].
  rewrite E' in E. rewrite <- app_assoc in E. rewrite <- (app_nil_r a) in E at 1. apply app_inv_head in E.
  apply eq_sym, app_eq_nil in E. destruct E as [-> _]. now rewrite app_nil_r in E'.
Qed.
Theorem parse_w_warns s : exists toks, prolog_tags s toks /\ warns toks (fst (parse_str_w s)).
Proof.
  unfold parse_str_w. cbn [fst].
  destruct (prolog_w_warns (S (blen s)) [] s None [] 0 0 [] (rd_start s)) as (toks & rest & R & O & W); try easy.
  - split; [now left|easy].
  - lia.
  - exists toks. split; [now apply prolog_over_tags with rest|]. exact (warns_more_warns _ _ [] _ wn_nil W).
Qed.
Theorem parse_warnings s toks : prolog_tags s toks -> warns toks (fst (parse_str_w s)).
Proof. intro P. destruct (parse_w_warns s) as (toks' & P' & W). now rewrite (prolog_tags_fun _ _ _ P P'). Qed.
Lemma tag_warns_fun toks t l l' : tag_warns toks t l -> tag_warns toks t l' -> l = l'.
Proof.
  assert (X : forall t, begins (lit "<!DOCTYPE") t -> begins (lit "<!") t /\ ~ begins (lit "<!--") t).
  { intros u H. split; [apply (begins_trans _ (lit "<!DOCTYPE")); [now exists (lit "DOCTYPE")|easy]|]. destruct H as [z ->]. intros [y E]. discriminate. }
  intros H H'. destruct H as [w F S|B N1 N2|B F|B|B]; destruct H' as [w' F' S'|B' N1' N2'|B' F'|B'|B']; try easy;
    try (now destruct F); try (now destruct F'); try contradiction;
    try (destruct F as [F _]); try (destruct F' as [F' _]); try (apply X in B; now destruct B); try (apply X in B'; now destruct B');
    try kinds; try kind_clash.
  now rewrite (shortened_fun _ _ _ S S').
Qed.
Lemma warns_fun toks l l' : warns toks l -> warns toks l' -> l = l'.
Proof.
  intro H. revert l'. induction H as [|toks txt t l1 l2 W IH T]; intros l' H'.
  - inversion H' as [|toks txt t a b W T E]; [easy|]. now destruct toks.
  - inversion H' as [E|toks' txt' t' a b W' T' E]; subst; [now destruct toks|].
    apply app_inj_tail in E. destruct E as [-> E]. injection E as -> ->. now rewrite (IH _ W'), (tag_warns_fun _ _ _ _ T T').
Qed.

(** * Indents *)

Theorem elem_to_string_w_spec e i : snd (elem_to_string_w e i) = elem_to_string_with_indent e i /\
  (good_indent i -> fst (elem_to_string_w e i) = []) /\ (~ good_indent i -> fst (elem_to_string_w e i) = [i]).
Proof.
  unfold elem_to_string_w, elem_to_string_with_indent. destruct (validate_indent i) eqn:V; (split; [easy|]).
  - apply validate_indent_spec in V. tauto.
  - apply validate_indent_false in V. tauto.
Qed.
Theorem doc_to_string_w_spec d i : snd (doc_to_string_w d i) = doc_to_string_with_indent d i /\
  (good_indent i -> fst (doc_to_string_w d i) = []) /\ (~ good_indent i -> fst (doc_to_string_w d i) = [i]).
Proof.
  unfold doc_to_string_w, doc_to_string_with_indent. cbn [fst snd].
  set (j := if validate_indent i then i else default_indent).
  assert (G : good_indent j).
  { unfold j. destruct (validate_indent i) eqn:V; [now apply validate_indent_spec|]. right. now repeat constructor. }
  destruct (elem_to_string_w_spec (d_root d) j) as (-> & H & _). rewrite (H G), app_nil_r. split; [easy|].
  destruct (validate_indent i) eqn:V.
  - apply validate_indent_spec in V. tauto.
  - apply validate_indent_false in V. tauto.
Qed.

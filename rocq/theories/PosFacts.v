(** Error positions and termination. *)
From Coq Require Import List NArith Arith Bool Ascii String Lia.
From Verif Require Import Base BaseFacts Escape Dom Spec EscapeFacts SpecDom DomFacts SpecApi ApiFacts
  ParseTree SpecTree ParseTreeFacts Parse SpecLex SpecParse LexFacts ParseFacts DocFacts TagFacts AcceptFacts.
Import ListNotations.

(** * Lines and columns *)

Lemma last_line_exists s : exists l, last_line s l.
Proof.
  induction s as [|c s [l [N H]]] using rev_ind; [exists []; now split; [easy|left]|].
  destruct (N.eq_dec c newline) as [->|E].
  - exists []. split; [easy|]. right. now exists s.
  - exists (l ++ [c]). split.
    + intro I. apply in_app_or in I. destruct I as [I|[I|[]]]; congruence.
    + destruct H as [->|[a ->]]; [now left|]. right. exists a. now rewrite <- !app_assoc.
Qed.
Lemma last_line_snoc_nl s l : last_line (s ++ [newline]) l -> l = [].
Proof.
  intros [N [E|[a E]]].
  - exfalso. apply N. rewrite <- E. apply in_or_app. right. now left.
  - destruct l as [|c l _] using rev_ind; [easy|]. exfalso. apply N.
    rewrite !app_assoc in E. apply app_inj_tail in E. destruct E as [_ <-]. apply in_or_app. right. now left.
Qed.
Lemma last_line_snoc s l c : c <> newline -> last_line (s ++ [c]) l -> exists l', l = l' ++ [c] /\ last_line s l'.
Proof.
  intros Hc [N [E|[a E]]].
  - exists s. split; [easy|]. split; [|now left]. intro I. apply N. rewrite <- E. apply in_or_app. now left.
  - destruct l as [|x l _] using rev_ind.
    + apply app_inj_tail in E. now destruct E.
    + rewrite !app_assoc in E. apply app_inj_tail in E. destruct E as [-> <-]. exists l. split; [easy|].
      split; [intro I; apply N, in_or_app; now left|]. right. exists a. now rewrite <- app_assoc.
Qed.
Lemma newlines_app a b : newlines (a ++ b) = newlines a + newlines b.
Proof. apply count_occ_app. Qed.

Definition lc_step (lc : nat * nat) (x : char) : nat * nat :=
  if (x =? newline)%N then (S (fst lc), 1) else (fst lc, S (snd lc)).
Lemma lc_from a : forall b i (c : char) line col, 
  line_and_column_from (a ++ c :: b) i (i + blen a) line col =
  fold_left lc_step (a ++ [c]) (line, col).
Proof.
  induction a as [|x a IH]; intros b i c line col.
  - cbn [app line_and_column_from blen fold_left]; unfold lc_step at 1; cbn [fst snd]. rewrite Nat.add_0_r, Nat.leb_refl. easy.
  - cbn [app line_and_column_from blen fold_left].
    pose proof (len_utf8_pos x) as Px.
    replace (i + (len_utf8 x + blen a) <=? i) with false by (symmetry; apply Nat.leb_gt; lia).
    rewrite Nat.add_assoc, IH. f_equal. unfold lc_step. cbn [fst snd]. change cNL with newline. now destruct (x =? newline)%N.
Qed.
Lemma fold_lc s l : last_line s l -> 
  fold_left lc_step s (1, 1) =
  (1 + newlines s, 1 + List.length l).
Proof.
  revert l. induction s as [|c s IH] using rev_ind; intros l H.
  - destruct H as [_ [<-|[a E]]]; [easy|]. now destruct a.
  - rewrite fold_left_app. destruct (last_line_exists s) as [l0 H0]. rewrite (IH _ H0). cbn [fold_left]; unfold lc_step; cbn [fst snd].
    rewrite newlines_app. destruct (N.eqb_spec c newline) as [->|E].
    + rewrite (last_line_snoc_nl _ _ H). cbn. f_equal. lia.
    + destruct (last_line_snoc _ _ _ E H) as (l' & -> & H'). pose proof (IH _ H') as R. rewrite (IH _ H0) in R.
      injection R as R. rewrite app_length. cbn [List.length].
      replace (newlines [c]) with 0 by (unfold newlines; now rewrite count_occ_cons_neq).
      f_equal; lia.
Qed.
Theorem line_and_column_spec a c b l : last_line (a ++ [c]) l ->
  line_and_column (a ++ c :: b) (blen a) = (1 + newlines (a ++ [c]), 1 + List.length l).
Proof. intro H. unfold line_and_column. change (blen a) with (0 + blen a). rewrite (lc_from a b 0 c 1 1). now apply fold_lc. Qed.
Lemma located_lc s pos a r : s = a ++ r -> r <> [] -> pos = blen a ->
  located s pos (fst (line_and_column s pos)) (snd (line_and_column s pos)).
Proof.
  intros -> Hr ->. destruct r as [|c b]; [easy|]. destruct (last_line_exists (a ++ [c])) as [l H].
  exists a, c, b, l. rewrite (line_and_column_spec a c b l H). now repeat split; try apply H.
Qed.

(** * Positions carried by errors *)

Lemma bind_err {A B} (x : outcome A) (f : A -> outcome B) e :
  bind x f = Err e -> x = Err e \/ exists a, x = Ok a /\ f a = Err e.
Proof. destruct x; cbn; intro H; try discriminate; [right; now exists a|left; congruence]. Qed.
Definition here (buffer : str) (pos : nat) (x : error) : Prop :=
  forall lc, reported x = Some lc -> lc = line_and_column buffer pos.
Definition silent (x : error) : Prop := reported x = None.
Lemma silent_here b p x : silent x -> here b p x.
Proof. intros H lc E. unfold silent in H. congruence. Qed.
Lemma perr_here m b p : here b p (perr m b p).
Proof. intros lc E. now injection E. Qed.
Lemma at_pos_here b p x : (forall what loc, x <> NotSupportedError what (Some loc)) -> here b p (at_pos b p x).
Proof.
  intro H. destruct x; try (intros lc E; discriminate).
  - apply perr_here.
  - intros lc E. cbn in E. subst. now destruct (H what lc).
Qed.
Lemma map_err_here {A} (r : outcome A) b p x : map_err r (at_pos b p) = Err x ->
  (forall y, r = Err y -> silent y) -> here b p x.
Proof.
  intros E H. destruct r as [a|y| |]; try discriminate. injection E as <-. apply at_pos_here.
  intros what loc ->. now specialize (H _ eq_refl).
Qed.
Lemma parse_attrs_here b p x : forall comps acc, parse_attrs comps b p acc = Err x -> here b p x.
Proof.
  induction comps as [|kv comps IH]; intros acc H; [discriminate|]. cbn [parse_attrs] in H.
  destruct (negb _); [injection H as <-; apply perr_here|].
  apply bind_err in H. destruct H as [H|(kv' & _ & H)].
  { destruct (split_once cEq kv); discriminate. }
  destruct (_ =? 0); [injection H as <-; apply perr_here|].
  destruct (_ || _); [injection H as <-; apply perr_here|].
  apply bind_err in H. destruct H as [H|(v & _ & H)].
  { unfold slice in H. destruct (_ <=? _); [|discriminate]. apply bind_err in H. destruct H as [H|(y & _ & H)].
    - unfold slice_from in H. now destruct (bskip _ _).
    - unfold slice_to in H. now destruct (btake _ _). }
  apply bind_err in H. destruct H as [H|(v' & _ & H)].
  { now destruct (unescape_returns v) as [[w E]|E]; rewrite E in H. }
  now apply IH in H.
Qed.

Lemma convert_err x : forall given attrs, convert_attrs given attrs = Err x -> silent x.
Proof.
  induction given as [|[k v] given IH]; intros attrs H; [discriminate|]. cbn [convert_attrs] in H.
  apply bind_err in H. destruct H as [H|([] & _ & H)]; [|now apply IH in H].
  unfold check_attr_name in H. destruct (name_regex k); [discriminate|]. now injection H as <-.
Qed.
Lemma element_new_err nm attrs xmlns prefix x : element_new nm None attrs xmlns prefix None = Err x -> silent x.
Proof.
  unfold element_new. intro H.
  apply bind_err in H. destruct H as [H|([] & _ & H)].
  { unfold check_elem_name in H. destruct (name_regex nm); [discriminate|]. now injection H as <-. }
  apply bind_err in H. destruct H as [H|(a & _ & H)]; [|discriminate].
  destruct attrs; [now apply convert_err in H|discriminate].
Qed.
Lemma new_element_here b buffer pos top x : parse_new_element b buffer pos top = Err x -> here buffer pos x.
Proof.
  unfold parse_new_element. destruct (join_spaced_attributes _) as [|nm comps]; intro H.
  { injection H as <-. apply perr_here. }
  apply bind_err in H. destruct H as [H|(attrs & _ & H)]; [now apply parse_attrs_here in H|].
  apply bind_err in H. destruct H as [H|([[nm' xm] px] & _ & H)].
  { destruct (split_once cColon nm) as [[a c]|]; [|discriminate]. destruct (ahas _ _); [discriminate|].
    destruct (match top with None => None | Some p => Some (get_namespace_context p) end); [discriminate|].
    injection H as <-. apply perr_here. }
  apply bind_err in H. destruct H as [H|(e & _ & H)]; [|discriminate].
  now apply silent_here, (element_new_err _ _ _ _ _ H).
Qed.

Lemma add_child_err data pos id x : pt_add_child data pos id <> Err x.
Proof. unfold pt_add_child. destruct (dget pos data); discriminate. Qed.
Lemma append_err t n x : pt_append t n = Err x -> silent x.
Proof.
  unfold pt_append. destruct (t_pos t) as [p|]; intro H; [|now injection H as <-].
  apply bind_err in H. destruct H as [H|(d & _ & H)]; [now apply add_child_err in H|discriminate].
Qed.
Lemma push_err t e x : pt_push t e = Err x -> silent x.
Proof.
  unfold pt_push. destruct (t_pos t) as [p|]; intro H; [|discriminate].
  apply bind_err in H. destruct H as [H|(d & _ & H)]; [now apply add_child_err in H|discriminate].
Qed.
Lemma pop_err t x : pt_pop t = Err x -> silent x.
Proof.
  unfold pt_pop. destruct (t_pos t) as [p|]; intro H; [|now injection H as <-].
  apply bind_err in H. destruct H as [H|(d & _ & H)]; [|discriminate]. now destruct (dget p _).
Qed.
Lemma top_err t x : pt_top_element t <> Err x.
Proof.
  unfold pt_top_element. destruct (t_pos t) as [p|]; [|discriminate]. intro H.
  apply bind_err in H. destruct H as [H|(d & _ & H)]; [now destruct (dget p _)|].
  apply bind_err in H. destruct H as [H|(d' & _ & H)]; [|discriminate]. now destruct (as_element _).
Qed.
Lemma slice_from_err s i x : slice_from s i <> Err x.
Proof. unfold slice_from. now destruct (bskip i s). Qed.
Lemma slice_err s i j x : slice s i j <> Err x.
Proof.
  unfold slice. destruct (_ <=? _); [|discriminate]. intro H. apply bind_err in H. destruct H as [H|(y & _ & H)].
  - now apply slice_from_err in H.
  - unfold slice_to in H. now destruct (btake _ _).
Qed.
Lemma abbreviate_err t k x : abbreviate t k <> Err x.
Proof.
  unfold abbreviate. destruct (_ || _); [easy|]. intro H.
  apply bind_err in H. destruct H as [H|(y & _ & H)]; [now apply slice_err in H|].
  apply bind_err in H. destruct H as [H|(z & _ & H)]; [now apply slice_from_err in H|discriminate].
Qed.
Lemma comment_err c x : comment_new c = Err x -> silent x.
Proof. unfold comment_new. destruct (contains _ _); [|discriminate]. now intros [= <-]. Qed.
Lemma cdata_err c x : cdata_new c = Err x -> silent x.
Proof. unfold cdata_new. destruct (contains _ _); [|discriminate]. now intros [= <-]. Qed.

Lemma parse_tag_here buffer slc pos t x : parse_tag buffer slc pos t = Err x -> here buffer pos x.
Proof.
  unfold parse_tag. destruct (_ && _).
  { destruct (_ <? _).
    - intro H. apply bind_err in H. destruct H as [H|(c & _ & H)]; [now apply slice_err in H|].
      apply bind_err in H. destruct H as [H|(c' & _ & H)]; [now apply silent_here, (comment_err _ _ H)|].
      apply map_err_here in H; [easy|]. intro y. apply append_err.
    - destruct (_ =? _); intro H; [|injection H as <-; apply perr_here].
      apply bind_err in H. destruct H as [H|(c' & _ & H)]; [now apply silent_here, (comment_err _ _ H)|].
      now apply silent_here, (append_err _ _ _ H). }
  destruct (starts_with (lit "<![CDATA[") slc).
  { destruct (negb _); intro H; [injection H as <-; apply perr_here|].
    apply bind_err in H. destruct H as [H|(c & _ & H)]; [now apply slice_err in H|].
    apply bind_err in H. destruct H as [H|(c' & _ & H)]; [now apply silent_here, (cdata_err _ _ H)|].
    apply map_err_here in H; [easy|]. intro y. apply append_err. }
  destruct (starts_with (lit "<!") slc).
  { intro H. apply bind_err in H. destruct H as [H|(c & _ & H)]; [now apply abbreviate_err in H|].
    injection H as <-. intros lc E. now injection E. }
  destruct (strip_tag_ok slc) as [b Eb]. rewrite Eb. cbn [bind]. intro H.
  apply bind_err in H. destruct H as [H|([] & _ & H)].
  { apply map_err_here in H; [easy|]. intros y. unfold check_element_tag.
    destruct (Regex.is_match _ _); [discriminate|]. now intros [= <-]. }
  destruct (starts_with (lit "</") slc).
  - apply bind_err in H. destruct H as [H|(top & _ & H)]; [now apply top_err in H|].
    destruct top as [e|]; [|injection H as <-; apply perr_here].
    destruct (negb _); [injection H as <-; apply perr_here|]. now apply silent_here, (pop_err _ _ H).
  - apply bind_err in H. destruct H as [H|(top & _ & H)]; [now apply top_err in H|].
    apply bind_err in H. destruct H as [H|(e & _ & H)]; [now apply new_element_here in H|].
    destruct (ends_with _ _).
    + apply map_err_here in H; [easy|]. intro y. apply append_err.
    + now apply silent_here, (push_err _ _ _ H).
Qed.

(** * The loops *)

Definition tag_reported (s : str) (x : error) : Prop :=
  forall lc, reported x = Some lc -> exists pos, tag_starts s pos /\ lc = line_and_column s pos.
Lemma here_reported s pos x : tag_starts s pos -> here s pos x -> tag_reported s x.
Proof. intros T H lc E. exists pos. split; [easy|now apply H]. Qed.
Lemma silent_reported s x : silent x -> tag_reported s x.
Proof. intros H lc E. unfold silent in H. congruence. Qed.

Lemma broken_error f pre s sc st tr : broken s -> 
  exists txt r, s = txt ++ r /\ no_tag txt /\ begins (lit "<") r /\
    content_loop (S f) (pre ++ s) sc (st, blen pre) tr = Err (perr PInvalidSyntax (pre ++ s) (blen pre + blen txt)) /\
    forall decl dtds n, prolog_loop (S f) (pre ++ s) decl dtds n (st, blen pre) = Err (perr PNoClose (pre ++ s) (blen pre + blen txt)).
Proof.
  intros [txt s' Hn L Hno]. exists txt, s'. split; [easy|]. split; [easy|]. split; [exact L|]. cbn [content_loop snd].
  pose proof (next_tag_spec pre (txt ++ s')) as R.
  assert (E : next_tag (pre ++ txt ++ s') (blen pre) = Ok (Some (blen pre + blen txt), None)).
  { destruct R as [Hs|txt' s'' E Hn' L' Hno'|txt' s'' t' rest' E Hn' T'].
    - exfalso. apply Hs. destruct L as [x ->]. apply in_or_app. right. now left.
    - destruct (split_lt _ _ _ _ Hn Hn' L L' E) as [-> _]. easy.
    - exfalso. destruct (split_lt _ _ _ _ Hn Hn' L (tag_at_lt _ _ _ T') E) as [-> ->].
      now apply (Hno t' rest'). }
  split.
  - now rewrite E.
  - intros decl dtds n. cbn [prolog_loop snd]. now rewrite E.
Qed.
Lemma starts_intro s pre toks txt r : s = pre ++ txt ++ r -> lexed s toks (txt ++ r) -> no_tag txt -> begins (lit "<") r ->
  tag_starts s (blen pre + blen txt).
Proof.
  intros E L N B. exists toks, txt, r. split; [easy|]. split; [easy|]. split; [easy|].
  rewrite E, !blen_app. lia.
Qed.
Lemma lexed_more s toks txt t rest s' : lexed s toks (txt ++ s') -> no_tag txt -> tag_at s' t rest ->
  lexed s (toks ++ [(txt, t)]) rest.
Proof. intros L N T. apply lexed_app with (txt ++ s'); [easy|]. apply lx_tag with rest; [easy|easy|apply lx_nil]. Qed.

Lemma content_reported : forall f pre s sc st t x toks, lexed (pre ++ s) toks s ->
  content_loop f (pre ++ s) sc (st, blen pre) t = Err x -> tag_reported (pre ++ s) x.
Proof.
  induction f as [|f IH]; intros pre s sc st t x toks L H; [discriminate|].
  destruct (lex_cases s) as [Hn|[Hb|(txt & s' & tg & rest & -> & Hn & T & Hlt)]].
  - rewrite content_end in H by easy. discriminate.
  - destruct (broken_error f pre s sc st t Hb) as (txt & r & -> & Hn & B & E & _). rewrite E in H. injection H as <-.
    apply here_reported with (blen pre + blen txt); [|apply perr_here]. now apply starts_intro with toks r.
  - assert (St : tag_starts (pre ++ txt ++ s') (blen pre + blen txt)).
    { apply starts_intro with toks s'; [easy|easy|easy|]. exact (tag_at_lt _ _ _ T). }
    rewrite (content_step f pre txt s' tg rest sc st t Hn T) in H. destruct sc.
    { injection H as <-. apply here_reported with (blen pre + blen txt); [easy|apply perr_here]. }
    apply bind_err in H. destruct H as [H|(t1 & _ & H)].
    { destruct (real_text_cases txt) as [[B R]|[(B & v & U & R)|(B & U & R)]]; rewrite R in H; cbn [bind] in H; try discriminate.
      apply here_reported with (blen pre + blen txt); [easy|]. apply map_err_here in H; [easy|]. intro y. apply append_err. }
    apply bind_err in H. destruct H as [H|(t2 & _ & H)].
    { apply here_reported with (blen pre + blen txt); [easy|]. now apply parse_tag_here in H. }
    pose proof (lexed_more _ _ _ _ _ _ L Hn T) as L'. destruct (tag_at_nonempty _ _ _ T) as [-> _].
    replace (pre ++ txt ++ tg ++ rest) with ((pre ++ txt ++ tg) ++ rest) in * by now rewrite <- !app_assoc.
    now apply (IH _ _ _ _ _ _ (toks ++ [(txt, tg)])) in H.
Qed.
Definition text_reported (s : str) (x : error) : Prop :=
  exists lc pos, x = ParsingError PTextOutsideRoot (Some lc) /\ text_starts s pos /\ lc = line_and_column s pos.
Lemma prolog_reported : forall f pre s decl dtds n st x toks, lexed (pre ++ s) toks s ->
  prolog_loop f (pre ++ s) decl dtds n (st, blen pre) = Err x -> tag_reported (pre ++ s) x \/ text_reported (pre ++ s) x.
Proof.
  induction f as [|f IH]; intros pre s decl dtds n st x toks L H; [discriminate|].
  destruct (lex_cases s) as [Hn|[Hb|(txt & s' & t & rest & -> & Hn & T & Hlt)]].
  - cbn [prolog_loop snd] in H. rewrite (next_tag_none pre s Hn) in H. injection H as <-. left. now apply silent_reported.
  - destruct (broken_error f pre s false st pt_new Hb) as (txt & r & -> & Hn & B & _ & E). rewrite E in H. injection H as <-.
    left. apply here_reported with (blen pre + blen txt); [|apply perr_here]. now apply starts_intro with toks r.
  - assert (St : tag_starts (pre ++ txt ++ s') (blen pre + blen txt)).
    { apply starts_intro with toks s'; [easy|easy|easy|]. exact (tag_at_lt _ _ _ T). }
    rewrite (prolog_step f pre txt s' t rest decl dtds n st Hn T) in H.
    assert (Rec : forall decl dtds n st, prolog_loop f ((pre ++ txt ++ t) ++ rest) decl dtds n (st, blen (pre ++ txt ++ t)) = Err x ->
      tag_reported (pre ++ txt ++ s') x \/ text_reported (pre ++ txt ++ s') x).
    { intros decl0 dtds0 n0 st0 H0.
      pose proof (lexed_more _ _ _ _ _ _ L Hn T) as L'. destruct (tag_at_nonempty _ _ _ T) as [-> _].
      replace (pre ++ txt ++ t ++ rest) with ((pre ++ txt ++ t) ++ rest) in * by now rewrite <- !app_assoc.
      now apply (IH _ _ _ _ _ _ _ (toks ++ [(txt, t)])) in H0. }
    destruct (real_text_cases txt) as [[B R]|[(B & v & U & R)|(B & U & R)]]; rewrite R in H; cbn [bind] in H; [| |discriminate].
    2:{ injection H as <-. right. exists (line_and_column (pre ++ txt ++ s') (blen pre)), (blen pre).
        split; [easy|]. split; [|easy]. exists toks, txt, s'. split; [easy|]. split; [easy|]. split; [easy|].
        rewrite !blen_app. lia. }
    unfold prolog_tag in H.
    assert (Es : (pre ++ txt ++ t) ++ rest = pre ++ txt ++ s').
    { destruct (tag_at_nonempty _ _ _ T) as [-> _]. now rewrite <- !app_assoc. }
    assert (Here : forall m, tag_reported (pre ++ txt ++ s') (perr m ((pre ++ txt ++ t) ++ rest) (blen pre + blen txt))).
    { intro m. rewrite Es. apply here_reported with (blen pre + blen txt); [easy|apply perr_here]. }
    destruct (starts_with (lit "<?xml") t) eqn:E1.
    { destruct (negb _); [injection H as <-; left; apply Here|].
      apply bind_err in H. destruct H as [H|(d & _ & H)]; [|now apply Rec in H].
      apply begins_spec in E1. destruct (decl_ok _ _ _ T E1) as (d & _ & _ & Ed). congruence. }
    destruct (starts_with (lit "<!--") t).
    { apply bind_err in H. destruct H as [H|(d & _ & H)]; [|now apply Rec in H].
      destruct (n =? 0); [|discriminate]. apply bind_err in H. destruct H as [H|(a & _ & H)]; [now apply abbreviate_err in H|discriminate]. }
    destruct (starts_with (lit "<!DOCTYPE") t) eqn:E3.
    { apply bind_err in H. destruct H as [H|(d & _ & H)]; [|now apply Rec in H].
      apply begins_spec in E3. destruct (dtd_ok _ _ _ T E3) as (d & _ & Ed). congruence. }
    destruct (starts_with (lit "<!") t); [now apply Rec in H|].
    destruct (starts_with (lit "</") t); [injection H as <-; left; apply Here|].
    apply bind_err in H. destruct H as [H|(d & _ & H)]; [|discriminate].
    destruct (check_element_tag t); try discriminate. injection H as <-. left; apply Here.
Qed.

Lemma to_dom_err t x : pt_to_dom t = Err x -> silent x.
Proof.
  unfold pt_to_dom. destruct (t_data t); [now intros [= <-]|]. intro H.
  assert (Ap : forall e v x, append e v <> Err x).
  { intros e v y. now rewrite append_eq. }
  assert (Ex : forall n x, expect (as_element n) <> Err x) by (intros [] y; discriminate).
  assert (Un : forall (o : option elem) x, unwrap o <> Err x) by (intros [] y; discriminate).
  apply bind_err in H. destruct H as [H|(d & _ & H)].
  - exfalso. revert H. assert (G : forall k data, to_dom_loop k data <> Err x); [|apply G].
    induction k as [|k IH]; intros data H; [discriminate|]. cbn [to_dom_loop] in H.
    apply bind_err in H. destruct H as [H|(d & _ & H)]; [|now apply IH in H].
    unfold to_dom_step in H.
    apply bind_err in H. destruct H as [H|(a & _ & H)]; [now destruct (dget _ _)|].
    apply bind_err in H. destruct H as [H|(b & _ & H)]; [now destruct (pt_parent _)|].
    apply bind_err in H. destruct H as [H|(c & _ & H)]; [now destruct (dget _ _)|].
    apply bind_err in H. destruct H as [H|(e & _ & H)]; [now apply Ex in H|].
    apply bind_err in H. destruct H as [H|(g & _ & H)]; [now apply Ap in H|discriminate].
  - apply bind_err in H. destruct H as [H|(a & _ & H)]; [now destruct (dget _ _)|].
    apply bind_err in H. destruct H as [H|(b & _ & H)]; [now apply Ex in H|discriminate].
Qed.

Lemma tag_located s pos : tag_starts s pos -> exists a b, s = a ++ lit "<" ++ b /\ pos = blen a.
Proof.
  intros (toks & txt & r & L & N & [b ->] & E). apply lexed_flatten in L. rewrite app_assoc in L.
  exists (flatten toks ++ txt), b. split; [now rewrite L, <- !app_assoc|].
  rewrite L, (blen_app (flatten toks ++ txt)) in E. lia.
Qed.
Lemma text_located s pos : text_starts s pos -> exists a r, s = a ++ r /\ r <> [] /\ pos = blen a.
Proof.
  intros (toks & txt & r & L & N & W & E). apply lexed_flatten in L.
  exists (flatten toks), (txt ++ r). split; [easy|]. split.
  - intro H. apply app_eq_nil in H. destruct H as [-> _]. apply W. constructor.
  - rewrite L, blen_app in E. lia.
Qed.

Theorem parse_reported s x : parse_str s = Err x -> tag_reported s x \/ text_reported s x.
Proof.
  intro H. unfold parse_str in H. set (f := S (blen s)) in H.
  assert (Hf : blen s < f) by (unfold f; lia). clearbody f. cbv zeta in H.
  pose proof (prolog_spec f [] s None [] 0 0 Hf) as PR. cbn [app blen] in PR.
  apply bind_err in H. destruct H as [H|([[decl dtds] span] & HP & H)].
  { now apply (prolog_reported f [] s None [] 0 0 x []) in H; [|apply lx_nil]. }
  rewrite HP in PR. inversion PR as [toks txt t rest decl' dtds' L P B R E| |]. subst decl' dtds' span. clear PR HP.
  cbn [fst snd] in H. left.
  assert (Es : s = flatten toks ++ txt ++ t ++ rest).
  { pose proof (lexed_flatten _ _ _ L) as Es. rewrite Es. unfold flatten at 1. rewrite flat_map_app. cbn.
    now rewrite app_nil_r, <- !app_assoc. }
  assert (St : tag_starts s (0 + blen (flatten toks) + blen txt)).
  { destruct (lexed_split _ _ _ _ L) as (mid & L1 & L2).
    inversion L2 as [|txt' s' t' rest' ? ? Hn T L3]; subst. exists toks, txt, s'.
    split; [easy|]. split; [easy|]. split; [exact (tag_at_lt _ _ _ T)|].
    pose proof (lexed_flatten _ _ _ L1) as E1. rewrite E1 at 1. rewrite !blen_app. lia. }
  apply bind_err in H. destruct H as [H|(rs & Ers & H)]; [now apply slice_err in H|].
  destruct (strip_tag_ok rs) as [b Eb]. rewrite Eb in H. cbn [bind] in H.
  apply bind_err in H. destruct H as [H|(e & _ & H)].
  { apply here_reported with (0 + blen (flatten toks) + blen txt); [easy|]. now apply new_element_here in H. }
  apply bind_err in H. destruct H as [H|(t1 & _ & H)]; [now apply silent_reported, (push_err _ _ _ H)|].
  apply bind_err in H. destruct H as [H|(t2 & _ & H)].
  { destruct (ends_with _ _); [now apply silent_reported, (pop_err _ _ H)|discriminate]. }
  apply bind_err in H. destruct H as [H|(t3 & _ & H)].
  { assert (Pos : 0 + blen (flatten toks) + blen txt + blen t = blen (flatten toks ++ txt ++ t))
      by (rewrite !blen_app; lia). cbn [Nat.add] in Pos, H. rewrite Pos in H.
    replace (flatten toks ++ txt ++ t ++ rest) with ((flatten toks ++ txt ++ t) ++ rest) in Es by now rewrite <- !app_assoc.
    rewrite Es in H |- *. apply content_reported with (toks := toks ++ [(txt, t)]) in H; [easy|]. now rewrite <- Es. }
  destruct (negb _); [injection H as <-; now apply silent_reported|].
  apply bind_err in H. destruct H as [H|(e' & _ & H)]; [|discriminate].
  now apply silent_reported, (to_dom_err _ _ H).
Qed.

Theorem error_located s x line col : parse_str s = Err x -> reported x = Some (line, col) ->
  exists pos, located s pos line col /\
    (tag_starts s pos \/ text_starts s pos /\ x = ParsingError PTextOutsideRoot (Some (line, col))).
Proof.
  intros H R. apply parse_reported in H. destruct H as [H|(lc & pos & -> & T & E)].
  - destruct (H _ R) as (pos & T & E). exists pos. split; [|now left].
    destruct (tag_located _ _ T) as (a & b & Es & Ep).
    pose proof (located_lc s pos a (lit "<" ++ b) Es ltac:(easy) Ep) as Lc. rewrite <- E in Lc. exact Lc.
  - cbn in R. injection R as ->. exists pos. split; [|now right].
    destruct (text_located _ _ T) as (a & r & Es & Hr & Ep).
    pose proof (located_lc s pos a r Es Hr Ep) as Lc. rewrite <- E in Lc. exact Lc.
Qed.

(** * Termination *)

Theorem parse_terminates s : parse_str s <> Fuel.
Proof. intro H. pose proof (parse_str_result s) as R. rewrite H in R. inversion R. Qed.

Lemma slice_from_inv s i t : slice_from s i = Ok t -> exists pre, s = pre ++ t /\ i = blen pre.
Proof.
  unfold slice_from. destruct (bskip i s) as [r|] eqn:E; [|discriminate]. intros [= ->].
  revert i E. induction s as [|c s IH]; intros i E.
  - destruct i as [|i]; [|discriminate]. injection E as <-. now exists [].
  - destruct i as [|i]; [injection E as <-; now exists []|]. cbn [bskip] in E.
    destruct (len_utf8 c <=? S i) eqn:El; [|discriminate]. apply Nat.leb_le in El.
    apply IH in E. destruct E as (pre & -> & E). exists (c :: pre). split; [easy|]. cbn [blen]. lia.
Qed.
Theorem next_tag_progress s from a b : next_tag s from = Ok (Some a, Some b) ->
  from <= a /\ a < b /\ b <= blen s.
Proof.
  intro H. destruct (slice_from s from) as [t| | |] eqn:E; try (unfold next_tag in H; now rewrite E in H).
  apply slice_from_inv in E. destruct E as (pre & -> & ->). pose proof (next_tag_spec pre t) as R. rewrite H in R.
  inversion R as [| |txt' s'' t' rest' E Hn' T']; subst.
  destruct (tag_at_nonempty _ _ _ T') as [-> Ht].
  assert (1 <= blen t').
  { destruct t' as [|c t']; [easy|]. cbn. pose proof (len_utf8_pos c). lia. }
  rewrite !blen_app. lia.
Qed.
Lemma prolog_fuel : forall f g s decl dtds n st p, f <= g -> prolog_loop f s decl dtds n (st, p) <> Fuel ->
  prolog_loop g s decl dtds n (st, p) = prolog_loop f s decl dtds n (st, p).
Proof.
  induction f as [|f IH]; intros g s decl dtds n st p Hg H; [easy|]. destruct g as [|g]; [lia|].
  cbn [prolog_loop] in *.
  destruct (next_tag s (snd (st, p))) as [[[a|] [b|]]| | |]; try easy. cbn [bind] in *.
  destruct (slice s (snd (st, p)) a) as [txt| | |]; try easy. cbn [bind] in *.
  destruct (real_text txt) as [[rt|]| | |]; try easy. cbn [bind] in *.
  destruct (slice s a b) as [t| | |]; try easy. cbn [bind] in *.
  destruct (starts_with (lit "<?xml") t).
  { destruct (negb _); [easy|]. destruct (declaration_from_str t); try easy. cbn [bind] in *. now apply IH; [lia|]. }
  destruct (starts_with (lit "<!--") t).
  { match goal with |- bind ?x _ = _ => destruct x; try easy end. cbn [bind] in *. now apply IH; [lia|]. }
  destruct (starts_with (lit "<!DOCTYPE") t).
  { destruct (dtd_from_string t); try easy. cbn [bind] in *. now apply IH; [lia|]. }
  destruct (starts_with (lit "<!") t); [now apply IH; [lia|]|]. easy.
Qed.
Lemma content_fuel : forall f g s sc st p t, f <= g -> content_loop f s sc (st, p) t <> Fuel ->
  content_loop g s sc (st, p) t = content_loop f s sc (st, p) t.
Proof.
  induction f as [|f IH]; intros g s sc st p t Hg H; [easy|]. destruct g as [|g]; [lia|].
  cbn [content_loop] in *.
  destruct (next_tag s (snd (st, p))) as [[[a|] [b|]]| | |]; try easy. cbn [bind] in *.
  destruct sc; [easy|].
  destruct (slice s (snd (st, p)) a) as [txt| | |]; try easy. cbn [bind] in *.
  destruct (real_text txt) as [rt| | |]; try easy. cbn [bind] in *.
  match goal with |- bind ?x _ = _ => destruct x; try easy end. cbn [bind] in *.
  destruct (slice s a b) as [tg| | |]; try easy. cbn [bind] in *.
  destruct (parse_tag s tg a a0); try easy. cbn [bind] in *. now apply IH; [lia|].
Qed.

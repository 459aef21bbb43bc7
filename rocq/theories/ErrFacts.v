(** The parser reads exactly as SpecErr.v says. *)
From Coq Require Import List NArith Arith Bool Ascii String Lia.
From Verif Require Import Base BaseFacts Escape Dom Spec EscapeFacts SpecDom DomFacts SpecApi ApiFacts Regex RegexFacts
  ParseTree SpecTree ParseTreeFacts Parse SpecLex SpecParse SpecEsc LexFacts ParseFacts DocFacts TagFacts AcceptFacts PosFacts
  DocProps SpecDoc UnescFacts PrintFacts PrintDoc PrologFacts ParsedFacts NsFacts FormFacts SpecErr ReadFacts.
Import ListNotations.

(** * Attributes *)

Lemma is_quote_cases q : is_quote q = true <-> q = cDq \/ q = cSq.
Proof. unfold is_quote. rewrite orb_true_iff, !N.eqb_eq. easy. Qed.
Lemma in_eq_contains kv : contains (lit "=") kv = true <-> In cEq kv.
Proof.
  rewrite contains_spec. split.
  - apply occurs_char.
  - intro H. apply in_split in H. destruct H as (a & b & ->). now exists a, b.
Qed.
Lemma should_join_spec a b : should_join a b = true <-> ends (lit "=") a \/ begins (lit "=") b.
Proof. unfold should_join. now rewrite orb_true_iff, ends_spec, begins_spec. Qed.
Lemma should_join_sticks a b l : should_join a b = true <-> sticks a (b :: l).
Proof.
  rewrite should_join_spec. split.
  - intro H. now exists b, l.
  - intros (b' & l' & E & H). now injection E as <- <-.
Qed.
Lemma not_join_sticks a b l : should_join a b = false -> ~ sticks a (b :: l).
Proof. intros H S. apply should_join_sticks in S. congruence. Qed.
Lemma sticks_nil a : ~ sticks a [].
Proof. intros (b & l & E & _). discriminate. Qed.
Lemma join_loop_joined : forall n comps, List.length comps <= n -> joined comps (join_loop comps).
Proof.
  induction n as [|n IH]; intros comps L; [destruct comps; [constructor|cbn in L; lia]|].
  destruct comps as [|a rest1]; [constructor|]. cbn [List.length] in L. cbn [join_loop].
  destruct rest1 as [|b rest2]; [apply jn_one; [apply sticks_nil|constructor]|]. cbn [List.length] in L.
  destruct (should_join a b) eqn:J1.
  2:{ apply jn_one; [now apply not_join_sticks|]. apply IH. cbn. lia. }
  destruct rest2 as [|c rest3].
  { apply jn_two; [now apply should_join_sticks|apply sticks_nil|constructor]. }
  cbn [List.length] in L. destruct (should_join (a ++ b) c) eqn:J2.
  - apply jn_three; [now apply should_join_sticks|now apply should_join_sticks|apply IH; lia].
  - apply jn_two; [now apply should_join_sticks|now apply not_join_sticks|apply IH; cbn; lia].
Qed.

Inductive attrs_outcome (comps : list str) (buffer : str) (pos : nat) (acc : amap) : outcome amap -> Prop :=
| ao_ok l : Forall2 attr_reads comps l -> attrs_outcome comps buffer pos acc (Ok (set_all l acc))
| ao_err good l kv more m : comps = good ++ kv :: more -> Forall2 attr_reads good l -> attr_bad kv m ->
    attrs_outcome comps buffer pos acc (Err (perr m buffer pos))
| ao_panic good l kv more : comps = good ++ kv :: more -> Forall2 attr_reads good l -> attr_crashes kv ->
    attrs_outcome comps buffer pos acc Panic.
Lemma parse_attrs_outcome buffer pos : forall comps acc, attrs_outcome comps buffer pos acc (parse_attrs comps buffer pos acc).
Proof.
  induction comps as [|kv comps IH]; intro acc; [apply (ao_ok [] buffer pos acc []); constructor|].
  cbn [parse_attrs]. destruct (contains (lit "=") kv) eqn:C; cbn [negb].
  2:{ apply (ao_err _ _ _ _ [] [] kv comps); [easy|constructor|]. apply ab_form. intro G. apply in_eq_contains in G. congruence. }
  destruct (split_once cEq kv) as [[k v]|] eqn:Sp; cbn [unwrap bind fst snd].
  2:{ exfalso. apply split_once_none in Sp. now apply in_eq_contains in C. }
  apply split_once_some in Sp. destruct Sp as [E Hk].
  destruct (blen v =? 0) eqn:L0.
  { apply Nat.eqb_eq, blen_nil in L0. subst v. apply (ao_err _ _ _ _ [] [] kv comps); [easy|constructor|]. now apply ab_no_value with k. }
  apply Nat.eqb_neq in L0.
  destruct ((blen v <? 2) || _) eqn:Q.
  { apply (ao_err _ _ _ _ [] [] kv comps); [easy|constructor|]. apply ab_no_quotes with k v; [easy|easy| |].
    - intros ->. now apply L0.
    - intros u (q & Hq & ->). apply is_quote_cases in Hq. apply orb_true_iff in Q. destruct Q as [Q|Q].
      + apply Nat.ltb_lt in Q. rewrite !blen_app in Q. pose proof (blen_length [q]) as L. cbn [List.length] in L. lia.
      + apply negb_true_iff in Q. apply orb_false_iff in Q. destruct Q as [Q1 Q2].
        destruct Hq as [-> | ->].
        * rewrite starts_with_app, app_assoc, ends_with_app in Q1. discriminate.
        * rewrite starts_with_app, app_assoc, ends_with_app in Q2. discriminate. }
  apply orb_false_iff in Q. destruct Q as [Q1 Q2]. apply Nat.ltb_ge in Q1. apply negb_false_iff, orb_true_iff in Q2.
  assert (exists u, in_quotes v u /\ slice v 1 (blen v - 1) = Ok u) as (u & Iq & Sv).
  { destruct Q2 as [Q2|Q2]; apply andb_true_iff in Q2; destruct Q2 as [Qa Qb].
    - destruct (quoted_slice cDq v eq_refl Qa Qb Q1) as (u & Hu & Su). exists u. split; [now exists cDq|easy].
    - destruct (quoted_slice cSq v eq_refl Qa Qb Q1) as (u & Hu & Su). exists u. split; [now exists cSq|easy]. }
  rewrite Sv. cbn [bind]. destruct (unescape_returns u) as [[w Ew]|Ew]; rewrite Ew; cbn [bind].
  - apply unescape_exact in Ew. assert (R : attr_reads kv (k, w)) by (now exists v, u).
    destruct (IH (aset k w acc)) as [l F|good l kv' more m -> F B|good l kv' more -> F B].
    + apply (ao_ok _ _ _ _ ((k, w) :: l)). now constructor.
    + apply (ao_err _ _ _ _ (kv :: good) ((k, w) :: l) kv' more); [easy|now constructor|easy].
    + apply (ao_panic _ _ _ _ (kv :: good) ((k, w) :: l) kv' more); [easy|now constructor|easy].
  - apply unescape_exact in Ew. apply (ao_panic _ _ _ _ [] [] kv comps); [easy|constructor|]. now exists k, v, u.
Qed.

Lemma reads_attrs_same comps l' : Forall2 attr_reads comps l' -> forall l, reads_attrs comps l -> l' = l.
Proof.
  induction 1 as [|kv x comps l' H F IH]; intros l Rl; inversion Rl as [|k q u v cs l0 Hk Hq U R0]; subst; [easy|].
  f_equal; [|now apply IH]. apply (attr_reads_fun (k ++ lit "=" ++ [q] ++ u ++ [q])); [easy|].
  exists ([q] ++ u ++ [q]), u. cbn [fst snd]. split; [easy|]. split; [easy|]. split; [exists q; split; [now apply is_quote_cases|easy]|].
  now apply unescape_exact.
Qed.
Lemma in_aset k v a b m : In (k, v) (aset a b m) -> (k = a /\ v = b) \/ In (k, v) m.
Proof.
  unfold aset. induction m as [|[x y] m IH]; cbn [mset].
  - intros [H|[]]. injection H as -> ->. now left.
  - destruct (str_eqb a x) eqn:E.
    + apply str_eqb_eq in E. subst x. intros [H|H]; [injection H as -> ->; now left|right; now right].
    + intros [H|H]; [right; now left|]. destruct (IH H) as [G|G]; [now left|right; now right].
Qed.
Lemma set_all_in k v : forall l acc, In (k, v) (set_all l acc) -> In (k, v) l \/ In (k, v) acc.
Proof.
  induction l as [|[k' v'] l IH]; intros acc H; [now right|]. cbn [set_all fold_left fst snd] in H.
  apply IH in H. destruct H as [H|H]; [left; now right|].
  apply in_aset in H. destruct H as [[-> ->]|H]; [left; now left|now right].
Qed.
Lemma set_all_has k : forall l acc, In k (map fst l) \/ In k (akeys acc) -> In k (akeys (set_all l acc)).
Proof.
  induction l as [|[k' v'] l IH]; intros acc H; [now destruct H|]. cbn [set_all fold_left fst snd].
  apply IH. rewrite akeys_aset. destruct H as [[H|H]|H]; [|now left|]; right; [left; now symmetry|now right].
Qed.
Lemma set_all_keys k l : In k (akeys (set_all l [])) <-> In k (map fst l).
Proof.
  split; [|intro H; apply set_all_has; now left].
  intro H. apply in_map_iff in H. destruct H as ([k' v] & E & H). cbn in E. subst k'. apply set_all_in in H. destruct H as [H|[]].
  apply in_map_iff. now exists (k, v).
Qed.
Lemma convert_attrs_err x : forall given acc, convert_attrs given acc = Err x ->
  exists k v, In (k, v) given /\ ~ valid_name k /\ x = InvalidAttributeName k.
Proof.
  induction given as [|[k v] given IH]; intros acc H; [discriminate|]. cbn [convert_attrs] in H.
  apply bind_err in H. destruct H as [H|([] & _ & H)].
  - unfold check_attr_name in H. destruct (name_regex k) eqn:E; [discriminate|]. injection H as <-.
    apply name_regex_false in E. exists k, v. split; [now left|easy].
  - apply IH in H. destruct H as (k' & v' & A & B). exists k', v'. split; [now right|easy].
Qed.
Lemma convert_attrs_cases : forall given acc, (exists m, convert_attrs given acc = Ok m /\ Forall (fun x => valid_name (fst x)) given) \/
  (exists x, convert_attrs given acc = Err x).
Proof.
  induction given as [|[k v] given IH]; intro acc; cbn [convert_attrs]; [left; eexists; split; [reflexivity|constructor]|].
  unfold check_attr_name. destruct (name_regex k) eqn:E; cbn [bind]; [|right; now eexists].
  destruct (IH (aset k v acc)) as [(m & Em & F)|(x & Ex)].
  - left. exists m. split; [easy|]. constructor; [now apply name_regex_spec|easy].
  - right. now exists x.
Qed.

(** * Tags of elements *)

(** No quote is left open in a tag. *)
Definition elementish (t : str) : Prop := exists b, t = lit "<" ++ b ++ lit ">" /\ quotes_closed b.
Lemma tag_elementish s t rest : tag_at s t rest -> ~ begins (lit "<!") t -> elementish t.
Proof.
  intros T N. destruct (tag_at_nonempty _ _ _ T) as [E Ht].
  assert (K : forall p q, begins (lit "<!") p -> 2 <= List.length q -> ends q t -> begins p s -> False).
  { intros p q [x ->] Lq [a ->] [r Hr]. apply N. rewrite Hr in E. cbn in E. destruct a as [|a0 [|a1 a]].
    - destruct q as [|q0 [|q1 q]]; cbn in Lq; try lia. injection E as <- <- _. now exists q.
    - destruct q as [|q0 q]; cbn in Lq; try lia. injection E as <- <- _. now exists q.
    - injection E as <- <- _. now exists (a ++ q). }
  destruct T as [B (_ & H & _)|B (_ & H & _)|B (_ & H & _)|B _ _ (_ & H & _)|B _ _ (_ & H & _)].
  - exfalso. apply (K (lit "<!--") (lit "-->")); try easy; [now exists (lit "--")|cbn; lia].
  - destruct H as (b & -> & Hq). exists (lit "?" ++ b ++ lit "?"). split; [now rewrite <- !app_assoc|].
    unfold quotes_closed in *. rewrite open_quote_app. change (open_quote None (lit "?")) with (@None char).
    now rewrite open_quote_app, Hq.
  - exfalso. apply (K (lit "<![CDATA[") (lit "]]>")); try easy; [now exists (lit "[CDATA[")|cbn; lia].
  - exfalso. destruct H as (b & -> & _). apply N. now exists (b ++ lit ">").
  - exact H.
Qed.
Lemma open_is_quote : forall s o, (forall q, o = Some q -> is_quote q = true) -> forall q, open_quote o s = Some q -> is_quote q = true.
Proof.
  induction s as [|c s IH]; intros o H q E; [now apply H|]. rewrite open_cons in E. apply IH in E; [easy|].
  intros q' E'. destruct o as [q0|]; cbn [next_quote] in E'.
  - destruct (c =? q0)%N; [discriminate|]. injection E' as <-. now apply H.
  - destruct (is_quote c) eqn:Q; [|discriminate]. now injection E' as <-.
Qed.
Lemma open_plain : forall w o, Forall (fun c => is_quote c = false) w -> (forall q, o = Some q -> is_quote q = true) -> open_quote o w = o.
Proof.
  induction w as [|c w IH]; intros o F H; [easy|]. apply Forall_cons_iff in F. destruct F as [Fc F]. rewrite open_cons.
  assert (next_quote o c = o) as ->; [|now apply IH]. destruct o as [q|]; cbn [next_quote].
  - destruct (c =? q)%N eqn:E; [|easy]. apply N.eqb_eq in E. subst q. specialize (H c eq_refl). congruence.
  - now rewrite Fc.
Qed.
Lemma ws_not_quote w : ws w -> Forall (fun c => is_quote c = false) w.
Proof.
  intro H. eapply Forall_impl; [|exact H]. intros c Hc. destruct (is_quote c) eqn:Q; [|easy]. apply quote_not_ws in Q. cbn in Hc. congruence.
Qed.
Lemma closed_plain a w : Forall (fun c => is_quote c = false) w -> quotes_closed (a ++ w) -> quotes_closed a.
Proof.
  intros F H. unfold quotes_closed in *. rewrite open_quote_app in H. rewrite open_plain in H; [easy|easy|].
  apply open_is_quote. discriminate.
Qed.
Lemma closed_skip w a : Forall (fun c => is_quote c = false) w -> quotes_closed (w ++ a) -> quotes_closed a.
Proof. intros F H. unfold quotes_closed in *. rewrite open_quote_app, (open_plain w None) in H; [easy|easy|discriminate]. Qed.
Lemma split_ws_end w : ws w -> forall b builder vec o, open_quote o b = None ->
  quote_aware_split_from (b ++ w) builder vec o = quote_aware_split_from b builder vec o.
Proof.
  intro Hw. induction b as [|c b IH]; intros builder vec o H.
  - cbn in H. subst o. destruct Hw as [|x w Hx Hw]; [easy|]. cbn [app].
    rewrite <- (app_nil_r (x :: w)). cbn [app]. rewrite split_ws by easy. cbn. reflexivity.
  - rewrite open_cons in H. cbn [app quote_aware_split_from]. destruct o as [q|]; cbn [next_quote] in H.
    + destruct (c =? q)%N; now apply IH.
    + rewrite is_quote_model. destruct (is_quote c); [now apply IH|]. destruct (is_whitespace c); now apply IH.
Qed.
Lemma words_pad w1 b w2 l : ws w1 -> ws w2 -> quotes_closed b -> words b l -> words (w1 ++ b ++ w2) l.
Proof.
  intros H1 H2 Hq W. pose proof (words_split (w1 ++ b ++ w2)) as W'. apply split_words in W.
  unfold quote_aware_split in W'. rewrite split_ws_start in W' by easy. rewrite split_ws_end in W' by easy.
  change (words (w1 ++ b ++ w2) (quote_aware_split b)) in W'. now rewrite W in W'.
Qed.
Lemma strip_words t b : elementish t -> ~ begins (lit "</") t -> strip_tag t = Ok b -> tag_words t (quote_aware_split b).
Proof.
  intros (b0 & E0 & Q) N S. assert (D : delimited t) by now exists b0.
  destruct (strip_open t D N) as (w1 & b' & w2 & o & S' & Et & H1 & H2 & _ & Ho).
  rewrite S in S'. injection S' as <-. exists (w1 ++ b ++ w2), o. split; [rewrite Et; now rewrite <- !app_assoc|]. split.
  - apply words_pad; [easy|easy| |apply words_split].
    assert (Eb : b0 = w1 ++ b ++ w2 ++ o).
    { rewrite E0 in Et. apply app_inv_head in Et. rewrite !app_assoc in Et. apply app_inv_tail in Et. rewrite Et. now rewrite <- !app_assoc. }
    rewrite Eb in Q. apply closed_skip in Q; [|now apply ws_not_quote]. apply closed_plain with (w2 ++ o); [|easy].
    apply Forall_app. split; [now apply ws_not_quote|]. destruct Ho as [[-> _]|[-> _]]; repeat constructor.
  - destruct Ho as [[-> _]|[-> Ho]]; [now left|now right].
Qed.

Inductive element_outcome (top : option elem) (t : str) (loc : nat * nat) : outcome elem -> Prop :=
| eo_ok e : element_reads (top = None) t (tag_name e) -> element_outcome top t loc (Ok e)
| eo_err x : element_fault (top = None) t loc x -> element_outcome top t loc (Err x)
| eo_panic : element_crash t -> element_outcome top t loc Panic.
Lemma parse_new_outcome t b buffer pos top : elementish t -> ~ begins (lit "</") t -> strip_tag t = Ok b ->
  element_outcome top t (line_and_column buffer pos) (parse_new_element b buffer pos top).
Proof.
  intros D N S. pose proof (strip_words _ _ D N S) as W.
  pose proof (element_of_same b buffer pos top) as K.
  assert (Hok : forall e, parse_new_element b buffer pos top = Ok e -> element_of top b = Ok e).
  { intros e He. rewrite He in K. cbn in K. destruct (element_of top b); try contradiction. now subst. }
  clear K. destruct (parse_new_element b buffer pos top) as [e|x| |] eqn:H.
  - specialize (Hok e eq_refl). apply element_of_spec in Hok.
    destruct Hok as (nm & comps & l & prefix & local & Wb & Rl & Q & V & A & P & ->).
    apply eo_ok. rewrite adopt_opt_tag_name. change (tag_name (bare local prefix (set_all l []) (explicit_ns top (set_all l []) prefix)))
      with (tag_name_of prefix local). rewrite (qname_tag _ _ _ Q).
    rewrite (split_words _ _ Wb) in W.
    assert (Rl' : parse_attrs (join_loop comps) buffer pos [] = Ok (set_all l [])) by (apply parse_attrs_reads; now exists l).
    pose proof (parse_attrs_outcome buffer pos (join_loop comps) []) as AO. rewrite Rl' in AO.
    inversion AO as [l' F E| |].
    assert (l' = l) as ->.
    { now apply reads_attrs_same with (join_loop comps). }
    exists (join_loop comps), l, local. split; [exists comps; split; [easy|now apply join_loop_joined with (List.length comps)]|].
    split; [easy|]. split.
    { intros Ht p nm' En Hp. apply set_all_keys. apply (P Ht). destruct Q as [n Hn|q n Hn].
      - exfalso. apply Hn. rewrite En. apply in_or_app. right. now left.
      - apply split_colon in En; [|easy..]. now destruct En as [-> _]. }
    split; [destruct Q as [n Hn|q n Hn]; [now left|right; now exists q]|]. split; [easy|].
    apply Forall_forall. intros [k v] Hi. cbn.
    assert (Hk : In k (akeys (set_all l []))) by (apply set_all_keys; apply in_map_iff; now exists (k, v)).
    apply in_map_iff in Hk. destruct Hk as ([k' v'] & Ek & Hk). cbn in Ek. subst k'. now apply (A k v').
  - apply eo_err. clear Hok. unfold parse_new_element in H.
    destruct (quote_aware_split b) as [|nm comps] eqn:Eq.
    { injection H as <-. now apply ef_empty. }
    cbn [join_spaced_attributes] in H.
    assert (TP : tag_parts t nm (join_loop comps)) by (exists comps; split; [easy|now apply join_loop_joined with (List.length comps)]).
    pose proof (parse_attrs_outcome buffer pos (join_loop comps) []) as AO.
    apply bind_err in H. destruct H as [H|(attrs & Ha & H)].
    { rewrite H in AO. inversion AO as [|good l kv more m E F B Ex|]; subst. rewrite E in TP.
      eapply ef_attribute; eassumption. }
    rewrite Ha in AO. inversion AO as [l F E| |]. subst attrs. clear AO Ha.
    apply bind_err in H. destruct H as [H|([[local xm] px] & Hn & H)].
    { destruct (split_once cColon nm) as [[p local]|] eqn:Sp; [|discriminate].
      apply split_once_some in Sp. destruct Sp as [-> Hp].
      destruct (ahas (sXmlnsC ++ p) (set_all l [])) eqn:Eh; [discriminate|].
      destruct top as [a|]; [discriminate|]. injection H as <-.
      apply ef_prefix with local (join_loop comps) l; [easy|exact TP|exact F|exact Hp|]. intro Hi. change (sXmlnsC ++ p) with (lit "xmlns:" ++ p) in Eh.
      apply set_all_keys, ahas_spec in Hi. congruence. }
    assert (Q : local_part nm local /\ (top = None -> prefix_declared nm l)).
    { destruct (split_once cColon nm) as [[p lc]|] eqn:Sp.
      - apply split_once_some in Sp. destruct Sp as [-> Hp].
        destruct (ahas (sXmlnsC ++ p) (set_all l [])) eqn:Eh.
        + injection Hn as <- _ _. split; [right; now exists p|]. intros _ p' nm' En Hp'. apply split_colon in En; [|easy..].
          destruct En as [<- _]. apply set_all_keys. now apply ahas_spec.
        + destruct top; [|discriminate]. injection Hn as <- _ _. split; [right; now exists p|discriminate].
      - apply split_once_none in Sp. injection Hn as <- _ _. split; [now left|]. intros _ p' nm' En Hp'. exfalso. apply Sp.
        rewrite En. apply in_or_app. right. now left. }
    destruct Q as [Lp Pd].
    apply bind_err in H. destruct H as [H|(e & _ & H)]; [|discriminate].
    unfold element_new in H. apply bind_err in H. destruct H as [H|([] & Hv & H)].
    { unfold check_elem_name in H. destruct (name_regex local) eqn:E; [discriminate|]. injection H as <-.
      apply name_regex_false in E. eapply ef_name; eassumption. }
    assert (V : valid_name local).
    { unfold check_elem_name in Hv. destruct (name_regex local) eqn:E; [|discriminate]. now apply name_regex_spec. }
    apply bind_err in H. destruct H as [H|(a & _ & H)]; [|discriminate].
    apply convert_attrs_err in H. destruct H as (k & v & Hi & Hk & ->).
    apply set_all_in in Hi. destruct Hi as [Hi|[]]. eapply ef_attr_name; eassumption.
  - apply eo_panic. clear Hok. unfold parse_new_element in H.
    destruct (quote_aware_split b) as [|nm comps] eqn:Eq; [discriminate|]. cbn [join_spaced_attributes] in H.
    assert (TP : tag_parts t nm (join_loop comps)) by (exists comps; split; [easy|now apply join_loop_joined with (List.length comps)]).
    pose proof (parse_attrs_outcome buffer pos (join_loop comps) []) as AO.
    destruct (parse_attrs (join_loop comps) buffer pos []) as [attrs|y| |] eqn:Ha; cbn [bind] in H; try discriminate.
    + exfalso. clear AO. destruct (split_once cColon nm) as [[p local]|].
      * destruct (ahas (sXmlnsC ++ p) attrs); [|destruct top; [|discriminate]]; cbn [bind] in H; unfold element_new, check_elem_name in H;
          (destruct (name_regex local); cbn [bind] in H; [|discriminate]);
          (destruct (convert_attrs_cases attrs []) as [(m & Em & _)|(z & Ez)]; [rewrite Em in H|rewrite Ez in H]; discriminate).
      * cbn [bind] in H; unfold element_new, check_elem_name in H;
          (destruct (name_regex nm); cbn [bind] in H; [|discriminate]);
          (destruct (convert_attrs_cases attrs []) as [(m & Em & _)|(z & Ez)]; [rewrite Em in H|rewrite Ez in H]; discriminate).
    + inversion AO as [| |good l kv more E F C]. rewrite E in TP. now exists nm, good, l, kv, more.
  - exfalso. pose proof (element_of_same b buffer pos top) as K. rewrite H in K. cbn in K.
    destruct (element_of top b) eqn:E; try contradiction. now apply element_of_fuel in E.
Qed.

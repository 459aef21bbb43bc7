(** From the text of a tag to an element. *)
From Coq Require Import List NArith Arith Bool Ascii String Lia.
From Verif Require Import Base BaseFacts Escape Dom Spec EscapeFacts SpecDom DomFacts SpecApi ApiFacts
  ParseTree SpecTree ParseTreeFacts Parse SpecLex SpecParse LexFacts ParseFacts.
Import ListNotations.

(** * Splitting at unquoted white space *)

Lemma quote_not_ws c : is_quote c = true -> is_whitespace c = false.
Proof.
  unfold is_quote. intro H. apply orb_true_iff in H. destruct H as [H|H]; apply N.eqb_eq in H; subst c; reflexivity.
Qed.
Lemma is_quote_model c : ((c =? cSq) || (c =? cDq))%N%bool = is_quote c.
Proof. unfold is_quote, cSq, cDq, dquote, squote. apply orb_comm. Qed.

Lemma solid_cons o c s : solid o (c :: s) <->
  (o = None -> is_whitespace c = false) /\ solid (next_quote o c) s.
Proof.
  unfold solid. rewrite unquoted_cons, Forall_app. destruct o as [q|].
  - split; [intros [_ H]; split; [discriminate|exact H]|intros [_ H]; split; [constructor|exact H]].
  - destruct (is_quote c) eqn:Q.
    + split; intros [_ H]; (split; [|exact H]); [intros _; now apply quote_not_ws|constructor].
    + split; intros [H1 H]; (split; [|exact H]).
      * intros _. now inversion H1.
      * repeat constructor. now apply H1.
Qed.

Lemma split_solid : forall c rest builder vec o, solid o c ->
  quote_aware_split_from (c ++ rest) builder vec o =
  quote_aware_split_from rest (builder ++ c) vec (open_quote o c).
Proof.
  induction c as [|x c IH]; intros rest builder vec o H; [now rewrite app_nil_r|].
  apply solid_cons in H. destruct H as [H1 H2].
  cbn [app quote_aware_split_from]. rewrite open_cons.
  replace (builder ++ x :: c) with ((builder ++ [x]) ++ c) by now rewrite <- app_assoc.
  rewrite <- IH by easy. destruct o as [q|]; cbn [next_quote]; [easy|].
  rewrite is_quote_model. destruct (is_quote x) eqn:Q; [easy|]. now rewrite H1.
Qed.
Lemma split_ws w x rest builder vec : is_whitespace x = true -> ws w ->
  quote_aware_split_from (x :: w ++ rest) builder vec None =
  quote_aware_split_from rest [] (push_builder builder vec) None.
Proof.
  intros Hx Hw. cbn [quote_aware_split_from]. rewrite is_quote_model.
  assert (is_quote x = false) as ->.
  { destruct (is_quote x) eqn:Q; [|easy]. apply quote_not_ws in Q. congruence. }
  rewrite Hx. generalize (push_builder builder vec). clear Hx x builder vec.
  induction Hw as [|y w Hy Hw IH]; intro vec; [easy|].
  cbn [app quote_aware_split_from]. rewrite is_quote_model.
  assert (is_quote y = false) as ->.
  { destruct (is_quote y) eqn:Q; [|easy]. apply quote_not_ws in Q. congruence. }
  rewrite Hy. apply IH.
Qed.

Lemma split_ws_start w rest vec : ws w ->
  quote_aware_split_from (w ++ rest) [] vec None = quote_aware_split_from rest [] vec None.
Proof.
  intro H. destruct H as [|x w Hx Hw]; [easy|]. cbn [app]. now rewrite split_ws.
Qed.
Lemma split_words_from s l : words s l -> forall vec, quote_aware_split_from s [] vec None = vec ++ l.
Proof.
  intro W. induction W as [w Hw|w c Hw Hc Hs|w c x s l Hw Hc Hs Hq Hx W IH]; intro vec.
  - rewrite <- (app_nil_r w), split_ws_start by easy. cbn. now rewrite app_nil_r.
  - rewrite split_ws_start by easy. rewrite <- (app_nil_r c), split_solid by easy. rewrite app_nil_r. cbn.
    destruct c; [easy|]. reflexivity.
  - rewrite split_ws_start, split_solid by easy. rewrite Hq. cbn [app].
    transitivity ((vec ++ [c]) ++ l); [|now rewrite <- app_assoc]. rewrite <- IH.
    change (x :: s) with (x :: [] ++ s). rewrite !split_ws by (easy || constructor).
    now destruct c.
Qed.
Lemma split_words s l : words s l -> quote_aware_split s = l.
Proof. intro W. unfold quote_aware_split. now rewrite (split_words_from s l W). Qed.

Lemma solid_scan : forall s o, exists c r, s = c ++ r /\ solid o c /\
  (r = [] \/ exists x r', r = x :: r' /\ is_whitespace x = true /\ open_quote o c = None).
Proof.
  induction s as [|x s IH]; intro o.
  - exists [], []. split; [easy|]. split; [constructor|now left].
  - assert (K : (o = None -> is_whitespace x = false) -> exists c r, x :: s = c ++ r /\ solid o c /\
      (r = [] \/ exists x r', r = x :: r' /\ is_whitespace x = true /\ open_quote o c = None)).
    { intro Hx. destruct (IH (next_quote o x)) as (c & r & -> & Hs & Hr). exists (x :: c), r.
      split; [easy|]. split; [now apply solid_cons|]. rewrite open_cons. exact Hr. }
    destruct o as [q|]; [apply K; discriminate|].
    destruct (is_whitespace x) eqn:E; [|now apply K].
    exists [], (x :: s). split; [easy|]. split; [constructor|]. right. now exists x, s.
Qed.
Lemma ws_scan s : exists w r, s = w ++ r /\ ws w /\ match r with [] => True | c :: _ => is_whitespace c = false end.
Proof.
  induction s as [|x s IH]; [exists [], []; repeat split; constructor|].
  destruct (is_whitespace x) eqn:E.
  - destruct IH as (w & r & -> & Hw & Hr). exists (x :: w), r. split; [easy|]. split; [now constructor|easy].
  - exists [], (x :: s). split; [easy|]. split; [constructor|easy].
Qed.
Lemma words_exist s : exists l, words s l.
Proof.
  remember (List.length s) as n eqn:En. assert (Hn : List.length s <= n) by lia. clear En.
  revert s Hn. induction n as [|n IH]; intros s Hn.
  - destruct s; [|cbn in Hn; lia]. exists []. apply wd_end. constructor.
  - destruct (ws_scan s) as (w & r & -> & Hw & Hr). destruct r as [|c0 r].
    + rewrite app_nil_r. exists []. now apply wd_end.
    + destruct (solid_scan (c0 :: r) None) as (c & r' & E & Hs & Hr'). rewrite E in *.
      destruct c as [|c1 c].
      { cbn in E. destruct Hr' as [->|(x & r'' & -> & Hx & _)]; [discriminate|].
        injection E as -> _. congruence. }
      destruct Hr' as [->|(x & r'' & -> & Hx & Ho)].
      * rewrite app_nil_r. exists [c1 :: c]. now apply wd_last.
      * destruct (IH (x :: r'')) as [l Hl].
        { rewrite !app_length in Hn. cbn in *. lia. }
        exists ((c1 :: c) :: l). now apply wd_word.
Qed.
Lemma words_split s : words s (quote_aware_split s).
Proof. destruct (words_exist s) as [l Hl]. now rewrite (split_words s l Hl). Qed.
Lemma words_fun s l l' : words s l -> words s l' -> l = l'.
Proof. intros H H'. apply split_words in H, H'. congruence. Qed.

(** The first word of a trimmed text. *)
Lemma words_head s c l : words s (c :: l) -> match s with [] => True | x :: _ => is_whitespace x = false end ->
  exists r, s = c ++ r /\ c <> [] /\ solid None c /\
    ((r = [] /\ l = []) \/ exists x r', r = x :: r' /\ is_whitespace x = true /\ quotes_closed c /\ words r l).
Proof.
  intros W H. inversion W as [w Hw|w c' Hw Hc Hs|w c' x s' l' Hw Hc Hs Hq Hx W']; subst.
  - destruct Hw as [|y w Hy Hw]; [|cbn in H; congruence].
    exists []. rewrite app_nil_r. split; [easy|]. split; [easy|]. split; [easy|]. now left.
  - destruct Hw as [|y w Hy Hw]; [|cbn in H; congruence].
    exists (x :: s'). split; [easy|]. split; [easy|]. split; [easy|]. right. now exists x, s'.
Qed.

(** * strip_tag *)

Definition slash : str := lit "/".
Definition delimited (t : str) : Prop := exists x, t = lit "<" ++ x ++ lit ">".
Definition trimmed (b : str) : Prop :=
  match b with [] => True | c :: _ => is_whitespace c = false end /\
  match rev b with [] => True | c :: _ => is_whitespace c = false end.

Lemma all_ws_ws w : all_ws w <-> ws w.
Proof. unfold all_ws, ws. rewrite forallb_forall, Forall_forall. easy. Qed.

Lemma tag_delimited s t rest : tag_at s t rest -> delimited t.
Proof.
  assert (W : forall p q, starts_with (lit "<") p = true -> ends (q ++ lit ">") t -> begins p s ->
    s = t ++ rest -> 2 <= List.length t -> delimited t).
  { intros p q Hp [a ->] [r Hr] E Hl. apply starts_with_spec in Hp. destruct Hp as [p' ->].
    rewrite app_assoc in *. destruct (a ++ q) as [|c x] eqn:Ea.
    - cbn in Hl. lia.
    - rewrite Hr in E. injection E as <- _. now exists x. }
  intro T. destruct (tag_at_nonempty _ _ _ T) as [E _].
  destruct T as [B (_ & H & _)|B (_ & H & _)|B (_ & H & _)|B _ _ (_ & H & _)|B _ _ (_ & H & _)].
  - apply (W (lit "<!--") (lit "--") eq_refl H B E). destruct H as [a ->]. rewrite app_length. cbn. lia.
  - destruct H as (b & -> & _). exists (lit "?" ++ b ++ lit "?"). cbn. now rewrite <- app_assoc.
  - apply (W (lit "<![CDATA[") (lit "]]") eq_refl H B E). destruct H as [a ->]. rewrite app_length. cbn. lia.
  - destruct H as (b & -> & _). now exists (lit "!" ++ b).
  - destruct H as (b & -> & _). now exists b.
Qed.

Lemma slice_to_suffix a q : slice_to (a ++ q) (blen (a ++ q) - blen q) = Ok a.
Proof. rewrite blen_app, Nat.add_sub. apply slice_to_app. Qed.
Lemma starts_slash_cons c x : starts_with (lit "/") (c :: x) = (47 =? c)%N.
Proof. cbn. now rewrite andb_true_r. Qed.

(** Opening tags. *)
Lemma strip_open t : delimited t -> ~ begins (lit "</") t ->
  exists w1 b w2 o, strip_tag t = Ok b /\ t = lit "<" ++ w1 ++ b ++ w2 ++ o ++ lit ">" /\
    ws w1 /\ ws w2 /\ trimmed b /\ ((o = slash /\ ends (lit "/>") t) \/ (o = [] /\ ~ ends (lit "/>") t)).
Proof.
  intros [x ->] Hn. unfold strip_tag. rewrite starts_with_app.
  change 1 with (blen (lit "<")) at 1. rewrite slice_from_app. cbn [bind].
  assert (starts_with (lit "/") (x ++ lit ">") = false) as ->.
  { destruct (starts_with (lit "/") (x ++ lit ">")) eqn:E; [|easy]. exfalso.
    apply starts_with_spec in E. destruct E as [r E]. apply Hn. exists r. rewrite E. easy. }
  cbn [bind]. rewrite ends_with_app. change 1 with (blen (lit ">")) at 1. rewrite slice_to_suffix. cbn [bind].
  assert (EE : ends (lit "/>") (lit "<" ++ x ++ lit ">") <-> ends (lit "/") x).
  { split.
    - intros [a E]. change (lit "/>") with (lit "/" ++ lit ">") in E. rewrite !app_assoc in E.
      apply app_inv_tail in E. destruct a as [|a0 a]; [discriminate|]. injection E as <- E. now exists a.
    - intros [a ->]. exists (lit "<" ++ a). now rewrite <- !app_assoc. }
  destruct (ends_with (lit "/") x) eqn:E.
  - apply ends_spec in E. pose proof (proj2 EE E) as E'. destruct E as [a ->].
    change 1 with (blen (lit "/")). rewrite slice_to_suffix. cbn [bind].
    destruct (trim_spec a) as (w1 & w2 & Ea & H1 & H2 & H3 & H4).
    exists w1, (trim a), w2, slash. split; [easy|]. split.
    { rewrite Ea at 1. now rewrite <- !app_assoc. }
    split; [now apply all_ws_ws|]. split; [now apply all_ws_ws|]. split; [now split|]. now left.
  - cbn [bind]. destruct (trim_spec x) as (w1 & w2 & Ea & H1 & H2 & H3 & H4).
    exists w1, (trim x), w2, []. split; [easy|]. split.
    { rewrite Ea at 1. now rewrite <- !app_assoc. }
    split; [now apply all_ws_ws|]. split; [now apply all_ws_ws|]. split; [now split|]. right. split; [easy|].
    intro H. apply EE in H. destruct H as [y Hy]. now apply (proj1 (ends_with_false _ _) E y).
Qed.
(** Closing tags. *)
Lemma strip_close t : delimited t -> begins (lit "</") t ->
  exists w1 b w2 o, strip_tag t = Ok b /\ t = lit "</" ++ w1 ++ b ++ w2 ++ o ++ lit ">" /\
    ws w1 /\ ws w2 /\ trimmed b /\ (o = slash \/ o = []).
Proof.
  intros [x E] [y Ey]. assert (exists x', y = x' ++ lit ">") as [x' ->].
  { destruct (exists_last_or y) as [->|(y' & c & ->)].
    - rewrite app_nil_r in Ey. rewrite E in Ey. destruct x as [|x0 [|x1 x]]; discriminate.
    - rewrite Ey, !app_assoc in E. apply app_inj_tail in E. destruct E as [_ ->]. now exists y'. }
  clear E x. subst t. rename x' into x. unfold strip_tag.
  change (lit "</" ++ x ++ lit ">") with (lit "<" ++ (lit "/" ++ x ++ lit ">")).
  rewrite starts_with_app. change 1 with (blen (lit "<")) at 1. rewrite slice_from_app. cbn [bind].
  rewrite starts_with_app. change 1 with (blen (lit "/")) at 1. rewrite slice_from_app. cbn [bind].
  rewrite ends_with_app. change 1 with (blen (lit ">")) at 1. rewrite slice_to_suffix. cbn [bind].
  destruct (ends_with (lit "/") x) eqn:E.
  - apply ends_spec in E. destruct E as [a ->].
    change 1 with (blen (lit "/")). rewrite slice_to_suffix. cbn [bind].
    destruct (trim_spec a) as (w1 & w2 & Ea & H1 & H2 & H3 & H4).
    exists w1, (trim a), w2, slash. split; [easy|]. split.
    { rewrite Ea at 1. now rewrite <- !app_assoc. }
    split; [now apply all_ws_ws|]. split; [now apply all_ws_ws|]. split; [now split|]. now left.
  - cbn [bind]. destruct (trim_spec x) as (w1 & w2 & Ea & H1 & H2 & H3 & H4).
    exists w1, (trim x), w2, []. split; [easy|]. split.
    { rewrite Ea at 1. now rewrite <- !app_assoc. }
    split; [now apply all_ws_ws|]. split; [now apply all_ws_ws|]. split; [now split|]. now right.
Qed.

(** * parse_new_element *)

(** Reading the attribute components. *)
Inductive reads_attrs : list str -> list (str * str) -> Prop :=
| ra_nil : reads_attrs [] []
| ra_cons k q u v comps l : ~ In cEq k -> q = cDq \/ q = cSq -> unescape u = Ok v ->
    reads_attrs comps l ->
    reads_attrs ((k ++ lit "=" ++ [q] ++ u ++ [q]) :: comps) ((k, v) :: l).
Definition set_all (l : list (str * str)) (acc : amap) : amap :=
  fold_left (fun m kv => aset (fst kv) (snd kv) m) l acc.

Lemma parse_attrs_reads buffer pos comps : forall acc attrs,
  parse_attrs comps buffer pos acc = Ok attrs <-> exists l, reads_attrs comps l /\ attrs = set_all l acc.
Proof.
  induction comps as [|kv comps IH]; intros acc attrs.
  - cbn. split; [intro H; injection H as <-; exists []; split; [constructor|easy]|].
    intros (l & R & ->). now inversion R.
  - destruct (parse_attr_cases kv buffer pos) as [(k & q & u & E & Hk & Hq & R)|[R N]].
    + rewrite R. split.
      * intro H. apply bind_ok in H. destruct H as (v & U & H). apply IH in H. destruct H as (l & Rl & ->).
        exists ((k, v) :: l). split; [|easy]. rewrite E. now constructor.
      * intros (l & Rl & ->). inversion Rl as [|k' q' u' v' comps' l' Hk' Hq' U' Rl' E']; subst.
        assert (S1 : split_once cEq (k ++ lit "=" ++ [q] ++ u ++ [q]) = Some (k, [q] ++ u ++ [q])) by now apply split_once_some.
        assert (S2 : split_once cEq (k ++ lit "=" ++ [q] ++ u ++ [q]) = Some (k', [q'] ++ u' ++ [q']))
          by (rewrite <- E'; now apply split_once_some).
        rewrite S1 in S2. injection S2 as <- <- E2. apply app_inj_tail in E2. destruct E2 as [<- _].
        rewrite U'. cbn [bind]. apply IH. now exists l'.
    + split.
      * intro H. destruct (R comps acc) as [x Hx]. rewrite Hx in H. discriminate.
      * intros (l & Rl & ->). inversion Rl as [|k' q' u' v' comps' l' Hk' Hq' U' Rl' E']; subst.
        exfalso. apply (N u'). now exists k', q'.
Qed.

Lemma set_all_ok l acc : map_ok acc -> map_ok (set_all l acc).
Proof. apply fold_aset_ok. Qed.

(** How a prefix splits off. *)
Inductive qname : str -> option str -> str -> Prop :=
| qn_plain nm : ~ In cColon nm -> qname nm None nm
| qn_prefixed p nm : ~ In cColon p -> qname (p ++ lit ":" ++ nm) (Some p) nm.
Lemma qname_tag nm p l : qname nm p l -> tag_name_of p l = nm.
Proof. intros [n H|q n H]; easy. Qed.

Lemma fold_aset_id : forall (l m : amap), NoDup (map fst (m ++ l)) ->
  fold_left (fun m kv => aset (fst kv) (snd kv) m) l m = m ++ l.
Proof.
  induction l as [|[k v] l IH]; intros m H; [now rewrite app_nil_r|].
  cbn [fold_left fst snd]. rewrite aset_new.
  - rewrite IH; rewrite <- app_assoc; easy.
  - rewrite map_app in H. cbn in H. apply NoDup_remove_2 in H. intro Hi. apply H. apply in_or_app. now left.
Qed.

(** The element before the namespace of its parent is applied. *)
Definition bare (nm : str) (prefix : option str) (attrs : amap) (xmlns : option str) : elem :=
  mkElem nm [] attrs (new_xmlns attrs xmlns prefix) prefix (xmlns_context_from_attributes attrs).

Lemma element_new_bare nm attrs xmlns prefix : map_ok attrs -> valid_name nm ->
  (forall k v, In (k, v) attrs -> valid_name k) ->
  element_new nm None (Some attrs) xmlns prefix None = Ok (bare nm prefix attrs xmlns).
Proof.
  intros Ho Hn Ha. rewrite element_new_eq; [|easy|intros m k v E; injection E as <-; apply Ha].
  pose proof (fold_aset_id attrs [] Ho) as F. cbn [app] in F. rewrite F. reflexivity.
Qed.

(** The namespace given explicitly to the constructor. *)
Definition explicit_ns (top : option elem) (attrs : amap) (prefix : option str) : option str :=
  match prefix with
  | None => None
  | Some p => match aget (lit "xmlns:" ++ p) attrs with
              | Some v => Some v
              | None => match top with None => None | Some t => aget (lit "xmlns:" ++ p) (e_context t) end
              end
  end.
Definition adopt_opt (top : option elem) (e : elem) : elem :=
  match top with
  | None => e
  | Some t => match inherited t (NElem e) with NElem c => c | _ => e end
  end.

Lemma set_ns_adopt top e : e_children e = [] -> (top = None -> e_xmlns e = None -> forall p, e_prefix e = Some p -> aget p (e_context e) = None) ->
  set_namespace_context e (match top with None => None | Some p => default_namespace p end)
    (match top with None => None | Some p => Some (get_namespace_context p) end) = adopt_opt top e.
Proof.
  intros _ H. destruct top as [t|]; [reflexivity|]. cbn. unfold set_namespace_context, default_namespace.
  destruct e as [nm ch at_ [x|] [p|] ctx]; cbn in *; try reflexivity.
  now rewrite (H eq_refl eq_refl p eq_refl).
Qed.

Lemma element_of_spec top b e : element_of top b = Ok e <->
  exists nm comps l prefix local,
    words b (nm :: comps) /\ reads_attrs (join_loop comps) l /\ qname nm prefix local /\
    valid_name local /\ (forall k v, In (k, v) (set_all l []) -> valid_name k) /\
    (top = None -> forall p, prefix = Some p -> In (lit "xmlns:" ++ p) (map fst (set_all l []))) /\
    e = adopt_opt top (bare local prefix (set_all l []) (explicit_ns top (set_all l []) prefix)).
Proof.
  unfold element_of, parse_new_element.
  pose proof (words_split b) as W.
  destruct (quote_aware_split b) as [|nm comps] eqn:Eq.
  { cbn. split; [discriminate|]. intros (nm & comps & l & prefix & local & W' & _).
    pose proof (words_fun _ _ _ W W'). discriminate. }
  cbn [join_spaced_attributes].
  assert (Aux : forall l prefix local,
    (top = None -> forall p, prefix = Some p -> In (lit "xmlns:" ++ p) (map fst (set_all l []))) ->
    set_namespace_context (bare local prefix (set_all l []) (explicit_ns top (set_all l []) prefix))
      (match top with None => None | Some p => default_namespace p end)
      (match top with None => None | Some p => Some (get_namespace_context p) end) =
    adopt_opt top (bare local prefix (set_all l []) (explicit_ns top (set_all l []) prefix))).
  { intros l prefix local Hp. apply set_ns_adopt; [easy|]. cbn. intros -> Hx p ->.
    assert (map_ok (set_all l [])) as Ho by (apply set_all_ok; constructor).
    rewrite (context_get _ Ho). change (sXmlnsC ++ p) with (lit "xmlns:" ++ p).
    specialize (Hp eq_refl p eq_refl). unfold explicit_ns in Hx.
    destruct (aget (lit "xmlns:" ++ p) (set_all l [])) eqn:G; [|easy].
    discriminate. }
  split.
  - intro H. apply bind_ok in H. destruct H as (attrs & Ha & H). apply parse_attrs_reads in Ha.
    destruct Ha as (l & Rl & ->).
    assert (map_ok (set_all l [])) as Ho by (apply set_all_ok; constructor).
    assert (Fin : forall prefix local, qname nm prefix local ->
      (top = None -> forall p, prefix = Some p -> In (lit "xmlns:" ++ p) (map fst (set_all l []))) ->
      (do e <- element_new local None (Some (set_all l [])) (explicit_ns top (set_all l []) prefix) prefix None;
       Ok (set_namespace_context e (match top with None => None | Some p => default_namespace p end)
            (match top with None => None | Some p => Some (get_namespace_context p) end))) = Ok e ->
      exists nm0 comps0 l0 prefix0 local0,
        words b (nm0 :: comps0) /\ reads_attrs (join_loop comps0) l0 /\ qname nm0 prefix0 local0 /\
        valid_name local0 /\ (forall k v, In (k, v) (set_all l0 []) -> valid_name k) /\
        (top = None -> forall p, prefix0 = Some p -> In (lit "xmlns:" ++ p) (map fst (set_all l0 []))) /\
        e = adopt_opt top (bare local0 prefix0 (set_all l0 []) (explicit_ns top (set_all l0 []) prefix0))).
    { intros prefix local Q Hp H'. apply bind_ok in H'. destruct H' as (e0 & En & H').
      assert (V : valid_name local /\ forall m k v, Some (set_all l []) = Some m -> In (k, v) m -> valid_name k)
        by (apply (element_new_ok local None (Some (set_all l [])) (explicit_ns top (set_all l []) prefix) prefix None); now exists e0).
      destruct V as [V1 V2].
      assert (V3 : forall k v, In (k, v) (set_all l []) -> valid_name k) by (intros k v; now apply V2).
      rewrite element_new_bare in En by easy. injection En as <-.
      exists nm, comps, l, prefix, local. split; [easy|]. split; [easy|]. split; [easy|]. split; [easy|].
      split; [easy|]. split; [easy|]. rewrite <- Aux by easy. injection H' as <-. reflexivity. }
    destruct (split_once cColon nm) as [[a b']|] eqn:Sp.
    + apply split_once_some in Sp. destruct Sp as [En Hc].
      assert (Q : qname nm (Some a) b') by (rewrite En; now apply (qn_prefixed a b')).
      change (sXmlnsC ++ a) with (lit "xmlns:" ++ a) in H.
      destruct (ahas (lit "xmlns:" ++ a) (set_all l [])) eqn:Eh.
      * apply ahas_spec in Eh. cbn [bind] in H. apply (Fin (Some a) b' Q).
        { intros _ p Ep. injection Ep as <-. exact Eh. }
        replace (explicit_ns top (set_all l []) (Some a)) with (aget (lit "xmlns:" ++ a) (set_all l [])); [exact H|].
        cbn. destruct (aget _ _) eqn:G; [easy|]. apply aget_none in G. contradiction.
      * assert (Eh' : aget (lit "xmlns:" ++ a) (set_all l []) = None).
        { apply aget_none. intro Hi. apply ahas_spec in Hi. congruence. }
        destruct top as [t|]; [|discriminate]. cbn [bind] in H. apply (Fin (Some a) b' Q); [discriminate|].
        replace (explicit_ns (Some t) (set_all l []) (Some a)) with (aget (lit "xmlns:" ++ a) (e_context t)); [exact H|].
        cbn. cbn in Eh'. now rewrite Eh'.
    + apply split_once_none in Sp. cbn [bind] in H. apply (Fin None nm); [now constructor|discriminate|exact H].
  - intros (nm' & comps' & l & prefix & local & W' & Rl & Q & V1 & V2 & Hp & ->).
    pose proof (words_fun _ _ _ W W') as E. injection E as <- <-.
    assert (map_ok (set_all l [])) as Ho by (apply set_all_ok; constructor).
    assert (parse_attrs (join_loop comps) [] 0 [] = Ok (set_all l [])) as -> by (apply parse_attrs_reads; now exists l).
    cbn [bind].
    assert (Fin : (do e <- element_new local None (Some (set_all l [])) (explicit_ns top (set_all l []) prefix) prefix None;
       Ok (set_namespace_context e (match top with None => None | Some p => default_namespace p end)
            (match top with None => None | Some p => Some (get_namespace_context p) end))) =
       Ok (adopt_opt top (bare local prefix (set_all l []) (explicit_ns top (set_all l []) prefix)))).
    { rewrite element_new_bare by easy. cbn [bind]. now rewrite Aux. }
    destruct Q as [n Hn|p n Hn].
    + rewrite (proj2 (split_once_none cColon n) Hn). exact Fin.
    + assert (split_once cColon (p ++ lit ":" ++ n) = Some (p, n)) as -> by (now apply split_once_some).
      change (sXmlnsC ++ p) with (lit "xmlns:" ++ p).
      destruct (ahas (lit "xmlns:" ++ p) (set_all l [])) eqn:Eh.
      * cbn [bind]. apply ahas_spec in Eh.
        assert (EX : explicit_ns top (set_all l []) (Some p) = aget (lit "xmlns:" ++ p) (set_all l []));
          [|etransitivity; [|exact Fin]; now rewrite EX].
        cbn. destruct (aget _ _) eqn:G; [easy|]. apply aget_none in G. contradiction.
      * assert (Eh' : ~ In (lit "xmlns:" ++ p) (akeys (set_all l []))).
        { intro Hi. apply ahas_spec in Hi. congruence. }
        destruct top as [t|]; [|exfalso; now apply Eh', (Hp eq_refl p)]. cbn [bind].
        assert (EX : explicit_ns (Some t) (set_all l []) (Some p) = aget (lit "xmlns:" ++ p) (e_context t));
          [|etransitivity; [|exact Fin]; now rewrite EX].
        cbn. apply aget_none in Eh'. cbn in Eh'. now rewrite Eh'.
Qed.

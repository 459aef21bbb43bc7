(** The two loops of the parser as a run over the tags of the input. *)
From Coq Require Import List NArith Arith Bool Ascii String Lia.
From Verif Require Import Base BaseFacts Escape Dom Spec EscapeFacts SpecDom DomFacts SpecApi ApiFacts
  ParseTree SpecTree ParseTreeFacts Parse SpecLex LexFacts.
Import ListNotations.

(** * Outcomes up to the error *)

Definition same_kind {A} (x y : outcome A) : Prop :=
  match x, y with
  | Ok a, Ok b => a = b
  | Err _, Err _ => True
  | Panic, Panic => True
  | Fuel, Fuel => True
  | _, _ => False
  end.
Lemma same_refl {A} (x : outcome A) : same_kind x x.
Proof. now destruct x. Qed.
Lemma same_bind {A B} (x y : outcome A) (f g : A -> outcome B) :
  same_kind x y -> (forall a, x = Ok a -> same_kind (f a) (g a)) -> same_kind (bind x f) (bind y g).
Proof. destruct x, y; cbn; intros H1 H2; try easy. subst. now apply H2. Qed.
Lemma same_ok {A} (x y : outcome A) a : same_kind x y -> x = Ok a -> y = Ok a.
Proof. intros H ->. destruct y; cbn in H; try easy. now subst. Qed.
Lemma same_sym {A} (x y : outcome A) : same_kind x y -> same_kind y x.
Proof. now destruct x, y. Qed.

(** * Tags are never empty *)

Lemma shortest_nonempty P s t rest : shortest P s t rest -> (~ P []) -> t <> [].
Proof. intros (_ & H & _) Hn ->. contradiction. Qed.
Lemma tag_at_nonempty s t rest : tag_at s t rest -> s = t ++ rest /\ t <> [].
Proof.
  intro T. split; [now destruct T as [? (? & _)|? (? & _)|? (? & _)|? ? ? (? & _)|? ? ? (? & _)]|].
  destruct T as [_ H|_ H|_ H|_ _ _ H|_ _ _ H]; apply (shortest_nonempty _ _ _ _ H).
  - intros [a E]. now destruct a.
  - intros (b & E & _). discriminate.
  - intros [a E]. now destruct a.
  - intros (b & E & _). discriminate.
  - intros (b & E & _). discriminate.
Qed.
Lemma begins_head c p q r : begins (c :: p) (q :: r) -> q = c.
Proof. intros [x E]. now injection E. Qed.
Lemma tag_at_lt s t rest : tag_at s t rest -> begins [lt_] s.
Proof.
  assert (W : forall p, begins (lt_ :: p) s -> begins [lt_] s).
  { intros p [x ->]. now exists (p ++ x). }
  intro T. destruct T as [H _|H _|H _|H _ _ _|H _ _ _]; now apply (W _ H).
Qed.
Lemma tag_at_fun s t rest t' rest' : tag_at s t rest -> tag_at s t' rest' -> t = t' /\ rest = rest'.
Proof.
  assert (X1 : begins (lit "<!--") s -> begins (lit "<?") s -> False).
  { intros [x ->] [y E]. discriminate. }
  assert (X2 : begins (lit "<!--") s -> begins (lit "<![CDATA[") s -> False).
  { intros [x ->] [y E]. discriminate. }
  assert (X3 : begins (lit "<?") s -> begins (lit "<!") s -> False).
  { intros [x ->] [y E]. discriminate. }
  assert (X4 : begins (lit "<!--") s -> begins (lit "<!") s).
  { intros [x ->]. now exists (lit "--" ++ x). }
  assert (X5 : begins (lit "<![CDATA[") s -> begins (lit "<!") s).
  { intros [x ->]. now exists (lit "[CDATA[" ++ x). }
  intros T T'.
  destruct T as [H1 H|H1 H|H1 H|H1 H2 H3 H|H1 H2 H3 H];
  destruct T' as [G1 G|G1 G|G1 G|G1 G2 G3 G|G1 G2 G3 G];
  try (now apply (shortest_fun _ _ _ _ _ _ H G)); tauto.
Qed.
Lemma split_lt (a b a' b' : str) : no_tag a -> no_tag a' -> begins [lt_] b -> begins [lt_] b' ->
  a ++ b = a' ++ b' -> a = a' /\ b = b'.
Proof.
  intros Ha Ha' [x ->] [y ->] E. revert a' Ha' E.
  induction a as [|c a IH]; intros a' Ha' E; destruct a' as [|c' a'].
  - split; [easy|exact E].
  - injection E as <- _. exfalso. apply Ha'. now left.
  - injection E as -> _. exfalso. apply Ha. now left.
  - injection E as <- E. destruct (IH (fun H => Ha (or_intror H)) a' (fun H => Ha' (or_intror H)) E) as [-> E2].
    split; [easy|exact E2].
Qed.

(** [next_tag] when the next tag is known. *)
Lemma next_tag_at pre txt s t rest : no_tag txt -> tag_at s t rest ->
  next_tag (pre ++ txt ++ s) (blen pre) = Ok (Some (blen pre + blen txt), Some (blen pre + blen txt + blen t)).
Proof.
  intros Hn T. pose proof (tag_at_lt _ _ _ T) as L.
  pose proof (next_tag_spec pre (txt ++ s)) as R.
  destruct R as [Hs|txt' s' E Hn' L' Hno|txt' s' t' rest' E Hn' T'].
  - exfalso. apply Hs. destruct L as [x ->]. apply in_or_app. right. now left.
  - destruct (split_lt _ _ _ _ Hn Hn' L L' E) as [-> ->]. exfalso. now apply (Hno t rest).
  - destruct (split_lt _ _ _ _ Hn Hn' L (tag_at_lt _ _ _ T') E) as [-> ->].
    destruct (tag_at_fun _ _ _ _ _ T T') as [-> ->]. easy.
Qed.
Lemma next_tag_none pre s : no_tag s -> next_tag (pre ++ s) (blen pre) = Ok (None, None).
Proof.
  intro Hn. pose proof (next_tag_spec pre s) as R.
  destruct R as [Hs|txt' s' E Hn' L' Hno|txt' s' t' rest' E Hn' T']; [easy|..].
  - exfalso. apply Hn. rewrite E. destruct L' as [x ->]. apply in_or_app. right. now left.
  - exfalso. apply Hn. rewrite E. destruct (tag_at_lt _ _ _ T') as [x ->]. apply in_or_app. right. now left.
Qed.

(** * Handling one tag *)

Definition element_of (top : option elem) (b : str) : outcome elem := parse_new_element b [] 0 top.

Lemma parse_attrs_same comps b1 p1 b2 p2 : forall acc,
  same_kind (parse_attrs comps b1 p1 acc) (parse_attrs comps b2 p2 acc).
Proof.
  induction comps as [|kv comps IH]; intro acc; cbn [parse_attrs]; [now cbn|].
  destruct (negb _); [easy|]. apply same_bind; [apply same_refl|]. intros [k v] _.
  destruct (_ =? 0); [easy|]. destruct (_ || _); [easy|].
  apply same_bind; [apply same_refl|]. intros v' _.
  apply same_bind; [apply same_refl|]. intros v'' _. apply IH.
Qed.
Lemma element_of_same b buffer pos top : same_kind (parse_new_element b buffer pos top) (element_of top b).
Proof.
  unfold element_of, parse_new_element.
  destruct (join_spaced_attributes _) as [|nm comps]; [easy|].
  apply same_bind; [apply parse_attrs_same|]. intros attrs _.
  apply same_bind; [|intros; apply same_refl].
  destruct (split_once cColon nm) as [[a b']|]; [|easy].
  destruct (ahas _ attrs); [easy|]. now destruct top.
Qed.

(** Attribute values: everything but [unescape] is safe. *)
Lemma quoted_slice (q : char) v : ascii q -> starts_with [q] v = true -> ends_with [q] v = true -> 2 <= blen v ->
  exists u, v = [q] ++ u ++ [q] /\ slice v 1 (blen v - 1) = Ok u.
Proof.
  intros Hq H1 H2 Hl. apply starts_with_spec in H1. destruct H1 as [r ->].
  destruct (exists_last_or r) as [->|(r' & x & ->)].
  - cbn in Hl. rewrite len_utf8_ascii in Hl by easy. lia.
  - apply ends_with_spec in H2. destruct H2 as [y Hy]. rewrite app_assoc in Hy.
    apply app_inj_tail in Hy. destruct Hy as [_ ->]. exists r'. split; [easy|].
    assert (B : blen [q] = 1) by (cbn; now rewrite len_utf8_ascii).
    rewrite !blen_app, B.
    replace (1 + (blen r' + 1) - 1) with (blen [q] + blen r') by (rewrite B; lia).
    rewrite <- B at 1. apply slice_app.
Qed.
(** The raw value of an attribute component. *)
Definition raw_value (kv u : str) : Prop :=
  exists k q, kv = k ++ lit "=" ++ [q] ++ u ++ [q] /\ ~ In cEq k /\ (q = cDq \/ q = cSq).
Lemma parse_attr_cases (kv : str) buffer pos :
  (exists k q u, kv = k ++ lit "=" ++ [q] ++ u ++ [q] /\ ~ In cEq k /\ (q = cDq \/ q = cSq) /\
     forall comps acc, parse_attrs (kv :: comps) buffer pos acc =
       do v <- unescape u; parse_attrs comps buffer pos (aset k v acc)) \/
  (forall comps acc, exists x, parse_attrs (kv :: comps) buffer pos acc = Err x) /\
  (forall u, ~ raw_value kv u).
Proof.
  cbn [parse_attrs]. destruct (contains (lit "=") kv) eqn:C; cbn [negb].
  2:{ right. split; [now eexists|]. intros u (k & q & E & _).
      apply contains_false in C. apply C. exists k, ([q] ++ u ++ [q]). exact E. }
  destruct (split_once cEq kv) as [[k v]|] eqn:Sp.
  2:{ apply split_once_none in Sp. apply contains_spec in C. apply occurs_char in C. contradiction. }
  apply split_once_some in Sp. destruct Sp as [E Hk]. cbn [unwrap bind fst snd].
  assert (U : forall u, raw_value kv u -> exists q, v = [q] ++ u ++ [q] /\ (q = cDq \/ q = cSq)).
  { intros u (k' & q & E' & Hk' & Hq). exists q. split; [|easy].
    assert (split_once cEq kv = Some (k, v)) as S1 by now apply split_once_some.
    assert (split_once cEq kv = Some (k', [q] ++ u ++ [q])) as S2 by now apply split_once_some.
    rewrite S1 in S2. now injection S2. }
  destruct (blen v =? 0) eqn:L0.
  { right. split; [now eexists|]. intros u R. apply U in R. destruct R as (q & -> & _).
    apply Nat.eqb_eq, blen_nil in L0. discriminate. }
  destruct ((blen v <? 2) || _) eqn:Q.
  { right. split; [now eexists|]. intros u R. apply U in R. destruct R as (q & -> & Hq).
    apply orb_true_iff in Q. destruct Q as [Q|Q].
    - apply Nat.ltb_lt in Q. rewrite !blen_app in Q. pose proof (blen_length [q]) as L. cbn [List.length] in L. lia.
    - apply negb_true_iff in Q. apply orb_false_iff in Q. destruct Q as [Q1 Q2].
      destruct Hq as [->| ->].
      + rewrite starts_with_app, app_assoc, ends_with_app in Q1. discriminate.
      + rewrite starts_with_app, app_assoc, ends_with_app in Q2. discriminate. }
  left. apply orb_false_iff in Q. destruct Q as [Q1 Q2]. apply Nat.ltb_ge in Q1.
  apply negb_false_iff, orb_true_iff in Q2.
  assert (exists q u, v = [q] ++ u ++ [q] /\ slice v 1 (blen v - 1) = Ok u /\ (q = cDq \/ q = cSq)) as (q & u & Ev & Sv & Hq).
  { destruct Q2 as [Q2|Q2]; apply andb_true_iff in Q2; destruct Q2 as [Qa Qb].
    - destruct (quoted_slice cDq v eq_refl Qa Qb Q1) as (u & Hu & Su). exists cDq, u. auto.
    - destruct (quoted_slice cSq v eq_refl Qa Qb Q1) as (u & Hu & Su). exists cSq, u. auto. }
  exists k, q, u. split; [rewrite E, Ev; easy|]. split; [easy|]. split; [easy|].
  intros comps acc. now rewrite Sv.
Qed.

Lemma parse_attrs_panic buffer pos : forall comps acc, parse_attrs comps buffer pos acc = Panic ->
  exists kv u, In kv comps /\ raw_value kv u /\ unescape u = Panic.
Proof.
  induction comps as [|kv comps IH]; intros acc H; [discriminate|].
  destruct (parse_attr_cases kv buffer pos) as [(k & q & u & E & Hk & Hq & R)|[R _]].
  - rewrite R in H. apply bind_panic in H. destruct H as [H|(v & _ & H)].
    + exists kv, u. split; [now left|]. split; [|easy]. now exists k, q.
    + apply IH in H. destruct H as (kv' & u' & H1 & H2). exists kv', u'. split; [now right|easy].
  - destruct (R comps acc) as [x Hx]. rewrite Hx in H. discriminate.
Qed.
Lemma parse_attrs_fuel buffer pos : forall comps acc, parse_attrs comps buffer pos acc <> Fuel.
Proof.
  induction comps as [|kv comps IH]; intros acc H; [discriminate|].
  destruct (parse_attr_cases kv buffer pos) as [(k & q & u & E & Hk & Hq & R)|[R _]].
  - rewrite R in H. apply bind_fuel in H. destruct H as [H|(v & _ & H)].
    + destruct (unescape_returns u) as [[r Hr]|Hr]; congruence.
    + now apply IH in H.
  - destruct (R comps acc) as [x Hx]. rewrite Hx in H. discriminate.
Qed.
Lemma element_new_never nm text attrs xmlns prefix ch :
  element_new nm text attrs xmlns prefix ch <> Panic /\ element_new nm text attrs xmlns prefix ch <> Fuel.
Proof.
  destruct (valid_name_dec nm) as [Hn|Hn].
  2:{ now rewrite (element_new_bad_name nm text attrs xmlns prefix ch Hn). }
  assert (D : (forall m k v, attrs = Some m -> In (k, v) m -> valid_name k) \/
              exists m k v, attrs = Some m /\ In (k, v) m /\ ~ valid_name k).
  { destruct attrs as [m|]; [|left; discriminate].
    destruct (forallb (fun kv => name_regex (fst kv)) m) eqn:F.
    - left. intros m' k v E. injection E as <-. intro Hi. apply name_regex_spec.
      rewrite forallb_forall in F. apply (F (k, v) Hi).
    - right. exists m. assert (exists kv, In kv m /\ name_regex (fst kv) = false) as ([k v] & H1 & H2).
      { clear -F. induction m as [|kv m IH]; [discriminate|]. cbn in F. apply andb_false_iff in F.
        destruct F as [F|F]; [exists kv; split; [now left|easy]|].
        destruct (IH F) as (x & H1 & H2). exists x. split; [now right|easy]. }
      exists k, v. split; [easy|]. split; [easy|]. now apply name_regex_false. }
  destruct D as [Ha|(m & k & v & E & Hi & Hv)].
  - rewrite (element_new_eq nm text attrs xmlns prefix ch Hn Ha). easy.
  - destruct (element_new_bad_attr nm text attrs xmlns prefix ch m k v Hn E Hi Hv) as (k' & v' & _ & _ & ->). easy.
Qed.
Lemma element_of_panic top b : element_of top b = Panic ->
  exists kv u, In kv (tl (join_spaced_attributes (quote_aware_split b))) /\ raw_value kv u /\ unescape u = Panic.
Proof.
  unfold element_of, parse_new_element. destruct (join_spaced_attributes _) as [|nm comps]; [discriminate|].
  intro H. apply bind_panic in H. destruct H as [H|(attrs & _ & H)].
  - apply parse_attrs_panic in H. destruct H as (kv & u & H). now exists kv, u.
  - apply bind_panic in H. destruct H as [H|([[nm' xm] px] & _ & H)].
    + exfalso. destruct (split_once _ _) as [[a b']|]; [|discriminate].
      destruct (ahas _ _); [discriminate|]. destruct top; discriminate.
    + apply bind_panic in H. destruct H as [H|(e & _ & H)]; [|discriminate].
      exfalso. now apply (proj1 (element_new_never nm' None (Some attrs) xm px None)).
Qed.
Lemma element_of_fuel top b : element_of top b <> Fuel.
Proof.
  unfold element_of, parse_new_element. destruct (join_spaced_attributes _) as [|nm comps]; [discriminate|].
  intro H. apply bind_fuel in H. destruct H as [H|(attrs & _ & H)].
  - now apply parse_attrs_fuel in H.
  - apply bind_fuel in H. destruct H as [H|([[nm' xm] px] & _ & H)].
    + destruct (split_once _ _) as [[a b']|]; [|discriminate].
      destruct (ahas _ _); [discriminate|]. destruct top; discriminate.
    + apply bind_fuel in H. destruct H as [H|(e & _ & H)]; [|discriminate].
      now apply (proj2 (element_new_never nm' None (Some attrs) xm px None)).
Qed.

Lemma strip_tag_ok t : exists b, strip_tag t = Ok b.
Proof.
  unfold strip_tag.
  assert (F : forall p x, blen p = 1 -> exists y, (if starts_with p x then slice_from x 1 else Ok x) = Ok y).
  { intros p x Hp. destruct (starts_with p x) eqn:E; [|now exists x].
    apply starts_with_spec in E. destruct E as [r ->]. exists r. rewrite <- Hp. apply slice_from_app. }
  assert (G : forall p x, blen p = 1 -> exists y, (if ends_with p x then slice_to x (blen x - 1) else Ok x) = Ok y).
  { intros p x Hp. destruct (ends_with p x) eqn:E; [|now exists x].
    apply ends_with_spec in E. destruct E as [r ->]. exists r.
    rewrite blen_app, Hp, Nat.add_sub. apply slice_to_app. }
  destruct (F (lit "<") t eq_refl) as [t1 H1]. rewrite H1. cbn [bind].
  destruct (F (lit "/") t1 eq_refl) as [t2 H2]. rewrite H2. cbn [bind].
  destruct (G (lit ">") t2 eq_refl) as [t3 H3]. rewrite H3. cbn [bind].
  destruct (G (lit "/") t3 eq_refl) as [t4 H4]. rewrite H4. cbn [bind]. now exists (trim t4).
Qed.

Lemma slice_from_fuel s i : slice_from s i <> Fuel.
Proof. unfold slice_from. now destruct (bskip i s). Qed.
Lemma slice_to_fuel s i : slice_to s i <> Fuel.
Proof. unfold slice_to. now destruct (btake i s). Qed.
Lemma slice_fuel s i j : slice s i j <> Fuel.
Proof.
  unfold slice. destruct (_ <=? _); [|easy]. intro H. apply bind_fuel in H.
  destruct H as [H|(x & _ & H)]; [now apply slice_from_fuel in H|now apply slice_to_fuel in H].
Qed.
Lemma abbreviate_fuel t k : abbreviate t k <> Fuel.
Proof.
  unfold abbreviate. destruct (_ || _); [easy|]. intro H. apply bind_fuel in H.
  destruct H as [H|(x & _ & H)]; [now apply slice_fuel in H|].
  apply bind_fuel in H. destruct H as [H|(y & _ & H)]; [now apply slice_from_fuel in H|easy].
Qed.

(** What a tag asks the parse tree to do, given the innermost open element. *)
Inductive tag_op (top : option elem) : str -> pt_op -> Prop :=
| to_comment c : ~ substring (lit "-->") c ->
    tag_op top (lit "<!--" ++ c ++ lit "-->") (OpAppend (NComment c))
| to_cdata c : ~ substring (lit "]]>") c ->
    tag_op top (lit "<![CDATA[" ++ c ++ lit "]]>") (OpAppend (NCData c))
| to_close t b a : ~ begins (lit "<!") t -> begins (lit "</") t ->
    strip_tag t = Ok b -> check_element_tag t = Ok tt -> top = Some a -> b = tag_name a ->
    tag_op top t OpPop
| to_single t b e : ~ begins (lit "<!") t -> ~ begins (lit "</") t ->
    strip_tag t = Ok b -> check_element_tag t = Ok tt -> element_of top b = Ok e -> ends (lit "/>") t ->
    tag_op top t (OpAppend (NElem e))
| to_open t b e : ~ begins (lit "<!") t -> ~ begins (lit "</") t ->
    strip_tag t = Ok b -> check_element_tag t = Ok tt -> element_of top b = Ok e -> ~ ends (lit "/>") t ->
    tag_op top t (OpPush e).

(** Where a panic can come from. *)
Inductive tag_panic (top : option elem) : str -> Prop :=
| tp_abbrev t : abbreviate t 32 = Panic -> tag_panic top t
| tp_elem t b : strip_tag t = Ok b -> element_of top b = Panic -> tag_panic top t.

Lemma between p q s : begins p s -> ends q s -> blen p + blen q <= blen s ->
  exists c, s = p ++ c ++ q.
Proof.
  intros [x ->] [y E] Hl. destruct (prefix_cases _ _ _ _ E) as [[z ->]|[z ->]].
  - rewrite <- app_assoc in E. apply app_inv_head in E. exists z. now rewrite E.
  - exists []. cbn. assert (blen z = 0) as Z.
    { apply (f_equal blen) in E. rewrite !blen_app in *. lia. }
    apply blen_nil in Z. subst z. now rewrite app_nil_r in *.
Qed.
Lemma slice_between (p c q : str) : slice (p ++ c ++ q) (blen p) (blen (p ++ c ++ q) - blen q) = Ok c.
Proof.
  replace (blen (p ++ c ++ q) - blen q) with (blen p + blen c) by (rewrite !blen_app; lia).
  apply slice_app.
Qed.
Lemma begins_trans a b c : begins a b -> begins b c -> begins a c.
Proof. intros [x ->] [y ->]. exists (x ++ y). now rewrite <- app_assoc. Qed.

Lemma comment_new_spec c : (comment_new c = Ok c /\ ~ substring (lit "-->") c) \/
  (exists x, comment_new c = Err x) /\ substring (lit "-->") c.
Proof.
  unfold comment_new. destruct (contains _ c) eqn:E; [right|left].
  - apply contains_spec in E. split; [now eexists|easy].
  - apply contains_false in E. easy.
Qed.
Lemma cdata_new_spec c : (cdata_new c = Ok c /\ ~ substring (lit "]]>") c) \/
  (exists x, cdata_new c = Err x) /\ substring (lit "]]>") c.
Proof.
  unfold cdata_new. destruct (contains _ c) eqn:E; [right|left].
  - apply contains_spec in E. split; [now eexists|easy].
  - apply contains_false in E. easy.
Qed.

(** Outcome of handling one tag. *)
Inductive tag_result (m : machine) (slc : str) : outcome ptree -> Prop :=
| tr_ok op m' t' : tag_op (m_top m) slc op -> m_do m op = Some m' -> sim t' m' -> tag_result m slc (Ok t')
| tr_err x : (forall op m', tag_op (m_top m) slc op -> m_do m op <> Some m') -> tag_result m slc (Err x)
| tr_panic : tag_panic (m_top m) slc -> (forall op, ~ tag_op (m_top m) slc op) -> tag_result m slc Panic.

Lemma tag_op_fun top slc op op' : tag_op top slc op -> tag_op top slc op' -> op = op'.
Proof.
  assert (X1 : forall x, begins (lit "<!") (lit "<!--" ++ x)) by (intro x; now exists (lit "--" ++ x)).
  assert (X2 : forall x, begins (lit "<!") (lit "<![CDATA[" ++ x)) by (intro x; now exists (lit "[CDATA[" ++ x)).
  intros T T'.
  destruct T as [c H|c H|t b a H1 H2 H3 H4 H5 H6|t b e H1 H2 H3 H4 H5 H6|t b e H1 H2 H3 H4 H5 H6];
  inversion T' as [c' G E|c' G E|t' b' a' G1 G2 G3 G4 G5 G6 E|t' b' e' G1 G2 G3 G4 G5 G6 E|t' b' e' G1 G2 G3 G4 G5 G6 E];
  subst; try discriminate; try contradiction; try (exfalso; now auto); try easy;
  try (rewrite H3 in G3; injection G3 as <-; rewrite H5 in G5; injection G5 as <-; easy).
  - apply app_inv_tail in E. now subst.
  - apply app_inv_tail in E. now subst.
Qed.

Lemma map_err_same {A} (x : outcome A) f : same_kind (map_err x f) x.
Proof. now destruct x. Qed.

(** One call through the simulation. *)
Lemma do_result m t slc op r : sim t m -> tag_op (m_top m) slc op -> same_kind r (pt_do t op) ->
  tag_result m slc r.
Proof.
  intros S T K. pose proof (sim_step t m op S) as H. destruct (m_do m op) as [m'|] eqn:D.
  - destruct H as (t' & E & S'). rewrite E in K. destruct r; cbn in K; try easy. subst a.
    now apply tr_ok with op m'.
  - destruct H as (x & E). rewrite E in K. destruct r; cbn in K; try easy.
    apply tr_err. intros op' m' T' D'. rewrite (tag_op_fun _ _ _ _ T' T) in D'. congruence.
Qed.

Lemma parse_tag_result buffer slc pos t m : sim t m ->
  tag_result m slc (parse_tag buffer slc pos t).
Proof.
  intro S. unfold parse_tag.
  assert (C1 : forall c : str, begins (lit "<!--") slc -> slc = lit "<![CDATA[" ++ c ++ lit "]]>" -> False).
  { intros c [x ->] E. discriminate. }
  destruct (starts_with (lit "<!--") slc && ends_with (lit "-->") slc) eqn:E1.
  { apply andb_true_iff in E1. destruct E1 as [B1 B2].
    apply begins_spec in B1. apply ends_spec in B2.
    assert (NB : ~ ~ begins (lit "<!") slc).
    { intro H. apply H. apply (begins_trans _ (lit "<!--")); [now exists (lit "--")|easy]. }
    assert (OnlyC : forall op, tag_op (m_top m) slc op ->
      exists c, slc = lit "<!--" ++ c ++ lit "-->" /\ ~ substring (lit "-->") c).
    { intros op T. destruct T as [c H|c H|t' b a H1|t' b a H1|t' b a H1]; try contradiction.
      - now exists c.
      - exfalso. now apply (C1 c). }
    assert (Step : 4 <= blen slc - 3 ->
      exists c, slc = lit "<!--" ++ c ++ lit "-->" /\ slice slc 4 (blen slc - 3) = Ok c).
    { intro Hl. destruct (between _ _ _ B1 B2) as [c E]; [cbn [blen lit] in *; cbn; lia|].
      exists c. split; [easy|]. rewrite E. apply slice_between. }
    assert (Comm : forall c, slc = lit "<!--" ++ c ++ lit "-->" -> forall f,
       (forall x, same_kind (f x) (pt_append t (NComment x))) ->
       tag_result m slc (do x <- comment_new c; f x)).
    { intros c E f Hf. destruct (comment_new_spec c) as [[Ec Hc]|[[x Ec] Hc]]; rewrite Ec; cbn [bind].
      - apply (do_result m t slc (OpAppend (NComment c))); [easy| |apply Hf].
        rewrite E. now apply to_comment.
      - apply tr_err. intros op m' T. apply OnlyC in T. destruct T as (c' & E' & Hc').
        rewrite E in E'. apply app_inv_head, app_inv_tail in E'. now subst c'. }
    destruct (4 <? blen slc - 3) eqn:L1.
    - apply Nat.ltb_lt in L1. destruct Step as (c & E & Sl); [lia|]. rewrite Sl. cbn [bind].
      apply Comm; [easy|]. intro x. apply map_err_same.
    - destruct (4 =? blen slc - 3) eqn:L2.
      + apply Nat.eqb_eq in L2. destruct Step as (c & E & Sl); [lia|].
        assert (c = []) as ->.
        { apply blen_nil. apply (f_equal blen) in E. rewrite !blen_app in E. cbn in E. lia. }
        apply Comm; [easy|]. intro x. apply same_refl.
      + apply Nat.ltb_ge in L1. apply Nat.eqb_neq in L2. apply tr_err. intros op m' T.
        apply OnlyC in T. destruct T as (c & E & _). apply (f_equal blen) in E.
        rewrite !blen_app in E. cbn in E. lia. }
  destruct (starts_with (lit "<![CDATA[") slc) eqn:E2.
  { apply begins_spec in E2.
    assert (NB : ~ ~ begins (lit "<!") slc).
    { intro H. apply H. apply (begins_trans _ (lit "<![CDATA[")); [now exists (lit "[CDATA[")|easy]. }
    assert (OnlyC : forall op, tag_op (m_top m) slc op ->
      exists c, slc = lit "<![CDATA[" ++ c ++ lit "]]>" /\ ~ substring (lit "]]>") c).
    { intros op T. destruct T as [c H|c H|t' b a H1|t' b a H1|t' b a H1]; try contradiction.
      - destruct E2 as [x E2]. discriminate.
      - now exists c. }
    destruct (ends_with (lit "]]>") slc) eqn:E3; cbn [negb].
    - apply ends_spec in E3.
      destruct (between _ _ _ E2 E3) as [c E].
      { destruct E2 as [x ->]. destruct E3 as [y E3]. rewrite blen_app.
        destruct (prefix_cases _ _ _ _ E3) as [[z Hz]|[z Hz]].
        - apply (f_equal blen) in E3. rewrite Hz, !blen_app in E3. lia.
        - rewrite Hz, <- app_assoc in E3. apply app_inv_head in E3.
          destruct z as [|z0 z]; [cbn [app] in E3; rewrite E3; apply Nat.le_refl|].
          exfalso. injection E3 as -> E3.
          assert (X : In 93%N (lit "<![CDATA[")) by (rewrite Hz; apply in_or_app; right; now left).
          cbn in X. repeat (destruct X as [X|X]; [discriminate|]). easy. }
      replace (slice slc 9 (blen slc - 3)) with (Ok c) by (rewrite E; symmetry; apply slice_between).
      cbn [bind]. destruct (cdata_new_spec c) as [[Ec Hc]|[[x Ec] Hc]]; rewrite Ec; cbn [bind].
      + apply (do_result m t slc (OpAppend (NCData c))); [easy| |apply map_err_same].
        rewrite E. now apply to_cdata.
      + apply tr_err. intros op m' T. apply OnlyC in T. destruct T as (c' & E' & Hc').
        rewrite E in E'. apply app_inv_head, app_inv_tail in E'. now subst c'.
    - apply tr_err. intros op m' T. apply OnlyC in T. destruct T as (c & E & _).
      apply ends_with_false with (r := lit "<![CDATA[" ++ c) in E3. exfalso. apply E3. now rewrite E, <- app_assoc. }
  destruct (starts_with (lit "<!") slc) eqn:E4.
  { apply begins_spec in E4.
    assert (None_ : forall op, ~ tag_op (m_top m) slc op).
    { intros op T. destruct T as [c H|c H|t' b a H1|t' b a H1|t' b a H1]; try contradiction.
      - rewrite starts_with_app in E1. cbn [andb] in E1.
        rewrite app_assoc, ends_with_app in E1. discriminate.
      - rewrite starts_with_app in E2. discriminate. }
    destruct (abbreviate slc 32) eqn:A; cbn [bind].
    - apply tr_err. intros op m' T. now apply None_ in T.
    - apply tr_err. intros op m' T. now apply None_ in T.
    - apply tr_panic; [now apply tp_abbrev|easy].
    - now apply abbreviate_fuel in A. }
  apply begins_false in E4.
  destruct (strip_tag_ok slc) as [b Eb]. rewrite Eb. cbn [bind].
  assert (Checked : forall op, tag_op (m_top m) slc op -> check_element_tag slc = Ok tt).
  { intros op T. destruct T as [c H|c H|t' b' a' H1 H2 H3 H4|t' b' a' H1 H2 H3 H4|t' b' a' H1 H2 H3 H4]; try assumption.
    - exfalso. apply E4. now exists (lit "--" ++ c ++ lit "-->").
    - exfalso. apply E4. now exists (lit "[CDATA[" ++ c ++ lit "]]>"). }
  destruct (check_element_tag slc) as [[]|x| |] eqn:Ec; cbn [map_err bind].
  2:{ apply tr_err. intros op m' T. apply Checked in T. discriminate. }
  2:{ unfold check_element_tag in Ec. destruct (Regex.is_match _ _); discriminate. }
  2:{ unfold check_element_tag in Ec. destruct (Regex.is_match _ _); discriminate. }
  rewrite (sim_top _ _ S).
  destruct (starts_with (lit "</") slc) eqn:E5.
  { apply begins_spec in E5. cbn [bind].
    assert (OnlyPop : forall op, tag_op (m_top m) slc op -> exists a, m_top m = Some a /\ b = tag_name a).
    { intros op T. destruct T as [c H|c H|t' b' a' H1 H2 H3 H4 H5 H6|t' b' a' H1 H2|t' b' a' H1 H2]; try contradiction.
      - exfalso. apply E4. now exists (lit "--" ++ c ++ lit "-->").
      - exfalso. apply E4. now exists (lit "[CDATA[" ++ c ++ lit "]]>").
      - exists a'. rewrite Eb in H3. injection H3 as <-. easy. }
    destruct (m_top m) as [a|] eqn:Et.
    - destruct (str_eqb b (tag_name a)) eqn:Eq; cbn [negb].
      + apply str_eqb_eq in Eq. apply (do_result m t slc OpPop); [easy| |apply same_refl].
        rewrite Et. now apply to_close with b a.
      + apply str_eqb_neq in Eq. apply tr_err. rewrite Et. intros op m' T. apply OnlyPop in T.
        destruct T as (a' & E' & T). now injection E' as <-.
    - apply tr_err. rewrite Et. intros op m' T. apply OnlyPop in T. now destruct T as (a' & ? & _). }
  apply begins_false in E5. cbn [bind].
  pose proof (element_of_same b buffer pos (m_top m)) as K.
  assert (OnlyE : forall op, tag_op (m_top m) slc op -> exists e, element_of (m_top m) b = Ok e).
  { intros op T. destruct T as [c H|c H|t' b' a' H1 H2|t' b' e H1 H2 H3 H4 H5|t' b' e H1 H2 H3 H4 H5]; try contradiction.
    - exfalso. apply E4. now exists (lit "--" ++ c ++ lit "-->").
    - exfalso. apply E4. now exists (lit "[CDATA[" ++ c ++ lit "]]>").
    - exists e. rewrite Eb in H3. injection H3 as <-. easy.
    - exists e. rewrite Eb in H3. injection H3 as <-. easy. }
  destruct (parse_new_element b buffer pos (m_top m)) as [e|x| |] eqn:Ep; cbn [bind];
    destruct (element_of (m_top m) b) as [e'|x'| |] eqn:Ee; cbn in K; try contradiction.
  - subst e'. destruct (ends_with (lit "/>") slc) eqn:E6.
    + apply ends_spec in E6. apply (do_result m t slc (OpAppend (NElem e))); [easy| |apply map_err_same].
      now apply to_single with b.
    + apply (do_result m t slc (OpPush e)); [easy| |apply same_refl].
      apply to_open with b; try easy. intros [y Hy]. now apply (proj1 (ends_with_false _ _) E6 y).
  - apply tr_err. intros op m' T. apply OnlyE in T. now destruct T.
  - apply tr_panic; [now apply tp_elem with b|]. intros op T. apply OnlyE in T. now destruct T.
  - now apply element_of_fuel in Ee.
Qed.

(** * The second loop *)

(** Text before a tag becomes a text node unless it is blank. *)
Definition blank_or_empty (s : str) : Prop := Forall (fun c => is_whitespace c = true) s.
Inductive text_op : str -> option pt_op -> Prop :=
| tx_blank txt : blank_or_empty txt -> text_op txt None
| tx_text txt v : ~ blank_or_empty txt -> unescape txt = Ok v -> text_op txt (Some (OpAppend (NText v))).
Inductive text_step (m : machine) (txt : str) : machine -> Prop :=
| ts_none : text_op txt None -> text_step m txt m
| ts_some op m' : text_op txt (Some op) -> m_do m op = Some m' -> text_step m txt m'.
Inductive tag_step (m : machine) (t : str) : machine -> Prop :=
| tg op m' : tag_op (m_top m) t op -> m_do m op = Some m' -> tag_step m t m'.
Inductive feeds : machine -> list (str * str) -> machine -> Prop :=
| fd_nil m : feeds m [] m
| fd_cons m txt t toks m1 m2 m' : text_step m txt m1 -> tag_step m1 t m2 -> feeds m2 toks m' ->
    feeds m ((txt, t) :: toks) m'.

Lemma is_blank_spec s : is_blank s = true <-> blank_or_empty s.
Proof. unfold is_blank, blank_or_empty. rewrite forallb_forall, Forall_forall. easy. Qed.
Lemma is_blank_false s : is_blank s = false <-> ~ blank_or_empty s.
Proof. rewrite <- is_blank_spec. destruct (is_blank s); split; congruence. Qed.

Lemma text_step_fun m txt m1 m2 : text_step m txt m1 -> text_step m txt m2 -> m1 = m2.
Proof.
  intros [H|op m' H D] [H'|op' m'' H' D']; try easy; inversion H as [t B|t v B U]; inversion H' as [t' B'|t' v' B' U']; subst; try contradiction.
  congruence.
Qed.
Lemma tag_step_fun m t m1 m2 : tag_step m t m1 -> tag_step m t m2 -> m1 = m2.
Proof.
  intros [op m' H D] [op' m'' H' D']. rewrite (tag_op_fun _ _ _ _ H H') in D. congruence.
Qed.

(** Outcome of handling the text before a tag. *)
Inductive text_result (m : machine) (txt : str) : outcome ptree -> Prop :=
| xr_ok m' t' : text_step m txt m' -> sim t' m' -> text_result m txt (Ok t')
| xr_err x : (forall m', ~ text_step m txt m') -> text_result m txt (Err x)
| xr_panic : ~ blank_or_empty txt -> unescape txt = Panic -> text_result m txt Panic.
Lemma text_result_spec buffer pos txt t m : sim t m ->
  text_result m txt (do rt <- real_text txt;
                     match rt with
                     | None => Ok t
                     | Some content => map_err (pt_append t (NText content)) (at_pos buffer pos)
                     end).
Proof.
  intro S. unfold real_text. destruct (is_blank txt) eqn:B.
  - apply is_blank_spec in B. cbn. apply xr_ok with m; [|easy]. apply ts_none. now apply tx_blank.
  - apply is_blank_false in B. destruct (unescape_returns txt) as [[v Ev]|Ev]; rewrite Ev; cbn [bind].
    + pose proof (sim_step t m (OpAppend (NText v)) S) as H. cbn [pt_do] in H.
      destruct (m_do m (OpAppend (NText v))) as [m'|] eqn:D.
      * destruct H as (t' & E & S'). rewrite E. cbn. apply xr_ok with m'; [|easy].
        apply ts_some with (OpAppend (NText v)); [now apply tx_text|easy].
      * destruct H as (x & E). rewrite E. cbn. apply xr_err. intros m' T.
        inversion T as [T1|op m'' T1 D']; inversion T1 as [? B'|? v' B' U]; subst; [contradiction|].
        rewrite Ev in U. injection U as <-. congruence.
    + now apply xr_panic.
Qed.

(** One iteration. *)
Lemma content_step f pre txt s t rest sc st tr : no_tag txt -> tag_at s t rest ->
  content_loop (S f) (pre ++ txt ++ s) sc (st, blen pre) tr =
  if sc then Err (perr POnlyOneRoot (pre ++ txt ++ s) (blen pre + blen txt))
  else do t1 <- (do rt <- real_text txt;
                 match rt with
                 | None => Ok tr
                 | Some content => map_err (pt_append tr (NText content))
                                     (at_pos (pre ++ txt ++ s) (blen pre + blen txt))
                 end);
       do t2 <- parse_tag (pre ++ txt ++ s) t (blen pre + blen txt) t1;
       content_loop f ((pre ++ txt ++ t) ++ rest) sc (blen pre + blen txt, blen (pre ++ txt ++ t)) t2.
Proof.
  intros Hn T. cbn [content_loop snd]. rewrite (next_tag_at pre txt s t rest Hn T). cbn [bind].
  destruct (tag_at_nonempty _ _ _ T) as [-> _]. destruct sc; [easy|].
  rewrite slice_app. cbn [bind].
  destruct (real_text txt) as [rt| | |]; [|easy..]. cbn [bind].
  match goal with |- bind ?x ?g = bind ?x ?h => destruct x; [|easy..] end. cbn [bind].
  replace (pre ++ txt ++ t ++ rest) with ((pre ++ txt) ++ t ++ rest) by now rewrite <- !app_assoc.
  rewrite <- blen_app, slice_app. cbn [bind].
  destruct (parse_tag _ _ _ _); [|easy..]. cbn [bind].
  rewrite <- !blen_app, <- !app_assoc. easy.
Qed.
Lemma content_end f pre s sc st tr : no_tag s ->
  content_loop (S f) (pre ++ s) sc (st, blen pre) tr = Ok tr.
Proof. intro Hn. cbn [content_loop snd]. now rewrite (next_tag_none pre s Hn). Qed.

Inductive broken : str -> Prop :=
| br txt s : no_tag txt -> begins [lt_] s -> (forall t rest, ~ tag_at s t rest) -> broken (txt ++ s).
Lemma content_broken f pre s sc st tr : broken s ->
  exists x, content_loop (S f) (pre ++ s) sc (st, blen pre) tr = Err x.
Proof.
  intros [txt s' Hn L Hno]. cbn [content_loop snd].
  pose proof (next_tag_spec pre (txt ++ s')) as R.
  destruct R as [Hs|txt' s'' E Hn' L' Hno'|txt' s'' t' rest' E Hn' T'].
  - exfalso. apply Hs. destruct L as [x ->]. apply in_or_app. right. now left.
  - cbn [bind]. now eexists.
  - exfalso. destruct (split_lt _ _ _ _ Hn Hn' L (tag_at_lt _ _ _ T') E) as [-> ->].
    now apply (Hno t' rest').
Qed.
Lemma lex_cases s : no_tag s \/ broken s \/
  exists txt s' t rest, s = txt ++ s' /\ no_tag txt /\ tag_at s' t rest /\ blen rest < blen s.
Proof.
  pose proof (next_tag_spec [] s) as R.
  destruct R as [Hs|txt' s'' E Hn' L' Hno'|txt' s'' t' rest' E Hn' T'].
  - now left.
  - right. left. rewrite E. now apply br.
  - right. right. exists txt', s'', t', rest'. split; [easy|]. split; [easy|]. split; [easy|].
    destruct (tag_at_nonempty _ _ _ T') as [E' N]. rewrite E, E', !blen_app.
    assert (blen t' <> 0) by (intro Z; now apply blen_nil in Z). lia.
Qed.

(** Outcome of the loop. *)
Inductive loop_result (m : machine) (s : str) : outcome ptree -> Prop :=
| lr_ok toks tail m' t' : splits s toks tail -> feeds m toks m' -> sim t' m' -> loop_result m s (Ok t')
| lr_err x : loop_result m s (Err x)
| lr_text toks rest txt m' : lexed s toks rest -> begins txt rest -> feeds m toks m' ->
    ~ blank_or_empty txt -> unescape txt = Panic -> loop_result m s Panic
| lr_tag toks rest txt s' t rest' m1 m2 : lexed s toks rest -> feeds m toks m1 ->
    rest = txt ++ s' -> no_tag txt -> tag_at s' t rest' -> text_step m1 txt m2 -> tag_panic (m_top m2) t ->
    loop_result m s Panic.

Lemma content_result : forall f pre s st tr m, sim tr m -> blen s < f ->
  loop_result m s (content_loop f (pre ++ s) false (st, blen pre) tr).
Proof.
  induction f as [|f IH]; intros pre s st tr m Sm Hf; [lia|].
  destruct (lex_cases s) as [Hn|[Hb|(txt & s' & t & rest & -> & Hn & T & Hlt)]].
  - rewrite content_end by easy. apply lr_ok with [] s m; [|apply fd_nil|easy]. split; [apply lx_nil|easy].
  - destruct (content_broken f pre s false st tr Hb) as [x ->]. apply lr_err.
  - rewrite (content_step f pre txt s' t rest false st tr Hn T).
    pose proof (text_result_spec (pre ++ txt ++ s') (blen pre + blen txt) txt tr m Sm) as TR.
    destruct TR as [m1 t1 X1 S1|x Hx|Hb U]; cbn [bind].
    2:{ apply lr_err. }
    2:{ eapply lr_text; [apply lx_nil|apply begins_app|apply fd_nil|easy|easy]. }
    pose proof (parse_tag_result (pre ++ txt ++ s') t (blen pre + blen txt) t1 m1 S1) as PR.
    destruct PR as [op m2 t2 O D S2|x Hx|P HP]; cbn [bind].
    2:{ apply lr_err. }
    2:{ eapply lr_tag; [apply lx_nil|apply fd_nil|reflexivity|exact Hn|exact T|exact X1|exact P]. }
    assert (Step : feeds m [(txt, t)] m2).
    { apply fd_cons with m1 m2; [easy|now apply tg with op|apply fd_nil]. }
    assert (FC : forall toks m', feeds m2 toks m' -> feeds m ((txt, t) :: toks) m').
    { intros toks m' H. apply fd_cons with m1 m2; [easy|now apply tg with op|easy]. }
    destruct (IH (pre ++ txt ++ t) rest (blen pre + blen txt) t2 m2 S2) as [toks tail m' t' Sp F Sm'|x|toks r x m' L B F Hb U|toks r x s'' tt' r' m3 m4 L F E Hx T' X P].
    + lia.
    + apply lr_ok with ((txt, t) :: toks) tail m'; [|now apply FC|easy].
      destruct Sp as [L Nt]. split; [|easy]. now apply lx_tag with rest.
    + apply lr_err.
    + apply lr_text with ((txt, t) :: toks) r x m'; [now apply lx_tag with rest|easy|now apply FC|easy|easy].
    + apply lr_tag with ((txt, t) :: toks) r x s'' tt' r' m3 m4;
        [now apply lx_tag with rest|now apply FC|easy|easy|easy|easy|easy].
Qed.

Lemma content_ok : forall toks s tail, splits s toks tail -> forall f pre st tr m m', sim tr m ->
  feeds m toks m' -> blen s < f ->
  exists t', content_loop f (pre ++ s) false (st, blen pre) tr = Ok t' /\ sim t' m'.
Proof.
  intros toks s tail [L Nt]. induction L as [s|txt s t rest toks tail Hn T L IH];
    intros f pre st tr m m' Sm F Hf.
  - inversion F; subst. destruct f as [|f]; [lia|]. exists tr. split; [now apply content_end|easy].
  - inversion F as [|? ? ? ? m1 m2 ? X G F']; subst. destruct f as [|f]; [lia|].
    rewrite (content_step f pre txt s t rest false st tr Hn T).
    pose proof (text_result_spec (pre ++ txt ++ s) (blen pre + blen txt) txt tr m Sm) as TR.
    destruct TR as [m1' t1 X1 S1|x Hx|Hb U]; cbn [bind].
    2:{ exfalso. now apply (Hx m1). }
    2:{ exfalso. inversion X as [X1|op m'' X1 D']; inversion X1 as [? B'|? v' B' U']; subst; [contradiction|]. congruence. }
    assert (m1' = m1) as -> by now apply (text_step_fun m txt).
    pose proof (parse_tag_result (pre ++ txt ++ s) t (blen pre + blen txt) t1 m1 S1) as PR.
    destruct PR as [op m2' t2 O D S2|x Hx|P HP]; cbn [bind].
    2:{ exfalso. destruct G as [op m2 O D]. now apply (Hx op m2). }
    2:{ exfalso. destruct G as [op m2 O D]. now apply (HP op). }
    assert (m2' = m2) as -> by (apply (tag_step_fun m1 t); [now apply tg with op|easy]).
    apply (IH Nt f (pre ++ txt ++ t) (blen pre + blen txt) t2 m2 m'); [easy|easy|].
    destruct (tag_at_nonempty _ _ _ T) as [E N]. rewrite E, !blen_app in Hf.
    assert (blen t <> 0) by (intro Z; now apply blen_nil in Z). lia.
Qed.

(** After a self-closing root. *)
Lemma content_selfclosing f pre s st tr : blen s < f ->
  (no_tag s /\ content_loop f (pre ++ s) true (st, blen pre) tr = Ok tr) \/
  (~ no_tag s /\ exists x, content_loop f (pre ++ s) true (st, blen pre) tr = Err x).
Proof.
  intro Hf. destruct f as [|f]; [lia|].
  destruct (lex_cases s) as [Hn|[Hb|(txt & s' & t & rest & -> & Hn & T & Hlt)]].
  - left. split; [easy|]. now apply content_end.
  - right. split; [|now apply content_broken]. destruct Hb as [txt s' H1 [x ->] _].
    intro H. apply H. apply in_or_app. right. now left.
  - right. split.
    + intro H. apply H. destruct (tag_at_lt _ _ _ T) as [x ->]. apply in_or_app. right. now left.
    + rewrite (content_step f pre txt s' t rest true st tr Hn T). now eexists.
Qed.

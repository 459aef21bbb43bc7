(** [parse_str] as a whole. *)
From Coq Require Import List NArith Arith Bool Ascii String Lia.
From Verif Require Import Base BaseFacts Escape Dom Spec EscapeFacts SpecDom DomFacts SpecApi ApiFacts
  ParseTree SpecTree ParseTreeFacts Parse SpecLex LexFacts ParseFacts.
Import ListNotations.

Definition flatten (toks : list (str * str)) : str := flat_map (fun x => fst x ++ snd x) toks.
Lemma flatten_cons a b toks : flatten ((a, b) :: toks) = a ++ b ++ flatten toks.
Proof. cbn. now rewrite <- app_assoc. Qed.
Lemma lexed_flatten s toks tail : lexed s toks tail -> s = flatten toks ++ tail.
Proof.
  intro L. induction L as [s|txt s t rest toks tail Hn T L IH]; [easy|].
  destruct (tag_at_nonempty _ _ _ T) as [-> _]. rewrite IH at 1. cbn. now rewrite <- !app_assoc.
Qed.
Lemma lexed_app s toks mid toks' tail : lexed s toks mid -> lexed mid toks' tail -> lexed s (toks ++ toks') tail.
Proof.
  intros L L'. induction L as [s|txt s t rest toks tail' Hn T L IH]; [easy|].
  cbn. apply lx_tag with rest; auto.
Qed.
Lemma lexed_split s a b tail : lexed s (a ++ b) tail -> exists mid, lexed s a mid /\ lexed mid b tail.
Proof.
  revert s. induction a as [|[txt t] a IH]; intros s L; [exists s; split; [apply lx_nil|easy]|].
  inversion L as [|? s0 ? rest ? ? Hn T L']; subst. destruct (IH _ L') as (mid & H1 & H2).
  exists mid. split; [|easy]. now apply lx_tag with rest.
Qed.
Lemma lexed_fun s toks tail : lexed s toks tail -> no_tag tail ->
  forall toks' tail', lexed s toks' tail' -> no_tag tail' -> toks = toks' /\ tail = tail'.
Proof.
  intro L. induction L as [s|txt s t rest toks tail Hn T L IH]; intros Nt toks' tail' L' Nt'.
  - inversion L' as [|txt' s' t' rest' ? ? Hn' T' L'']; subst; [easy|]. exfalso. apply Nt.
    destruct (tag_at_lt _ _ _ T') as [x ->]. apply in_or_app. right. now left.
  - inversion L' as [|txt' s' t' rest' ? ? Hn' T' L'' E]; subst.
    + exfalso. apply Nt'. destruct (tag_at_lt _ _ _ T) as [x ->]. apply in_or_app. right. now left.
    + destruct (split_lt _ _ _ _ Hn' Hn (tag_at_lt _ _ _ T') (tag_at_lt _ _ _ T) E) as [-> ->].
      destruct (tag_at_fun _ _ _ _ _ T T') as [-> ->].
      destruct (IH Nt _ _ L'' Nt') as [-> ->]. easy.
Qed.

Lemma lexed_head s toks tail : toks <> [] -> lexed s toks tail ->
  exists a b r r', s = a ++ b /\ no_tag a /\ tag_at b r r'.
Proof. intros N L. destruct L as [|txt s t rest toks tail Hn T L]; [easy|]. now exists txt, s, t, rest. Qed.

(** * The first loop *)

Inductive prolog : nat -> nat -> nat -> option str -> list str -> list (str * str) -> option str -> list str -> Prop :=
| pg_nil st p n decl dtds : prolog st p n decl dtds [] decl dtds
| pg_decl p n decl dtds txt t toks d decl' dtds' : blank_or_empty txt -> begins (lit "<?xml") t ->
    declaration_from_str t = Ok d ->
    prolog (p + blen txt) (p + blen txt + blen t) n (Some d) dtds toks decl' dtds' ->
    prolog 0 p n decl dtds ((txt, t) :: toks) decl' dtds'
| pg_comment st p n decl dtds txt t toks decl' dtds' : blank_or_empty txt -> begins (lit "<!--") t ->
    (n = 0 -> exists a, abbreviate t 32 = Ok a) ->
    prolog (p + blen txt) (p + blen txt + blen t) (S n) decl dtds toks decl' dtds' ->
    prolog st p n decl dtds ((txt, t) :: toks) decl' dtds'
| pg_dtd st p n decl dtds txt t toks d decl' dtds' : blank_or_empty txt -> begins (lit "<!DOCTYPE") t ->
    dtd_from_string t = Ok d ->
    prolog (p + blen txt) (p + blen txt + blen t) n decl (dtds ++ [d]) toks decl' dtds' ->
    prolog st p n decl dtds ((txt, t) :: toks) decl' dtds'
| pg_other st p n decl dtds txt t toks decl' dtds' : blank_or_empty txt -> begins (lit "<!") t ->
    ~ begins (lit "<!--") t -> ~ begins (lit "<!DOCTYPE") t ->
    prolog (p + blen txt) (p + blen txt + blen t) n decl dtds toks decl' dtds' ->
    prolog st p n decl dtds ((txt, t) :: toks) decl' dtds'.

Definition root_tag (t : str) : Prop :=
  ~ begins (lit "<?xml") t /\ ~ begins (lit "<!") t /\ ~ begins (lit "</") t /\ check_element_tag t = Ok tt.

Inductive prolog_result (st p n : nat) (decl : option str) (dtds : list str) (s : str)
  : outcome (option str * list str * (nat * nat)) -> Prop :=
| pr_ok toks txt t rest decl' dtds' : lexed s (toks ++ [(txt, t)]) rest ->
    prolog st p n decl dtds toks decl' dtds' -> blank_or_empty txt -> root_tag t ->
    prolog_result st p n decl dtds s
      (Ok (decl', dtds', (p + blen (flatten toks) + blen txt, p + blen (flatten toks) + blen txt + blen t)))
| pr_err x :
    (forall toks txt t rest decl' dtds', lexed s (toks ++ [(txt, t)]) rest ->
       prolog st p n decl dtds toks decl' dtds' -> blank_or_empty txt -> root_tag t -> False) ->
    prolog_result st p n decl dtds s (Err x)
| pr_panic toks txt t rest :
    (forall toks txt t rest decl' dtds', lexed s (toks ++ [(txt, t)]) rest ->
       prolog st p n decl dtds toks decl' dtds' -> blank_or_empty txt -> root_tag t -> False) ->
    lexed s (toks ++ [(txt, t)]) rest ->
    unescape txt = Panic \/ abbreviate t 32 = Panic ->
    prolog_result st p n decl dtds s Panic.

Definition prolog_tag (f : nat) (buffer : str) (decl : option str) (dtds : list str) (n : nat) (st tag_start tag_end : nat)
  (slc : str) : outcome (option str * list str * (nat * nat)) :=
  if starts_with (lit "<?xml") slc then
    if negb (st =? 0) then Err (perr PDeclNotFirst buffer tag_start)
    else do d <- declaration_from_str slc; prolog_loop f buffer (Some d) dtds n (tag_start, tag_end)
  else if starts_with (lit "<!--") slc then
    do _w <- (if n =? 0 then do _a <- abbreviate slc 32; Ok tt else Ok tt);
    prolog_loop f buffer decl dtds (S n) (tag_start, tag_end)
  else if starts_with (lit "<!DOCTYPE") slc then
    do d <- dtd_from_string slc; prolog_loop f buffer decl (dtds ++ [d]) n (tag_start, tag_end)
  else if starts_with (lit "<!") slc then prolog_loop f buffer decl dtds n (tag_start, tag_end)
  else if starts_with (lit "</") slc then Err (perr PStartsWithClose buffer tag_start)
  else
    do _c <- map_err (check_element_tag slc) (fun _ => perr PInvalidSyntax buffer tag_start);
    Ok (decl, dtds, (tag_start, tag_end)).

Lemma prolog_step f pre txt s t rest decl dtds n st : no_tag txt -> tag_at s t rest ->
  prolog_loop (S f) (pre ++ txt ++ s) decl dtds n (st, blen pre) =
  do rt <- real_text txt;
  match rt with
  | Some _ => Err (perr PTextOutsideRoot (pre ++ txt ++ s) (blen pre))
  | None => prolog_tag f ((pre ++ txt ++ t) ++ rest) decl dtds n st (blen pre + blen txt) (blen (pre ++ txt ++ t)) t
  end.
Proof.
  intros Hn T. cbn [prolog_loop snd fst]. rewrite (next_tag_at pre txt s t rest Hn T). cbn [bind].
  destruct (tag_at_nonempty _ _ _ T) as [-> _].
  rewrite slice_app. cbn [bind].
  destruct (real_text txt) as [[rt|]| | |]; [easy| |easy..]. cbn [bind].
  replace (pre ++ txt ++ t ++ rest) with ((pre ++ txt) ++ t ++ rest) by now rewrite <- !app_assoc.
  rewrite <- blen_app, slice_app. cbn [bind]. unfold prolog_tag.
  rewrite <- !blen_app, <- !app_assoc. easy.
Qed.

Lemma real_text_cases txt :
  (blank_or_empty txt /\ real_text txt = Ok None) \/
  (~ blank_or_empty txt /\ exists v, unescape txt = Ok v /\ real_text txt = Ok (Some v)) \/
  (~ blank_or_empty txt /\ unescape txt = Panic /\ real_text txt = Panic).
Proof.
  unfold real_text. destruct (is_blank txt) eqn:B.
  - apply is_blank_spec in B. now left.
  - apply is_blank_false in B. right.
    destruct (unescape_returns txt) as [[v Ev]|Ev]; rewrite Ev; cbn [bind]; [left|now right].
    split; [easy|]. now exists v.
Qed.

(** Declarations and DTDs that reach the parser are well delimited. *)
Lemma trim_markup (p m q : str) :
  match p with [] => False | c :: _ => is_whitespace c = false end ->
  match rev q with [] => False | c :: _ => is_whitespace c = false end ->
  trim (p ++ m ++ q) = p ++ m ++ q.
Proof.
  intros Hp Hq. pose proof (trim_surrounded [] [] (p ++ m ++ q) eq_refl eq_refl) as H.
  rewrite app_nil_r in H. cbn [app] in H. apply H.
  - now destruct p.
  - rewrite !rev_app_distr. now destruct (rev q).
Qed.
Lemma decl_ok s t rest : tag_at s t rest -> begins (lit "<?xml") t ->
  exists d, t = lit "<?" ++ d ++ lit "?>" /\ begins (lit "xml") d /\ declaration_from_str t = Ok d.
Proof.
  intros T B. assert (Bs : begins (lit "<?") s).
  { destruct (tag_at_nonempty _ _ _ T) as [-> _]. destruct B as [x ->]. now exists (lit "xml" ++ x ++ rest). }
  destruct T as [H _|_ H|H _|H _ _ _|_ H _ _]; try contradiction.
  - destruct Bs as [x ->]. destruct H as [y E]. discriminate.
  - destruct H as (_ & (b & -> & _) & _). exists b. split; [easy|]. split.
    { destruct B as [x E]. cbn in E. injection E as E.
      destruct b as [|b0 b]; [discriminate|]. injection E as -> E.
      destruct b as [|b0 b]; [discriminate|]. injection E as -> E.
      destruct b as [|b0 b]; [discriminate|]. injection E as -> E. now exists b. }
    unfold declaration_from_str.
    rewrite trim_markup by easy.
    rewrite starts_with_app. replace (ends_with (lit "?>") (lit "<?" ++ b ++ lit "?>")) with true
      by (rewrite app_assoc; symmetry; apply ends_with_app). cbn [andb].
    replace (strip_prefix (lit "<?") (lit "<?" ++ b ++ lit "?>")) with (Some (b ++ lit "?>"))
      by (symmetry; now apply strip_prefix_spec). cbn [unwrap bind].
    replace (strip_suffix (lit "?>") (b ++ lit "?>")) with (Some b) by (symmetry; now apply strip_suffix_spec). easy.
  - destruct Bs as [x ->]. destruct H as [y E]. discriminate.
  - destruct Bs as [x ->]. destruct H as [y E]. discriminate.
Qed.
Lemma dtd_ok s t rest : tag_at s t rest -> begins (lit "<!DOCTYPE") t ->
  exists d, t = lit "<!DOCTYPE" ++ d ++ lit ">" /\ dtd_from_string t = Ok d.
Proof.
  intros T B. assert (Bs : begins (lit "<!DOCTYPE") s).
  { destruct (tag_at_nonempty _ _ _ T) as [-> _]. destruct B as [x ->]. exists (x ++ rest). now rewrite <- app_assoc. }
  assert (X : forall p, starts_with p (lit "<!DOCTYPE") = false -> begins p s -> begins (lit "<!DOCTYPE") p).
  { intros p Hp [y E]. destruct Bs as [x ->]. destruct (prefix_cases _ _ _ _ E) as [H|[z Hz]]; [easy|].
    exfalso. rewrite Hz, starts_with_app in Hp. discriminate. }
  destruct T as [H _|H _|H _|_ _ _ H|_ _ H _].
  - destruct (X (lit "<!--") eq_refl H) as [z Hz]. discriminate.
  - destruct (X (lit "<?") eq_refl H) as [z Hz]. discriminate.
  - destruct (X (lit "<![CDATA[") eq_refl H) as [z Hz]. discriminate.
  - destruct H as (_ & (b & -> & _) & _).
    assert (exists d, lit "<!" ++ b ++ lit ">" = lit "<!DOCTYPE" ++ d ++ lit ">") as [d E].
    { apply between; [easy|now exists (lit "<!" ++ b); rewrite <- app_assoc|].
      destruct B as [x E]. assert (x <> []) as Nx.
      { intros ->. rewrite app_nil_r in E. change (lit "<!DOCTYPE") with (lit "<!DOCTYP" ++ lit "E") in E.
        rewrite app_assoc in E. apply app_inj_tail in E. destruct E as [_ E]. discriminate. }
      rewrite E, blen_app. assert (blen x <> 0) by (intro Z; now apply blen_nil in Z).
      change (blen (lit ">")) with 1. lia. }
    exists d. split; [easy|]. rewrite E. unfold dtd_from_string.
    rewrite trim_markup by easy.
    rewrite starts_with_app. replace (ends_with (lit ">") (lit "<!DOCTYPE" ++ d ++ lit ">")) with true
      by (rewrite app_assoc; symmetry; apply ends_with_app). cbn [andb].
    replace (strip_prefix (lit "<!DOCTYPE") (lit "<!DOCTYPE" ++ d ++ lit ">")) with (Some (d ++ lit ">"))
      by (symmetry; now apply strip_prefix_spec). cbn [unwrap bind].
    replace (strip_suffix (lit ">") (d ++ lit ">")) with (Some d) by (symmetry; now apply strip_suffix_spec). easy.
  - exfalso. apply H. destruct Bs as [x ->]. now exists (lit "DOCTYPE" ++ x).
Qed.

Lemma lexed_one_inv s txt t rest toks tail : no_tag txt -> tag_at s t rest ->
  lexed (txt ++ s) toks tail -> toks = [] \/ exists toks', toks = (txt, t) :: toks' /\ lexed rest toks' tail.
Proof.
  intros Hn T L. inversion L as [|txt' s' t' rest' ? ? Hn' T' L'' E]; subst; [now left|]. right.
  destruct (split_lt _ _ _ _ Hn' Hn (tag_at_lt _ _ _ T') (tag_at_lt _ _ _ T) E) as [-> ->].
  destruct (tag_at_fun _ _ _ _ _ T T') as [-> ->]. now eexists.
Qed.

Lemma prolog_spec : forall f pre s decl dtds n st, blen s < f ->
  prolog_result st (blen pre) n decl dtds s (prolog_loop f (pre ++ s) decl dtds n (st, blen pre)).
Proof.
  induction f as [|f IH]; intros pre s decl dtds n st Hf; [lia|].
  destruct (lex_cases s) as [Hn|[Hb|(txt & s' & t & rest & -> & Hn & T & Hlt)]].
  - cbn [prolog_loop snd]. rewrite (next_tag_none pre s Hn). cbn [bind]. apply pr_err.
    intros toks txt t rest decl' dtds' L _ _ _. apply Hn.
    destruct (lexed_head _ _ _ (fun E => app_cons_not_nil _ _ _ (eq_sym E)) L) as (a & b & r & r' & -> & _ & T).
    destruct (tag_at_lt _ _ _ T) as [x ->]. apply in_or_app. right. now left.
  - assert (E : exists x, prolog_loop (S f) (pre ++ s) decl dtds n (st, blen pre) = Err x).
    { destruct Hb as [txt s' Hn L Hno]. cbn [prolog_loop snd].
      pose proof (next_tag_spec pre (txt ++ s')) as R.
      destruct R as [Hs|txt' s'' E Hn' L' Hno'|txt' s'' t' rest' E Hn' T'].
      - cbn. now eexists.
      - cbn. now eexists.
      - exfalso. destruct (split_lt _ _ _ _ Hn Hn' L (tag_at_lt _ _ _ T') E) as [-> ->].
        now apply (Hno t' rest'). }
    destruct E as [x ->]. apply pr_err. destruct Hb as [txt s' Hn L Hno].
    intros toks txt' t' rest decl' dtds' L' _ _ _.
    destruct (lexed_head _ _ _ (fun E => app_cons_not_nil _ _ _ (eq_sym E)) L') as (a & b & r & r' & E & H1 & H2).
    destruct (split_lt _ _ _ _ Hn H1 L (tag_at_lt _ _ _ H2) E) as [-> ->]. now apply Hno in H2.
  - rewrite (prolog_step f pre txt s' t rest decl dtds n st Hn T).
    assert (Bad : (forall toks decl' dtds', prolog st (blen pre) n decl dtds ((txt, t) :: toks) decl' dtds' -> False) ->
      (blank_or_empty txt -> root_tag t -> False) ->
      forall toks x1 x2 r decl' dtds', lexed (txt ++ s') (toks ++ [(x1, x2)]) r ->
       prolog st (blen pre) n decl dtds toks decl' dtds' -> blank_or_empty x1 -> root_tag x2 -> False).
    { intros H1 H2 toks x1 x2 r decl' dtds' L P B R.
      destruct (lexed_one_inv _ _ _ _ _ _ Hn T L) as [E|(toks' & E & _)]; [now destruct toks|].
      destruct toks as [|y toks].
      - injection E as -> -> _. now apply H2.
      - injection E as -> _. now apply H1 in P. }
    destruct (real_text_cases txt) as [[B R]|[(B & v & U & R)|(B & U & R)]]; rewrite R; cbn [bind].
    2:{ apply pr_err. apply Bad; [|easy]. intros toks decl' dtds' P. inversion P; subst; contradiction. }
    2:{ apply pr_panic with [] txt t rest; [| |now left].
        - apply Bad; [|easy]. intros toks decl' dtds' P. inversion P; subst; contradiction.
        - now apply lx_tag with rest; [..|apply lx_nil]. }
    unfold prolog_tag.
    assert (Rec : forall st' n1 decl1 dtds1, 
       (forall toks decl' dtds', prolog st (blen pre) n decl dtds ((txt, t) :: toks) decl' dtds' <->
          prolog st' (blen pre + blen txt + blen t) n1 decl1 dtds1 toks decl' dtds') ->
       ~ root_tag t ->
       prolog_result st (blen pre) n decl dtds (txt ++ s')
         (prolog_loop f ((pre ++ txt ++ t) ++ rest) decl1 dtds1 n1 (st', blen (pre ++ txt ++ t)))).
    { intros st' n1 decl1 dtds1 H Nr.
      assert (IHr := IH (pre ++ txt ++ t) rest decl1 dtds1 n1 st' ltac:(lia)).
      replace (blen (pre ++ txt ++ t)) with (blen pre + blen txt + blen t) in * by (rewrite !blen_app; lia).
      assert (NegT : (forall toks x1 x2 r decl' dtds', lexed rest (toks ++ [(x1, x2)]) r ->
         prolog st' (blen pre + blen txt + blen t) n1 decl1 dtds1 toks decl' dtds' -> blank_or_empty x1 -> root_tag x2 -> False) ->
         forall toks x1 x2 r decl' dtds', lexed (txt ++ s') (toks ++ [(x1, x2)]) r ->
         prolog st (blen pre) n decl dtds toks decl' dtds' -> blank_or_empty x1 -> root_tag x2 -> False).
      { intros HN toks x1 x2 r decl' dtds' L P B1 R1.
        destruct (lexed_one_inv _ _ _ _ _ _ Hn T L) as [E|(toks' & E & L')]; [now destruct toks|].
        destruct toks as [|y toks]; [injection E as -> -> _; contradiction|].
        injection E as -> E. subst toks'. apply H in P. eapply HN; eassumption. }
      destruct IHr as [toks x1 x2 r decl' dtds' L P B1 R1|x HN|toks x1 x2 r HN L Pn].
      - assert (E : forall a, blen pre + blen txt + blen t + blen (flatten toks) + a =
                  blen pre + blen (flatten ((txt, t) :: toks)) + a) by (intro a; rewrite flatten_cons, !blen_app; lia).
        rewrite !E. apply pr_ok with r; [|now apply H|easy|easy]. cbn. now apply lx_tag with rest.
      - apply pr_err. now apply NegT.
      - apply pr_panic with ((txt, t) :: toks) x1 x2 r; [now apply NegT| |easy]. cbn. now apply lx_tag with rest. }
    destruct (starts_with (lit "<?xml") t) eqn:E1.
    { apply begins_spec in E1.
      assert (Nr : ~ root_tag t) by (intros (H & _); contradiction).
      assert (Nb : ~ begins (lit "<!") t) by (destruct E1 as [x ->]; intros [y Ey]; discriminate).
      assert (Nc : ~ begins (lit "<!--") t) by (destruct E1 as [x ->]; intros [y Ey]; discriminate).
      assert (Nd : ~ begins (lit "<!DOCTYPE") t) by (destruct E1 as [x ->]; intros [y Ey]; discriminate).
      destruct (st =? 0) eqn:Est; cbn [negb].
      - apply Nat.eqb_eq in Est. subst st. destruct (decl_ok _ _ _ T E1) as (d & _ & _ & Ed). rewrite Ed. cbn [bind].
        apply Rec; [|easy]. intros toks decl' dtds'. split.
        + intro P. inversion P; subst; try contradiction. congruence.
        + intro P. now apply pg_decl with d.
      - apply Nat.eqb_neq in Est. apply pr_err. apply Bad; [|easy]. intros toks decl' dtds' P.
        inversion P; subst; try contradiction. }
    apply begins_false in E1.
    destruct (starts_with (lit "<!--") t) eqn:E2.
    { apply begins_spec in E2.
      assert (Nb : begins (lit "<!") t) by (destruct E2 as [x ->]; now exists (lit "--" ++ x)).
      assert (Nr : ~ root_tag t) by (intros (_ & H & _); contradiction).
      assert (Nd : ~ begins (lit "<!DOCTYPE") t) by (destruct E2 as [x ->]; intros [y Ey]; discriminate).
      assert (Go : (n = 0 -> exists a, abbreviate t 32 = Ok a) ->
        prolog_result st (blen pre) n decl dtds (txt ++ s')
         (prolog_loop f ((pre ++ txt ++ t) ++ rest) decl dtds (S n) (blen pre + blen txt, blen (pre ++ txt ++ t)))).
      { intro Ha. apply Rec; [|easy]. intros toks decl' dtds'. split.
        - intro P. inversion P; subst; try contradiction. easy.
        - intro P. now apply pg_comment. }
      destruct (n =? 0) eqn:En.
      - apply Nat.eqb_eq in En. subst n. destruct (abbreviate t 32) as [a|x| |] eqn:Ea; cbn [bind].
        + apply Go. intros _. now exists a.
        + apply pr_err. apply Bad; [|easy]. intros toks decl' dtds' P. inversion P as [| |? ? ? ? ? ? ? ? ? ? ? ? HA| |]; subst; try contradiction.
          destruct (HA eq_refl) as [a Ha]. congruence.
        + apply pr_panic with [] txt t rest; [| |now right].
          * apply Bad; [|easy]. intros toks decl' dtds' P. inversion P as [| |? ? ? ? ? ? ? ? ? ? ? ? HA| |]; subst; try contradiction.
            destruct (HA eq_refl) as [a Ha]. congruence.
          * now apply lx_tag with rest; [..|apply lx_nil].
        + now apply abbreviate_fuel in Ea.
      - apply Nat.eqb_neq in En. cbn [bind]. apply Go. contradiction. }
    apply begins_false in E2.
    destruct (starts_with (lit "<!DOCTYPE") t) eqn:E3.
    { apply begins_spec in E3.
      assert (Nb : begins (lit "<!") t) by (destruct E3 as [x ->]; now exists (lit "DOCTYPE" ++ x)).
      destruct (dtd_ok _ _ _ T E3) as (d & _ & Ed). rewrite Ed. cbn [bind]. apply Rec.
      - intros toks decl' dtds'. split.
        + intro P. inversion P; subst; try contradiction. congruence.
        + intro P. now apply pg_dtd with d.
      - intros (_ & H & _). contradiction. }
    apply begins_false in E3.
    destruct (starts_with (lit "<!") t) eqn:E4.
    { apply begins_spec in E4. apply Rec.
      - intros toks decl' dtds'. split.
        + intro P. inversion P; subst; try contradiction. easy.
        + intro P. now apply pg_other.
      - intros (_ & H & _). contradiction. }
    apply begins_false in E4.
    assert (NP : forall toks decl' dtds', prolog st (blen pre) n decl dtds ((txt, t) :: toks) decl' dtds' -> False).
    { intros toks decl' dtds' P. inversion P; subst; contradiction. }
    destruct (starts_with (lit "</") t) eqn:E5.
    { apply begins_spec in E5. apply pr_err. apply Bad; [easy|]. intros _ (_ & _ & H & _). contradiction. }
    apply begins_false in E5.
    destruct (check_element_tag t) as [[]|x| |] eqn:Ec; cbn [map_err bind].
    + replace (blen (pre ++ txt ++ t)) with (blen pre + blen (flatten []) + blen txt + blen t)
        by (rewrite !blen_app; cbn; lia).
      replace (blen pre + blen txt) with (blen pre + blen (flatten []) + blen txt) by (cbn; lia).
      apply pr_ok with rest; [|apply pg_nil|easy|easy]. now apply lx_tag with rest; [..|apply lx_nil].
    + apply pr_err. apply Bad; [easy|]. intros _ (_ & _ & _ & H). congruence.
    + exfalso. unfold check_element_tag in Ec. destruct (Regex.is_match _ _); discriminate.
    + exfalso. unfold check_element_tag in Ec. destruct (Regex.is_match _ _); discriminate.
Qed.

(** * parse_str *)

(** What an accepted input looks like and what it is parsed to. *)
Inductive accepts (s : str) : document -> Prop :=
| ac toks txt root rest decl dtds b e body tail m r ks :
    lexed s (toks ++ [(txt, root)]) rest -> prolog 0 0 0 None [] toks decl dtds ->
    blank_or_empty txt -> root_tag root -> strip_tag root = Ok b -> element_of None b = Ok e ->
    splits rest body tail ->
    (ends (lit "/>") root -> body = [] /\ m = MDone e []) ->
    (~ ends (lit "/>") root -> feeds (MOpen e [] []) body m) ->
    m = MDone r ks ->
    accepts s (mkDoc decl dtds (build r (map assemble ks))).

(** Where a panic can come from. *)
Inductive panics (s : str) : Prop :=
| pa_prolog toks txt t rest : lexed s (toks ++ [(txt, t)]) rest ->
    unescape txt = Panic \/ abbreviate t 32 = Panic -> panics s
| pa_root toks txt root rest b : lexed s (toks ++ [(txt, root)]) rest ->
    strip_tag root = Ok b -> element_of None b = Panic -> panics s
| pa_text toks txt rest : lexed s toks (txt ++ rest) -> unescape txt = Panic -> panics s
| pa_tag toks txt t rest top : lexed s (toks ++ [(txt, t)]) rest -> tag_panic top t -> panics s.

Inductive parse_result (s : str) : outcome document -> Prop :=
| pa_ok d : accepts s d -> parse_result s (Ok d)
| pa_err x : (forall d, ~ accepts s d) -> parse_result s (Err x)
| pa_panic : panics s -> (forall d, ~ accepts s d) -> parse_result s Panic.

Lemma splits_fun s toks tail toks' tail' : splits s toks tail -> splits s toks' tail' -> toks = toks' /\ tail = tail'.
Proof. intros [L N] [L' N']. now apply (lexed_fun s). Qed.
Lemma feeds_fun m toks m1 m2 : feeds m toks m1 -> feeds m toks m2 -> m1 = m2.
Proof.
  intro F. revert m2. induction F as [m|m txt t toks ma mb m' X G F IH]; intros m2 F2.
  - now inversion F2.
  - inversion F2 as [|? ? ? ? ma' mb' ? X' G' F']; subst.
    rewrite <- (text_step_fun _ _ _ _ X X') in *. rewrite <- (tag_step_fun _ _ _ _ G G') in *. now apply IH.
Qed.
Lemma lexed_prefix_fun s a x b y : lexed s a x -> lexed s b y -> List.length a = List.length b -> a = b /\ x = y.
Proof.
  intro L. revert b. induction L as [s|txt s t rest toks tail Hn T L IH]; intros b L' E.
  - destruct b; [|discriminate]. now inversion L'.
  - destruct (lexed_one_inv _ _ _ _ _ _ Hn T L') as [->|(toks' & -> & L'')]; [discriminate|].
    injection E as E. destruct (IH _ L'' E) as [-> ->]. easy.
Qed.
(** The root tag is the first tag that is not part of the prolog. *)
Lemma prolog_not_root st p n decl dtds toks decl' dtds' : prolog st p n decl dtds toks decl' dtds' ->
  forall x, In x toks -> ~ root_tag (snd x).
Proof.
  intro P. induction P as [| ? ? ? ? ? ? ? ? ? ? B1 B2 B3 P IH | ? ? ? ? ? ? ? ? ? ? B1 B2 B3 P IH | ? ? ? ? ? ? ? ? ? ? ? B1 B2 B3 P IH | ? ? ? ? ? ? ? ? ? ? B1 B2 B3 B4 P IH];
    [easy|intros x [<-|Hx]; [|now apply IH]; cbn; intros (H1 & H2 & _)..].
  - contradiction.
  - apply H2. eapply begins_trans; [|exact B2]. now exists (lit "--").
  - apply H2. eapply begins_trans; [|exact B2]. now exists (lit "DOCTYPE").
  - contradiction.
Qed.
Lemma prolog_fun st p n decl dtds toks d1 l1 : prolog st p n decl dtds toks d1 l1 ->
  forall d2 l2, prolog st p n decl dtds toks d2 l2 -> d1 = d2 /\ l1 = l2.
Proof.
  intro P. induction P as [| ? ? ? ? ? ? ? ? ? ? B1 B2 B3 P IH | ? ? ? ? ? ? ? ? ? ? B1 B2 B3 P IH | ? ? ? ? ? ? ? ? ? ? ? B1 B2 B3 P IH | ? ? ? ? ? ? ? ? ? ? B1 B2 B3 B4 P IH];
    intros d2 l2 Q.
  - now inversion Q.
  - inversion Q as [| ? ? ? ? ? ? ? ? ? ? C1 C2 C3 Q' | ? ? ? ? ? ? ? ? ? ? C1 C2 C3 Q' | ? ? ? ? ? ? ? ? ? ? ? C1 C2 C3 Q' | ? ? ? ? ? ? ? ? ? ? C1 C2 C3 C4 Q']; subst.
    + rewrite B3 in C3. injection C3 as <-. now apply IH.
    + destruct B2 as [z1 B2], C2 as [z2 C2]. rewrite B2 in C2. discriminate.
    + destruct B2 as [z1 B2], C2 as [z2 C2]. rewrite B2 in C2. discriminate.
    + destruct B2 as [z1 B2], C2 as [z2 C2]. rewrite B2 in C2. discriminate.
  - inversion Q as [| ? ? ? ? ? ? ? ? ? ? C1 C2 C3 Q' | ? ? ? ? ? ? ? ? ? ? C1 C2 C3 Q' | ? ? ? ? ? ? ? ? ? ? ? C1 C2 C3 Q' | ? ? ? ? ? ? ? ? ? ? C1 C2 C3 C4 Q']; subst.
    + destruct B2 as [z1 B2], C2 as [z2 C2]. rewrite B2 in C2. discriminate.
    + now apply IH.
    + destruct B2 as [z1 B2], C2 as [z2 C2]. rewrite B2 in C2. discriminate.
    + contradiction.
  - inversion Q as [| ? ? ? ? ? ? ? ? ? ? C1 C2 C3 Q' | ? ? ? ? ? ? ? ? ? ? C1 C2 C3 Q' | ? ? ? ? ? ? ? ? ? ? ? C1 C2 C3 Q' | ? ? ? ? ? ? ? ? ? ? C1 C2 C3 C4 Q']; subst.
    + destruct B2 as [z1 B2], C2 as [z2 C2]. rewrite B2 in C2. discriminate.
    + destruct B2 as [z1 B2], C2 as [z2 C2]. rewrite B2 in C2. discriminate.
    + rewrite B3 in C3. injection C3 as <-. now apply IH.
    + contradiction.
  - inversion Q as [| ? ? ? ? ? ? ? ? ? ? C1 C2 C3 Q' | ? ? ? ? ? ? ? ? ? ? C1 C2 C3 Q' | ? ? ? ? ? ? ? ? ? ? ? C1 C2 C3 Q' | ? ? ? ? ? ? ? ? ? ? C1 C2 C3 C4 Q']; subst.
    + destruct B2 as [z1 B2], C2 as [z2 C2]. rewrite B2 in C2. discriminate.
    + contradiction.
    + contradiction.
    + now apply IH.
Qed.
Lemma root_unique s a xa ra ta b xb rb tb da la db lb :
  lexed s (a ++ [(xa, ra)]) ta -> prolog 0 0 0 None [] a da la -> root_tag ra ->
  lexed s (b ++ [(xb, rb)]) tb -> prolog 0 0 0 None [] b db lb -> root_tag rb ->
  a = b /\ xa = xb /\ ra = rb /\ ta = tb /\ da = db /\ la = lb.
Proof.
  assert (W : forall (a b : list (str * str)) xa ra ta xb rb tb da la db lb, List.length a < List.length b ->
    lexed s (a ++ [(xa, ra)]) ta -> prolog 0 0 0 None [] a da la -> root_tag ra ->
    lexed s (b ++ [(xb, rb)]) tb -> prolog 0 0 0 None [] b db lb -> root_tag rb -> False).
  { clear. intros a b xa ra ta xb rb tb da la db lb Hl La Pa Ra Lb Pb Rb.
    assert (exists c d, b = c ++ d /\ List.length c = S (List.length a)) as (c & d & -> & Hc).
    { exists (firstn (S (List.length a)) b), (skipn (S (List.length a)) b).
      split; [symmetry; apply firstn_skipn|]. rewrite firstn_length. lia. }
    rewrite <- app_assoc in Lb. apply lexed_split in Lb. destruct Lb as (mid & Lc & _).
    destruct (lexed_prefix_fun _ _ _ _ _ La Lc) as [E _]; [rewrite app_length; cbn; lia|].
    apply (prolog_not_root _ _ _ _ _ _ _ _ Pb (xa, ra)); [|easy].
    rewrite <- E, <- app_assoc. apply in_or_app. right. now left. }
  intros La Pa Ra Lb Pb Rb.
  destruct (lt_eq_lt_dec (List.length a) (List.length b)) as [[H|H]|H].
  - exfalso. apply (W _ _ _ _ _ _ _ _ _ _ _ _ H La Pa Ra Lb Pb Rb).
  - destruct (lexed_prefix_fun _ _ _ _ _ La Lb) as [E1 E2]; [rewrite !app_length; cbn; lia|].
    apply app_inj_tail in E1. destruct E1 as [-> E1]. injection E1 as -> ->.
    destruct (prolog_fun _ _ _ _ _ _ _ _ Pa _ _ Pb) as [-> ->]. auto 10.
  - exfalso. apply (W _ _ _ _ _ _ _ _ _ _ _ _ H Lb Pb Rb La Pa Ra).
Qed.

Lemma m_do_not_new m op m' : m_do m op = Some m' -> m' <> MNew.
Proof.
  intro H. destruct op, m; cbn in H; try discriminate; try (injection H as <-; easy).
  destruct outer as [|[? ?] ?]; injection H as <-; easy.
Qed.
Lemma feeds_not_new m toks m' : feeds m toks m' -> m <> MNew -> m' <> MNew.
Proof.
  intro F. induction F as [m|m txt t toks m1 m2 m' X G F IH]; intro N; [easy|]. apply IH.
  destruct G as [op m2 _ D]. now apply m_do_not_new in D.
Qed.

Lemma parse_str_result s : parse_result s (parse_str s).
Proof.
  unfold parse_str. pose proof (prolog_spec (S (blen s)) [] s None [] 0 0 (Nat.lt_succ_diag_r _)) as PR.
  cbn [app blen] in PR. change (blen []) with 0 in PR.
  destruct PR as [toks txt root rest decl dtds L P B R|x HN|toks txt t rest HN L Pn]; cbn [bind].
  2:{ apply pa_err. intros d A. destruct A as [toks txt root rest decl dtds b e body tail m r ks L P B R]. eapply HN; eassumption. }
  2:{ apply pa_panic; [now apply pa_prolog with toks txt t rest|].
      intros d A. destruct A as [toks' txt' root rest' decl dtds b e body tail m r ks L' P' B R]. eapply HN; eassumption. }
  cbn [fst snd].
  assert (Es : s = (flatten toks ++ txt) ++ root ++ rest).
  { pose proof (lexed_flatten _ _ _ L) as E. unfold flatten in E at 1. rewrite flat_map_app in E.
    fold (flatten toks) in E. rewrite E. cbn. now rewrite app_nil_r, <- !app_assoc. }
  assert (Sl : slice s (0 + blen (flatten toks) + blen txt) (0 + blen (flatten toks) + blen txt + blen root) = Ok root).
  { rewrite Es at 1. cbn [Nat.add]. rewrite <- blen_app. apply slice_app. }
  rewrite Sl. cbn [bind].
  destruct (strip_tag_ok root) as [b Eb]. rewrite Eb. cbn [bind].
  pose proof (element_of_same b s (0 + blen (flatten toks) + blen txt) None) as K.
  assert (Uniq : forall d, accepts s d -> exists e body tail m r ks, element_of None b = Ok e /\
    splits rest body tail /\ (ends (lit "/>") root -> body = [] /\ m = MDone e []) /\
    (~ ends (lit "/>") root -> feeds (MOpen e [] []) body m) /\ m = MDone r ks /\
    d = mkDoc decl dtds (build r (map assemble ks))).
  { intros d A. destruct A as [toks' txt' root' rest' decl' dtds' b' e body tail m r ks L' P' B' R' Eb' Ee Sp F1 F2 Em].
    destruct (root_unique _ _ _ _ _ _ _ _ _ _ _ _ _ L P R L' P' R') as (<- & <- & <- & <- & <- & <-).
    rewrite Eb in Eb'. injection Eb' as <-. exists e, body, tail, m, r, ks. auto 10. }
  destruct (parse_new_element b s (0 + blen (flatten toks) + blen txt) None) as [e|x| |] eqn:Ep; cbn [bind];
    destruct (element_of None b) as [e'|x'| |] eqn:Ee; cbn in K; try contradiction.
  2:{ apply pa_err. intros d A. apply Uniq in A. destruct A as (e & body & tail & m & r & ks & E & _). discriminate. }
  2:{ apply pa_panic; [now apply pa_root with toks txt root rest b|].
      intros d A. apply Uniq in A. destruct A as (e & body & tail & m & r & ks & E & _). discriminate. }
  2:{ exfalso. now apply element_of_fuel in Ee. }
  subst e'.
  pose proof (sim_step pt_new MNew (OpPush e) sim_new) as S1. cbn [m_do pt_do] in S1. destruct S1 as (t1 & E1 & S1).
  rewrite E1. cbn [bind].
  assert (Pos : 0 + blen (flatten toks) + blen txt + blen root = blen ((flatten toks ++ txt) ++ root))
    by (rewrite !blen_app; lia).
  rewrite Pos. rewrite app_assoc in Es.
  assert (Fu : blen rest < S (blen s)) by (rewrite Es, blen_app; lia).
  set (f := S (blen s)) in *. rewrite Es. clearbody f.
  destruct (ends_with (lit "/>") root) eqn:E2.
  - apply ends_spec in E2.
    pose proof (sim_step t1 (MOpen e [] []) OpPop S1) as S2. cbn [m_do pt_do] in S2. destruct S2 as (t2 & E3 & S2).
    rewrite E3. cbn [bind].
    destruct (content_selfclosing f ((flatten toks ++ txt) ++ root) rest (0 + blen (flatten toks) + blen txt) t2 Fu) as [[Hn E4]|[Hn [x E4]]];
      rewrite E4; cbn [bind].
    + rewrite (sim_empty _ _ S2). cbn [negb]. rewrite (sim_to_dom _ _ S2). cbn [m_root bind].
      rewrite <- Es. apply pa_ok.
      apply (ac s toks txt root rest decl dtds b e [] rest (MDone e []) e []); try easy.
      split; [apply lx_nil|easy].
    + rewrite <- Es. apply pa_err. intros d A. apply Uniq in A.
      destruct A as (e' & body & tail & m & r & ks & E & [L' N'] & F1 & _ & _). apply Hn.
      destruct (F1 E2) as [-> _]. inversion L'. now subst.
  - assert (N2 : ~ ends (lit "/>") root) by (intros [y Hy]; now apply (proj1 (ends_with_false _ _) E2 y)).
    cbn [bind].
    pose proof (content_result f ((flatten toks ++ txt) ++ root) rest (0 + blen (flatten toks) + blen txt) t1 (MOpen e [] []) S1 Fu) as CR.
    destruct (content_loop f _ _ _ _) as [t2|x| |] eqn:E4; cbn [bind].
    + inversion CR as [body tail m t' Sp F Sm Et| | |]; subst t'.
      rewrite (sim_empty _ _ Sm), (sim_to_dom _ _ Sm), <- Es.
      destruct m as [|e1 ks outer|r ks]; cbn [negb m_root bind].
      * exfalso. now apply (feeds_not_new _ _ _ F).
      * apply pa_err. intros d A. apply Uniq in A.
        destruct A as (e' & body' & tail' & m & r & ks' & E & Sp' & _ & F2 & Em & _).
        injection E as <-. destruct (splits_fun _ _ _ _ _ Sp Sp') as [<- <-].
        rewrite Em in F2. pose proof (feeds_fun _ _ _ _ F (F2 N2)). discriminate.
      * apply pa_ok. apply (ac s toks txt root rest decl dtds b e body tail (MDone r ks) r ks); easy.
    + rewrite <- Es. apply pa_err. intros d A. apply Uniq in A.
      destruct A as (e' & body' & tail' & m & r & ks' & E & Sp' & _ & F2 & Em & _).
      injection E as <-.
      destruct (content_ok _ _ _ Sp' f ((flatten toks ++ txt) ++ root) (0 + blen (flatten toks) + blen txt) t1 _ _ S1 (F2 N2) Fu) as (t' & E5 & _).
      congruence.
    + rewrite <- Es. apply pa_panic.
      * assert (LA : forall toks' r', lexed rest toks' r' -> lexed s (toks ++ [(txt, root)] ++ toks') r').
        { intros toks' r' L'. rewrite app_assoc. now apply lexed_app with rest. }
        inversion CR as [| |toks' r' x m' L' [y ->] F Hb U|toks' r' x s' t' r'' m1 m2 L' F Er Hx T' X Pt].
        -- apply pa_text with (toks ++ [(txt, root)] ++ toks') x y; [now apply LA|easy].
        -- subst r'. apply pa_tag with (toks ++ [(txt, root)] ++ toks') x t' r'' (m_top m2); [|easy].
           replace (toks ++ [(txt, root)] ++ toks') with ((toks ++ [(txt, root)] ++ toks') ++ []) by apply app_nil_r.
           rewrite <- app_assoc. cbn [app].
           apply lexed_app with (x ++ s'); [now apply LA|]. now apply lx_tag with r''; [..|apply lx_nil].
      * intros d A. apply Uniq in A.
        destruct A as (e' & body' & tail' & m & r & ks' & E & Sp' & _ & F2 & Em & _).
        injection E as <-.
        destruct (content_ok _ _ _ Sp' f ((flatten toks ++ txt) ++ root) (0 + blen (flatten toks) + blen txt) t1 _ _ S1 (F2 N2) Fu) as (t' & E5 & _).
        congruence.
    + exfalso. inversion CR.
Qed.

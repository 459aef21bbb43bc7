(** Proofs for SpecConf.v: the prolog, and whole documents. *)
From Coq Require Import List NArith Arith Bool Ascii String Lia.
From Verif Require Import Base BaseFacts Escape Dom Parse Spec EscapeFacts SpecDom DomFacts SpecLex SpecParse LexFacts ParseFacts TagFacts DocFacts AcceptFacts PrologFacts
  SpecEsc UnescFacts SpecDoc PrintFacts PrintDoc TripFacts SpecErr StepFacts ReadFacts LoopFacts SpecMean MeanFacts P_Parse CycleDoc SpecXml XmlFacts SpecConf ConfText ConfLex ConfTag ConfFacts.
Import ListNotations.

Definition mistoks (l : list (str * misc)) : list (str * str) := map (fun p => (fst p, misc_text (snd p))) l.
Lemma spaces_no_tag w : spaces w -> no_tag w.
Proof. intro S. now apply ws_no_tag, spaces_ws. Qed.
Lemma shortened_iff t : (exists what, SpecErr.shortened t what) <-> shortenable t.
Proof.
  split.
  - intros [what [[L _]|(L & a & m & b & -> & La & Lb & _)]]; [now left|]. right. split.
    + now exists a, (m ++ b).
    + exists (a ++ m), b. split; [now rewrite <- app_assoc|]. rewrite !blen_app. lia.
  - intro S. destruct (PrintDoc.shortened t S) as [a A]. exists a. now apply abbreviate_shortened.
Qed.

(** * Reading up to the root *)

Inductive goes : list (str * str) -> str -> list (str * str) -> stage * str -> Prop :=
| go_more toks s pr c txt t r rest : next_tag_is s txt t r rest -> ws txt -> prolog_fine toks t ->
    goes (toks ++ [(txt, t)]) rest pr c -> goes toks s pr c
| go_single toks s txt t r rest n : next_tag_is s txt t r rest -> ~ prolog_like t -> ~ begins (lit "</") t -> formed t -> element_reads True t n ->
    self_closing t -> goes toks s toks (Single, rest)
| go_root toks s txt t r rest n : next_tag_is s txt t r rest -> ~ prolog_like t -> ~ begins (lit "</") t -> formed t -> element_reads True t n ->
    ~ self_closing t -> goes toks s toks (Inside [n], rest).
Lemma final_goes toks s : final (Before toks, s) -> exists pr c, goes toks s pr c /\ final c.
Proof.
  intros (tail & N & S).
  assert (K : forall c e, steps c e -> (exists toks s, c = (Before toks, s)) -> e = (Single, tail) \/ e = (Inside [], tail) ->
    exists toks s pr c', c = (Before toks, s) /\ goes toks s pr c' /\ steps c' e).
  { clear. induction 1 as [c|c d e H1 H2 IH]; intros (toks & s & ->) E; [now destruct E|].
    exists toks, s. inversion H1 as [? ? txt t r rest' Hn W P|? ? txt t r rest' n Hn W P1 P2 P3 P4 P5|? ? txt t r rest' n Hn W P1 P2 P3 P4 P5|]; subst.
    - destruct (IH (ex_intro _ _ (ex_intro _ _ eq_refl)) E) as (toks' & s' & pr & c' & Ec & G & St). injection Ec as <- <-.
      exists pr, c'. split; [easy|]. split; [|easy]. now apply go_more with txt t r rest'.
    - exists toks, (Single, rest'). split; [easy|]. split; [|easy]. now apply go_single with txt t r n.
    - exists toks, (Inside [n], rest'). split; [easy|]. split; [|easy]. now apply go_root with txt t r. }
  destruct S as [S|S]; (destruct (K _ _ S) as (toks' & s' & pr & c' & Ec & G & St); [now exists toks, s|tauto|]);
    injection Ec as <- <-; exists pr, c'; (split; [exact G|]); exists tail; tauto.
Qed.
Lemma goes_tag toks txt s t rest pr c : goes toks (txt ++ s) pr c -> no_tag txt -> tag_at s t rest -> prolog_like t ->
  ws txt /\ prolog_fine toks t /\ goes (toks ++ [(txt, t)]) rest pr c.
Proof.
  intros G N T P. assert (Nx : next_tag_is (txt ++ s) txt t s rest) by easy.
  inversion G as [? ? ? ? txt' t' r' rest' Hn W F G'|? ? txt' t' r' rest' n Hn P1 P2 P3 P4 P5|? ? txt' t' r' rest' n Hn P1 P2 P3 P4 P5]; subst;
    destruct (next_tag_fun _ _ _ _ _ _ _ _ _ Nx Hn) as (<- & <- & <- & <-); easy.
Qed.
Lemma goes_some toks txt s pr c : goes toks (txt ++ s) pr c -> no_tag txt -> begins (lit "<") s -> exists t rest, tag_at s t rest /\
  (prolog_like t \/ formed t /\ exists n, element_reads True t n).
Proof.
  intros G N B.
  inversion G as [? ? ? ? txt' t' r' rest' Hn W F G'|? ? txt' t' r' rest' n Hn P1 P2 P3 P4 P5|? ? txt' t' r' rest' n Hn P1 P2 P3 P4 P5]; subst;
    destruct Hn as (E & N' & T); destruct (split_lt txt s txt' r' N N' B (tag_at_lt _ _ _ T) E) as [<- <-]; exists t', rest'; (split; [exact T|]).
  - left. apply F.
  - right. split; [easy|now exists n].
  - right. split; [easy|now exists n].
Qed.
Lemma goes_lexed toks s pr c : goes toks s pr c -> exists more txt t, pr = toks ++ more /\ lexed s (more ++ [(txt, t)]) (snd c) /\
  Forall (fun x => prolog_like (snd x)) more /\ ~ prolog_like t.
Proof.
  induction 1 as [toks s pr c txt t r rest Hn W F G (more & txt' & t' & -> & L & P & NP)|toks s txt t r rest n (-> & N & T) P1 P2 P3 P4 P5|toks s txt t r rest n (-> & N & T) P1 P2 P3 P4 P5].
  - exists ((txt, t) :: more), txt', t'. split; [now rewrite <- app_assoc|]. destruct Hn as (-> & N & T). split; [|split; [|easy]].
    + cbn [app]. now apply lx_tag with rest.
    + constructor; [apply F|easy].
  - exists [], txt, t. split; [now rewrite app_nil_r|]. split; [|now split]. now apply lexed_one.
  - exists [], txt, t. split; [now rewrite app_nil_r|]. split; [|now split]. now apply lexed_one.
Qed.
Lemma steps_lexed c e : steps c e -> exists toks, lexed (snd c) toks (snd e).
Proof.
  induction 1 as [c|c d e H1 H2 (toks & IH)]; [exists []; constructor|].
  assert (exists txt t r, next_tag_is (snd c) txt t r (snd d)) as (txt & t & r & E & N & T).
  { destruct H1; cbn [snd]; eexists _, _, _; eassumption. }
  exists ((txt, t) :: toks). rewrite E. now apply lx_tag with (snd d).
Qed.

(** * What is told of the prolog *)

Lemma no_xml_misc m : (forall p, m <> MiscPI p) -> ~ begins (lit "<?xml") (misc_text m).
Proof. intros N [x E]. destruct m as [c|p|d]; [discriminate E|now destruct (N p)|discriminate E]. Qed.
Lemma doctype_told s d more t rest : s = misc_text (MiscDoctype d) ++ more -> tag_at s t rest -> t = misc_text (MiscDoctype d) ->
  doctype_wf (doctype_inside d).
Proof.
  intros -> T Et. cbn [misc_text] in *.
  assert (shortest decl_like ((lit "<!DOCTYPE" ++ doctype_inside d ++ lit ">") ++ more) t rest) as (E & (b & Eb & Q & A) & M).
  { destruct T as [B H|B H|B H|B N1 N2 H|B N1 N2 H]; [now destruct B|now destruct B|now destruct B|easy|]. exfalso. apply N2. now eexists. }
  change (lit "<!DOCTYPE") with (lit "<!" ++ lit "DOCTYPE") in Et. rewrite Et, <- app_assoc in Eb. apply app_inv_head in Eb.
  rewrite app_assoc in Eb. apply app_inv_tail in Eb. subst b. split; [now apply doctype_quotes|]. split; [now apply doctype_angles|].
  intros a b Ed Qa Aa. destruct (M (lit "<!DOCTYPE" ++ a ++ lit ">") (b ++ lit ">" ++ more)) as [z Ez].
  - rewrite Ed, <- !app_assoc. reflexivity.
  - exists (lit "DOCTYPE" ++ a). split; [now rewrite <- app_assoc|]. split; [now apply doctype_quotes|now apply doctype_angles].
  - rewrite Et, Ed in Ez. apply (f_equal (@List.length char)) in Ez. rewrite !app_length in Ez. cbn in Ez. lia.
Qed.
Lemma doctype_tag d r t rest : tag_at (misc_text (MiscDoctype d) ++ r) t rest -> begins (lit "<!DOCTYPE") t.
Proof.
  intro T. cbn [misc_text] in T.
  assert (shortest decl_like ((lit "<!DOCTYPE" ++ doctype_inside d ++ lit ">") ++ r) t rest) as (E & (b & Eb & Q & A) & M).
  { destruct T as [B H|B H|B H|B N1 N2 H|B N1 N2 H]; [now destruct B|now destruct B|now destruct B|easy|]. exfalso. apply N2. now eexists. }
  rewrite <- app_assoc in E. destruct (prefix_split _ _ _ _ E) as [(z & E1 & E2)|(z & E1 & E2)]; [|now exists z].
  exfalso. assert (In 62%N (lit "<!DOCTYPE")) as I.
  { rewrite E1, Eb, <- !app_assoc. apply in_or_app. right. apply in_or_app. right. now left. }
  cbn in I. repeat (destruct I as [I|I]; [discriminate I|]). destruct I.
Qed.
Definition plain_misc (l : list (str * misc)) : Prop := forall w c, In (w, MiscComment c) l -> ~ begins (lit ">") c /\ ~ begins (lit "->") c.
Lemma plain_cons p l : plain_misc (p :: l) -> plain_misc l.
Proof. intros P w c I. apply (P w). now right. Qed.
Definition no_comments (toks : list (str * str)) : Prop := forall x, In x toks -> ~ begins (lit "<!--") (snd x).
Definition fair_misc (toks : list (str * str)) (l : list (str * misc)) : Prop :=
  Forall (fun p => match snd p with MiscComment c => True | MiscPI _ => False | MiscDoctype d => doctype_wf (doctype_inside d) end) l /\
  forall a w c b, l = a ++ (w, MiscComment c) :: b -> (forall w' c', ~ In (w', MiscComment c') a) -> no_comments toks -> shortenable (comment_text c).
(** The declaration as it is written. *)
Definition decl_tag (o : option xmldecl) (t : str) : Prop := exists d, o = Some d /\ t = lit "<?" ++ decl_inside d ++ lit "?>".
Lemma pi_not_decl p r t rest o : pi_ok p -> (forall d, o = Some d -> xmldecl_ok d) -> tag_at (pi_text p ++ r) t rest -> begins (lit "<?xml") t -> ~ decl_tag o t.
Proof.
  intros O Od T B (d & Ed & E). pose proof (pi_tag _ _ _ _ O T) as K. destruct O as (Hn & Nx & _). specialize (Od d Ed).
  destruct Od as ((W1 & W2 & _) & _).
  assert (Nx' : pi_target p <> lit "xml").
  { intro E'. apply Nx. exists 120%N, 109%N, 108%N. split; [exact E'|]. split; [now left|]. split; now left. }
  assert (exists c s, decl_inside d = lit "xml" ++ c :: s /\ xml_space c) as (c & s & Es & Hc).
  { unfold decl_inside, pseudo_text. destruct (ps_space (xd_version d)) as [|c s] eqn:E1; [easy|].
    exists c. eexists. split; [reflexivity|]. now inversion W2. }
  rewrite Es in E.
  assert (Hs : forall y z, pi_target p ++ y :: z = lit "xml" ++ c :: s ++ lit "?>" -> xml_space y \/ y = 63%N -> False).
  { intros y z Ey Hy. assert (Nc : forall u, name_next u -> xml_space u \/ u = 63%N -> False).
    { intros u Hu Hs. destruct Hn as (c0 & r0 & E0 & _ & _).
      assert (is_name [97%N; u]) as Hnu. { exists 97%N, [u]. split; [easy|]. split; [|now constructor]. unfold name_first, in_ranges. do 3 right. left. cbn. lia. }
      destruct Hs as [Hs| ->].
      - apply (name_chars_no _ u Hnu); [|right; now left]. cbn in Hs |- *. tauto.
      - apply (name_chars_no _ 63%N Hnu); [cbn; tauto|right; now left]. }
    destruct Hn as (c0 & r0 & E0 & H0 & Hr). assert (Ha : Forall name_next (pi_target p)) by (rewrite E0; constructor; [now left|easy]).
    destruct (prefix_split _ _ _ _ Ey) as [(u & E1 & E2)|(u & E1 & E2)].
    - destruct u as [|u0 u]; [|exfalso; cbn in E2; injection E2 as <- E2; apply (Nc c); [|now left]; rewrite E1 in Ha; apply Forall_app in Ha; destruct Ha as [_ Ha]; now inversion Ha].
      rewrite app_nil_r in E1. now apply Nx'.
    - destruct u as [|u0 u]; [rewrite app_nil_r in E1; now apply Nx'|].
      cbn in E2. injection E2 as -> _. apply (Nc u0); [|easy]. assert (In u0 (lit "xml")) as I by (rewrite E1; apply in_or_app; right; now left).
      cbn in I. left. unfold name_first, in_ranges. do 3 right. left. cbn. destruct I as [<-|[<-|[<-|[]]]]; lia. }
  destruct K as [[Hd ->]|(c' & d' & Hd & Hc' & ->)].
  - unfold pi_text in E. rewrite Hd in E. rewrite <- !app_assoc in E. apply app_inv_head in E. cbn [app] in E.
    apply (Hs 63%N (lit ">")); [exact E|now right].
  - rewrite <- !app_assoc in E. apply app_inv_head in E. cbn [app] in E. apply (Hs c' (d' ++ lit "?>")); [exact E|now left].
Qed.
Lemma told_prolog o r : (forall d, o = Some d -> xmldecl_ok d) -> forall l toks more pr c, miscs_ok l -> plain_misc l ->
  goes toks (miscs_text l ++ r) pr c -> pr = toks ++ more -> (forall x, In x more -> begins (lit "<?xml") (snd x) -> decl_tag o (snd x)) ->
  (exists l2, dtds_in more (map doctype_inside (doctype_decls l) ++ l2)) ->
  fair_misc toks l /\ goes (toks ++ mistoks l) r pr c.
Proof.
  intro Od. induction l as [|[w m] l IH]; intros toks more pr c O P G Ep X [l2 D].
  - split; [split; [constructor|intros [|? ?] ? ? ? E; discriminate E]|]. cbn [mistoks map]. now rewrite app_nil_r.
  - inversion O as [|? ? [Sw Om] Ol]; subst. cbn [fst snd] in *. apply plain_cons in P as Pl.
    assert (Nw : no_tag w) by now apply spaces_no_tag.
    assert (G' : goes toks (w ++ misc_text m ++ miscs_text l ++ r) (toks ++ more) c).
    { cbn [miscs_text flat_map fst snd] in G. now rewrite <- !app_assoc in G. }
    assert (Step : forall t rest, tag_at (misc_text m ++ miscs_text l ++ r) t rest -> prolog_like t ->
      exists more', more = (w, t) :: more' /\ prolog_fine toks t /\ goes (toks ++ [(w, t)]) rest (toks ++ more) c).
    { intros t rest T Pt. destruct (goes_tag _ _ _ _ _ _ _ G' Nw T Pt) as (_ & F & G1). destruct (goes_lexed _ _ _ _ G1) as (more' & txt' & t' & E & _).
      rewrite <- app_assoc in E. apply app_inv_head in E. exists more'. easy. }
    assert (Next : forall more', more = (w, misc_text m) :: more' -> goes (toks ++ [(w, misc_text m)]) (miscs_text l ++ r) (toks ++ more) c ->
      (exists l2, dtds_in more' (map doctype_inside (doctype_decls l) ++ l2)) ->
      fair_misc (toks ++ [(w, misc_text m)]) l /\ goes (toks ++ mistoks ((w, m) :: l)) r (toks ++ more) c).
    { intros more' E G1 D1. destruct (IH (toks ++ [(w, misc_text m)]) more' (toks ++ more) c Ol Pl G1) as [F G2]; [subst more; now rewrite <- app_assoc| |exact D1|].
      { intros x I. apply X. subst more. now right. }
      split; [exact F|]. now rewrite <- app_assoc in G2. }
    destruct m as [c0|p|d].
    + destruct (P w c0 (or_introl eq_refl)) as [B1 B2].
      destruct (Step (comment_text c0) (miscs_text l ++ r)) as (more' & Em & F & G1); [now apply comment_wf_at|left; now eexists|].
      destruct (Next more' Em G1) as [[F1 F2] G2].
      { subst more. cbn [doctype_decls flat_map app] in D. inversion D; subst; now exists l2. }
      split; [|exact G2]. split; [now constructor|]. intros a w0 c1 b E N T. destruct a as [|a0 a].
      * injection E as <- <- <-. apply shortened_iff. apply F. split; [now eexists|easy].
      * exfalso. injection E as <- _. apply (N w c0). now left.
    + exfalso. cbn [misc_text] in *. destruct (goes_some _ _ _ _ _ G' Nw) as (t & rest & T & K); [now eexists|].
      destruct K as [K|(Fo & n & R)]; [|now apply (pi_not_read _ _ _ _ _ _ Om T Fo R)].
      destruct (Step t rest T K) as (more' & -> & F & _).
      assert (B : begins (lit "<?xml") t).
      { destruct K as [[x Ex]|K]; [|easy]. exfalso. destruct (pi_tag _ _ _ _ Om T) as [[_ E]|(c1 & d1 & _ & _ & E)]; rewrite E in Ex; discriminate Ex. }
      apply (pi_not_decl _ _ _ _ o Om Od T B). apply (X (w, t)); [now left|easy].
    + destruct (goes_some _ _ _ _ _ G' Nw) as (t & rest & T & _); [now eexists|]. pose proof (doctype_tag _ _ _ _ T) as B.
      assert (K : prolog_like t) by (left; destruct B as [x ->]; now eexists).
      destruct (Step t rest T K) as (more' & -> & F & G1). cbn [doctype_decls flat_map app map] in D.
      inversion D as [|? d' ? l' D' E1|? ? ? ? N D']; subst; [|easy].
      pose proof (doctype_told _ _ _ _ _ eq_refl T eq_refl) as Wd. pose proof (doctype_at _ (miscs_text l ++ r) Wd) as T'. rewrite !app_assoc in T'.
      rewrite <- app_assoc in T'. cbn [misc_text] in T. destruct (tag_at_fun _ _ _ _ _ T T') as [_ ->].
      destruct (Next more' eq_refl G1) as [[F1 F2] G2]; [now exists l2|]. split; [|exact G2]. split; [now constructor|].
      intros a w0 c1 b E N Tn. destruct a as [|a0 a]; [discriminate E|]. injection E as <- ->. apply (F2 a w0 c1 b eq_refl).
      * intros w' c' I. apply (N w' c'). now right.
      * intros x I. apply in_app_or in I. destruct I as [I|[<-|[]]]; [now apply Tn|]. intros [y Ey]. discriminate Ey.
Qed.

(** * What is told of the root *)

Lemma misc_lt m : exists s, misc_text m = lt_ :: s.
Proof. destruct m; now eexists. Qed.
Lemma epilog_none l e : no_tag (miscs_text l ++ e) -> l = [].
Proof.
  destruct l as [|[w m] l]; [easy|]. intro N. exfalso. apply N. cbn [miscs_text flat_map fst snd]. destruct (misc_lt m) as [s ->].
  rewrite <- !app_assoc. apply in_or_app. right. now left.
Qed.
Lemma single_final rest : final (Single, rest) -> no_tag rest.
Proof.
  intros (tail & N & [S|S]); inversion S as [|c1 c2 H1 H2]; subst; try easy; inversion H1.
Qed.
Lemma epilog_final l e : miscs_ok l -> doctype_decls l = [] -> spaces e -> final (Inside [], miscs_text l ++ e) -> l = [].
Proof.
  intros O D S F. destruct l as [|[w m] l]; [easy|]. exfalso. inversion O as [|? ? [Sw Om] Ol]; subst. cbn [fst snd] in *.
  cbn [miscs_text flat_map fst snd] in F. rewrite <- !app_assoc in F. destruct m as [c|p|d]; [| |discriminate D].
  - apply comment_final in F; [|easy|now apply spaces_no_tag]. now destruct F as (_ & _ & F & _).
  - apply pi_tag_some in F; [easy|easy|now apply spaces_no_tag].
Qed.
Lemma told_root sc toks gap m ep e pr c : goes toks (gap ++ markup_text m ++ miscs_text ep ++ e) pr c -> final c -> spaces gap -> SpecXml.is_element m -> markup_ok sc m ->
  miscs_ok ep -> doctype_decls ep = [] -> spaces e -> pr = toks /\ was_read m /\ ep = [].
Proof.
  intros G F Sg El O Oe De Se.
  assert (K : forall nm attrs w e' rest, is_name nm -> Forall attribute_ok attrs -> spaces w -> e' = lit ">" \/ e' = lit "/>" ->
    goes toks (gap ++ start_text nm attrs w e' ++ rest) pr c -> pr = toks /\ exists n, tag_read (start_text nm attrs w e') n /\
      (self_closing (start_text nm attrs w e') /\ c = (Single, rest) \/ ~ self_closing (start_text nm attrs w e') /\ c = (Inside [n], rest))).
  { intros nm attrs w e' rest Hn Ha Hw He G0. pose proof (start_at nm attrs w e' rest Hn Ha Hw He) as T.
    destruct (start_not_special nm attrs w e' Hn) as (B1 & _ & B3).
    assert (Nx : next_tag_is (gap ++ start_text nm attrs w e' ++ rest) gap (start_text nm attrs w e') (start_text nm attrs w e' ++ rest) rest).
    { split; [easy|]. split; [now apply spaces_no_tag|easy]. }
    inversion G0 as [? ? ? ? txt' t' r' rest' Hx W P G'|? ? txt' t' r' rest' n Hx P1 P2 P3 P4 P5|? ? txt' t' r' rest' n Hx P1 P2 P3 P4 P5]; subst;
      destruct (next_tag_fun _ _ _ _ _ _ _ _ _ Nx Hx) as (<- & <- & <- & <-).
    - exfalso. destruct P as [[P|[x Px]] _]; [easy|]. apply B3. rewrite Px. now eexists.
    - split; [easy|]. exists n. apply element_reads_weak in P4. split; [easy|]. now left.
    - split; [easy|]. exists n. apply element_reads_weak in P4. split; [easy|]. now right. }
  destruct m as [nm attrs w|nm attrs w b w'|c0|c0|p]; try contradiction.
  - cbn [markup_ok] in O. apply tag_ok_parts in O. destruct O as (Hn & Ha & Hw). rewrite empty_text in G.
    destruct (K _ _ _ _ _ Hn Ha Hw (or_intror eq_refl) G) as (-> & n & R & [[_ ->]|[N _]]); [|exfalso; apply N, start_self].
    split; [easy|]. split; [now exists n|]. now apply single_final, epilog_none in F.
  - cbn [markup_ok] in O. destruct O as (O & Ob & Hw'). apply tag_ok_parts in O. destruct O as (Hn & Ha & Hw). rewrite elem_text in G.
    destruct (K _ _ _ _ _ Hn Ha Hw (or_introl eq_refl) G) as (-> & n & R & [[N _]|[_ ->]]); [exfalso; revert N; now apply start_open|].
    split; [easy|]. destruct (proj2 read_inside b (declare attrs sc) [n] (end_text nm w' ++ miscs_text ep ++ e) Ob) as [Rb Fb]; [easy|exact F|].
    assert (Nt : no_tag (ctail b)). { clear - Ob. revert Ob. generalize (declare attrs sc). clear. intros sc O. induction b as [t|t m b IH]; cbn [ctail]; [now apply chardata_no_tag|]. apply IH, O. }
    destruct (final_tag _ _ _ _ _ Fb Nt (end_at nm w' _ Hn Hw')) as (names' & _ & Ft & Fe).
    destruct (fine_end _ _ _ Ft (end_begins _ _)) as (n' & En & C). injection En as <- <-.
    split; [split; [now exists n|easy]|]. now apply epilog_final with e.
Qed.

(** * The prolog is read *)

Lemma fair_next toks w m l : fair_misc toks ((w, m) :: l) -> fair_misc (toks ++ [(w, misc_text m)]) l.
Proof.
  intros [F1 F2]. inversion F1 as [|? ? Fm Fl]; subst. split; [easy|]. intros a w0 c b -> N T. destruct m as [c0|p|d]; cbn [snd] in Fm; [|easy|].
  - exfalso. apply (T (w, comment_text c0)); [apply in_or_app; right; now left|now eexists].
  - apply (F2 ((w, MiscDoctype d) :: a) w0 c b eq_refl).
    + intros w' c' [I|I]; [discriminate I|now apply (N w' c')].
    + intros x I. apply T. apply in_or_app. now left.
Qed.
Lemma fair_prolog_steps r l : forall toks, miscs_ok l -> plain_misc l -> fair_misc toks l ->
  steps (Before toks, miscs_text l ++ r) (Before (toks ++ mistoks l), r) /\ lexed (miscs_text l ++ r) (mistoks l) r.
Proof.
  induction l as [|[w m] l IH]; intros toks O P F; [cbn; rewrite app_nil_r; split; constructor|].
  inversion O as [|? ? [Sw Om] Ol]; subst. cbn [fst snd] in *. apply plain_cons in P as Pl.
  assert (T : tag_at (misc_text m ++ miscs_text l ++ r) (misc_text m) (miscs_text l ++ r)).
  { destruct F as [F _]. inversion F as [|? ? Fm Fl]; subst. cbn [snd] in Fm. destruct m as [c|p|d]; [|easy|].
    - destruct (P w c (or_introl eq_refl)) as [B1 B2]. now apply comment_wf_at.
    - cbn [misc_text]. rewrite <- !app_assoc. now apply doctype_at. }
  assert (K : prolog_fine toks (misc_text m)).
  { destruct F as [F1 F2]. inversion F1 as [|? ? Fm Fl]; subst. cbn [snd] in Fm. destruct m as [c|p|d]; [|easy|].
    - split; [left; now eexists|]. split; [intros [x Ex]; discriminate Ex|]. intros [_ C]. apply shortened_iff.
      apply (F2 [] w c l eq_refl); [intros ? ? []|exact C].
    - split; [left; now eexists|]. split; [intros [x Ex]; discriminate Ex|]. intros [[x Ex] _]. discriminate Ex. }
  destruct (IH (toks ++ [(w, misc_text m)]) Ol Pl (fair_next _ _ _ _ F)) as [S L].
  cbn [miscs_text flat_map fst snd mistoks map]. rewrite <- !app_assoc. split.
  - eapply ss_step; [|rewrite <- app_assoc in S; exact S]. apply sp_prolog with (misc_text m ++ miscs_text l ++ r); [|now apply spaces_ws|exact K].
    split; [easy|]. split; [now apply spaces_no_tag|exact T].
  - eapply lx_tag; [now apply spaces_no_tag|exact T|exact L].
Qed.
Lemma mistoks_like l : Forall (fun p => match snd p with MiscPI _ => False | _ => True end) l ->
  Forall (fun x => prolog_like (snd x) /\ ~ begins (lit "<?xml") (snd x)) (mistoks l).
Proof.
  induction 1 as [|[w m] l H Hl IH]; [constructor|]. constructor; [|exact IH]. cbn [fst snd] in *.
  destruct m as [c|p|d]; [|easy|]; (split; [left; now eexists|]); intros [x E]; discriminate E.
Qed.
Lemma mistoks_dtds l : Forall (fun p => match snd p with MiscPI _ => False | _ => True end) l ->
  dtds_in (mistoks l) (map doctype_inside (doctype_decls l)).
Proof.
  induction 1 as [|[w m] l H Hl IH]; [constructor|]. cbn [mistoks map fst snd] in *.
  destruct m as [c|p|d]; [|easy|]; cbn [doctype_decls flat_map app map misc_text].
  - apply di_other; [intros [x E]; discriminate E|exact IH].
  - apply di_dtd. exact IH.
Qed.

(** * Documents *)

Definition dtext (o : option xmldecl) : str := match o with None => [] | Some d => lit "<?" ++ decl_inside d ++ lit "?>" end.
Definition dtoks (o : option xmldecl) : list (str * str) := match o with None => [] | Some d => [([], lit "<?" ++ decl_inside d ++ lit "?>")] end.
Lemma decl_begins d : begins (lit "<?xml") (lit "<?" ++ decl_inside d ++ lit "?>").
Proof. now eexists. Qed.
Lemma decl_steps o r : (forall d, o = Some d -> xmldecl_ok d) -> steps (Before [], dtext o ++ r) (Before (dtoks o), r) /\ lexed (dtext o ++ r) (dtoks o) r.
Proof.
  intro O. destruct o as [d|]; [|split; constructor]. cbn [dtext dtoks]. pose proof (decl_at _ r (decl_inside_wf _ (O d eq_refl))) as T. rewrite <- !app_assoc. split.
  - eapply ss_step; [|constructor]. apply (sp_prolog [] _ [] _ (lit "<?" ++ decl_inside d ++ lit "?>" ++ r)); [now repeat split|constructor|].
    split; [right; apply decl_begins|]. split; [now left|]. intros [[x E] _]. discriminate E.
  - apply (lexed_one []); [easy|exact T].
Qed.
Lemma decl_goes o r pr c : (forall d, o = Some d -> xmldecl_ok d) -> goes [] (dtext o ++ r) pr c -> goes (dtoks o) r pr c.
Proof.
  intros O G. destruct o as [d|]; [|exact G]. cbn [dtext dtoks] in *. pose proof (decl_at _ r (decl_inside_wf _ (O d eq_refl))) as T. rewrite <- !app_assoc in G.
  destruct (goes_tag [] [] _ _ _ _ _ G ltac:(easy) T) as (_ & _ & G'); [right; apply decl_begins|exact G'].
Qed.
Lemma dtoks_plain o l : fair_misc (dtoks o) l <-> fair_prolog l.
Proof.
  split; intros [F1 F2]; (split; [exact F1|]); intros a w c b E N.
  - apply (F2 a w c b E N). intros x I [y Ey]. destruct o as [d|]; [|easy]. destruct I as [<-|[]]. discriminate Ey.
  - intros _. now apply (F2 a w c b E N).
Qed.
Lemma xml_text_parts x : xml_text x = dtext (xd_decl x) ++ miscs_text (xd_prolog x) ++ xd_gap x ++ markup_text (xd_root x) ++ miscs_text (xd_epilog x) ++ xd_end x.
Proof. reflexivity. Qed.
Lemma fair_no_pi l : fair_prolog l -> Forall (fun p => match snd p with MiscPI _ => False | _ => True end) l.
Proof. intros [F _]. eapply Forall_impl; [|exact F]. intros [w m] H. now destruct m. Qed.
Lemma root_starts txt m sc : markup_ok sc m -> SpecXml.is_element m -> starts_with_element (mtoks txt m).
Proof.
  intros O E. destruct m as [nm attrs w|nm attrs w b w'|c|c|p]; try contradiction; cbn [mtoks markup_ok] in *.
  - apply tag_ok_parts in O. destruct O as (Hn & _). eexists _, _, _. split; [reflexivity|].
    destruct (start_not_special nm attrs w (lit "/>") Hn) as (B1 & _ & B3). intros [B|[x B]]; [easy|]. apply B3. rewrite B. now eexists.
  - destruct O as [O _]. apply tag_ok_parts in O. destruct O as (Hn & _). eexists _, _, _. split; [reflexivity|].
    destruct (start_not_special nm attrs w (lit ">") Hn) as (B1 & _ & B3). intros [B|[x B]]; [easy|]. apply B3. rewrite B. now eexists.
Qed.
(** The tags of a document with a fair prolog and a root that is read. *)
Lemma conf_one_root x sc : xml_ok x -> plain_comments x -> fair_prolog (xd_prolog x) -> markup_ok sc (xd_root x) -> was_read (xd_root x) -> xd_epilog x = [] ->
  one_root (xml_text x) (dtoks (xd_decl x) ++ mistoks (xd_prolog x)) (mtoks (xd_gap x) (xd_root x)).
Proof.
  intros (O1 & O2 & _ & O3 & O4 & _ & _ & _ & _ & O6) P F Om R E. split; [|split; [|split]].
  - exists (xd_end x). split; [|now apply spaces_no_tag]. rewrite xml_text_parts, E. cbn [miscs_text flat_map app].
    eapply lexed_app; [eapply lexed_app|].
    + now apply decl_steps.
    + apply (fair_prolog_steps _ _ (dtoks (xd_decl x))); [easy|exact P|]. now apply dtoks_plain.
    + apply (proj1 read_lexed _ sc); [easy|easy|]. now apply spaces_no_tag.
  - apply Forall_app. split.
    + destruct (xd_decl x) as [d|]; constructor; [right; apply decl_begins|constructor].
    + eapply Forall_impl; [|apply mistoks_like, fair_no_pi, F]. now intros y [H _].
  - destruct (proj1 read_tags _ sc (xd_gap x) Om R) as [[_ T]|(t & Et & B)]; [exact T|]. exfalso.
    destruct (root_starts (xd_gap x) _ _ Om O4) as (txt & t' & rest & Er & N). rewrite Er in Et. cbn [map snd] in Et. injection Et as -> _. apply N. now left.
  - now apply root_starts with sc.
Qed.
Lemma conf_declared o l : Forall (fun p => match snd p with MiscPI _ => False | _ => True end) l ->
  SpecMean.declared (dtoks o ++ mistoks l) (option_map decl_inside o).
Proof.
  intros F d. apply mistoks_like in F. rewrite Forall_forall in F. split.
  - destruct o as [d'|]; [|discriminate]. cbn [option_map]. intros [= <-]. exists [], [], (mistoks l). split; [reflexivity|]. split; [now eexists|].
    apply Forall_forall. intros y I. now apply F.
  - intros (a & txt & b & E & [x ->] & Fb).
    assert (B : begins (lit "<?xml") (lit "<?" ++ (lit "xml" ++ x) ++ lit "?>")) by now eexists.
    assert (K : forall y, In y (mistoks l) -> snd y <> lit "<?" ++ (lit "xml" ++ x) ++ lit "?>").
    { intros y I Ey. apply F in I. destruct I as [_ I]. apply I. now rewrite Ey. }
    destruct o as [d'|].
    + cbn [dtoks app] in E. destruct a as [|a0 a].
      * cbn [app] in E. injection E as _ E _. cbn [option_map]. f_equal. change (lit "<?xml") with (lit "<?" ++ lit "xml") in E.
        assert (E' : lit "<?" ++ decl_inside d' ++ lit "?>" = lit "<?" ++ (lit "xml" ++ x) ++ lit "?>") by exact (f_equal (fun z => lit "<?xml" ++ z) E).
        apply app_inv_head in E'. now apply app_inv_tail in E'.
      * exfalso. injection E as _ E. apply (K (txt, lit "<?" ++ (lit "xml" ++ x) ++ lit "?>")); [|easy]. rewrite E. apply in_or_app. right. now left.
    + exfalso. cbn [dtoks app] in E. apply (K (txt, lit "<?" ++ (lit "xml" ++ x) ++ lit "?>")); [|easy]. rewrite E. apply in_or_app. right. now left.
Qed.
Lemma conf_dtds o l : Forall (fun p => match snd p with MiscPI _ => False | _ => True end) l ->
  dtds_in (dtoks o ++ mistoks l) (map doctype_inside (doctype_decls l)).
Proof.
  intro F. apply mistoks_dtds in F. destruct o as [d|]; [|exact F]. apply di_other; [intros [x E]; discriminate E|exact F].
Qed.
Lemma scoped_root : scoped [] nothing_declared false.
Proof. repeat split. Qed.
Lemma extends_root : extends nothing_declared no_declarations.
Proof. now intro q. Qed.
Theorem told_fair_xml x d : xml_ok x -> plain_comments x -> parse_str (xml_text x) = Ok d -> xml_says x d -> fair_xml x.
Proof.
  intros O P H (D1 & D2 & Sy). pose proof O as (O1 & O2 & _ & O3 & O4 & O5 & O6 & O7 & O8 & O9).
  assert (A : accepts (xml_text x) d) by now apply parsed_accepts.
  assert (F : final (Before [], xml_text x)) by (apply read_final, parse_accepts; now exists d).
  destruct (final_goes _ _ F) as (pr & c & G & Fc). pose proof (goes_lexed _ _ _ _ G) as (more & txt & t & E & L & Pm & Nt). cbn [app] in E. subst more.
  assert (exists tail toks, no_tag tail /\ lexed (snd c) toks tail) as (tail & toks & Ntl & Lc).
  { destruct Fc as (tail & N & [S|S]); apply steps_lexed in S; destruct S as [toks S]; now exists tail, toks. }
  assert (Sp : splits (xml_text x) (pr ++ (txt, t) :: toks) tail).
  { split; [|easy]. replace (pr ++ (txt, t) :: toks) with ((pr ++ [(txt, t)]) ++ toks) by now rewrite <- app_assoc. now apply lexed_app with (snd c). }
  assert (SE : starts_with_element ((txt, t) :: toks)) by now exists txt, t, toks.
  pose proof (accepts_declaration _ _ _ _ _ A Sp Pm SE) as [_ Dfirst]. pose proof (accepts_dtds _ _ _ _ _ A Sp Pm SE) as Dd.
  destruct (accepts_prolog _ _ _ _ _ A Sp Pm SE) as [Pr Dl]. pose proof (prolog_decl _ _ _ _ _ _ _ _ Pr Dl) as Pd. rewrite D1 in Pd. rewrite D2 in Dd.
  rewrite xml_text_parts in G. apply decl_goes in G; [|exact O1]. destruct (goes_lexed _ _ _ _ G) as (more & _ & _ & Ep & _).
  destruct (told_prolog (xd_decl x) _ O1 (xd_prolog x) _ more pr c O2 P G Ep) as [Fm G'].
  - intros y I B. destruct Pd as [[_ Fn]|(d0 & a0 & txt0 & b0 & Ed & Ep0 & _ & Fb)].
    + exfalso. rewrite Forall_forall in Fn. apply (Fn y); [|exact B]. rewrite Ep. apply in_or_app. now right.
    + destruct (xd_decl x) as [dd|]; [|discriminate Ed]. cbn [option_map] in Ed. injection Ed as <-. exists dd. split; [easy|].
      apply in_split in I. destruct I as (a & b & ->). cbn [dtoks app] in Ep. destruct y as [ty y]. cbn [snd] in *.
      destruct (Dfirst (([], lit "<?" ++ decl_inside dd ++ lit "?>") :: a) ty y b Ep B) as [K|[t0 K]]; [discriminate K|]. injection K as _ ->. cbn [app] in Ep.
      rewrite Ep in Ep0. destruct a0 as [|a0 [|a1 a2]]; cbn [app] in Ep0.
      * exfalso. injection Ep0 as _ <-. inversion Fb as [|? ? Fy _]; subst. now apply Fy.
      * now injection Ep0 as _ _ -> _.
      * exfalso. destruct (Dfirst (a0 :: a1 :: a2) txt0 (lit "<?" ++ decl_inside dd ++ lit "?>") b0) as [K|[t1 K]]; [rewrite Ep; exact Ep0|apply decl_begins|discriminate K..].
  - exists []. rewrite app_nil_r. rewrite Ep in Dd. destruct (xd_decl x) as [dd|]; [|exact Dd]. cbn [dtoks app] in Dd. now inversion Dd; subst.
  - destruct (told_root all_declared _ _ _ _ _ _ _ G' Fc O3 O4 O5 O7 O8 O9) as (_ & R & Ee). apply dtoks_plain in Fm.
    destruct (accepts_stands _ _ _ _ A (conf_one_root _ _ O P Fm O5 R Ee)) as (_ & _ & is & I & En).
    assert (Hn : nodes_of_items [] [NElem (d_root d)] is) by (rewrite <- (app_nil_r is); apply ni_elem; [exact En|constructor]).
    destruct (proj1 read_bal _ _ _ _ O5 R I) as (a & y & im & -> & Ta & _ & Ny & _).
    assert (a = []) as -> by (apply (text_item_fun _ _ _ Ta); apply xi_white; now apply spaces_ws). cbn [app] in Hn.
    destruct (proj1 (told_fair (attdefs (xd_prolog x))) _ all_declared no_declarations false nothing_declared [] _ _ [] y im [NElem (d_root d)] [] [NElem (d_root d)] [] O5 O6 R scoped_root extends_root I eq_refl Ta Ny) as (_ & W & Fr); [now rewrite app_nil_r|easy|exact Sy|].
    repeat split; try easy; apply Fm.
Qed.
Lemma root_prefix attrs q : fair_prefix false nothing_declared attrs (Some q) -> In (lit "xmlns:" ++ q) (map at_name attrs).
Proof.
  cbn [fair_prefix]. unfold declare. cbn [declaring]. destruct (the_attribute (lit "xmlns:" ++ q) attrs) as [a|] eqn:T; [|easy].
  intros _. apply the_attribute_in in T. destruct T as [I <-]. now apply in_map.
Qed.
Lemma fair_root_steps sc toks gap m e : markup_ok sc m -> SpecXml.is_element m -> fair_markup false nothing_declared m -> spaces gap -> no_tag e ->
  final (Before toks, gap ++ markup_text m ++ e).
Proof.
  intros O El F Sg Ne. destruct m as [nm attrs w|nm attrs w b w'|c|c|p]; try contradiction.
  - destruct (fair_tag_start _ _ _ _ _ _ w _ eq_refl O (or_intror eq_refl) F) as (p & n & Q & Fp & _ & Fo & (B1 & B2 & _) & R).
    cbn [markup_ok] in O. apply tag_ok_parts in O. destruct O as (Hn & Ha & Hw). rewrite empty_text. exists e. split; [easy|]. left.
    eapply ss_step; [|constructor]. destruct (start_not_special nm attrs w (lit "/>") Hn) as (_ & _ & B3).
    apply (sp_single toks _ gap (start_text nm attrs w (lit "/>")) (start_text nm attrs w (lit "/>") ++ e) e nm).
    + split; [easy|]. split; [now apply spaces_no_tag|]. apply start_at; tauto.
    + now apply spaces_ws.
    + intros [B|[x B]]; [easy|]. apply B3. rewrite B. now eexists.
    + easy.
    + exact Fo.
    + apply R. intros _ q ->. now apply root_prefix.
    + apply start_self.
  - cbn [markup_ok fair_markup] in O, F. destruct O as (O & Ob & Hw'). destruct F as [F Fb].
    destruct (fair_tag_start _ _ _ _ _ _ w _ eq_refl O (or_introl eq_refl) F) as (p & n & Q & Fp & N5 & Fo & (B1 & B2 & _) & R).
    apply tag_ok_parts in O. destruct O as (Hn & Ha & Hw). rewrite elem_text. exists e. split; [easy|]. right.
    destruct (start_not_special nm attrs w (lit ">") Hn) as (_ & _ & B3).
    eapply ss_step; [apply (sp_root toks _ gap (start_text nm attrs w (lit ">")) (start_text nm attrs w (lit ">") ++ content_text b ++ end_text nm w' ++ e) (content_text b ++ end_text nm w' ++ e) nm)|].
    + split; [easy|]. split; [now apply spaces_no_tag|]. apply start_at; tauto.
    + now apply spaces_ws.
    + intros [B|[x B]]; [easy|]. apply B3. rewrite B. now eexists.
    + easy.
    + exact Fo.
    + apply R. intros _ q ->. now apply root_prefix.
    + now apply start_open.
    + destruct (proj2 fair_steps b (declare attrs sc) (prefixed nm) (declare attrs nothing_declared) [nm] (end_text nm w' ++ e) Ob Fb) as (S & Tf & Nt); [easy|].
      apply (steps_trans _ _ _ S). apply one_tag with (end_text nm w'); [easy|now apply end_at|easy|].
      apply (tf_close _ _ nm); [easy|apply end_begins|now apply end_formed|now apply end_closes].
Qed.
Theorem fair_xml_told x : xml_ok x -> plain_comments x -> fair_xml x -> exists d, parse_str (xml_text x) = Ok d /\ xml_says x d.
Proof.
  intros O P (Fp & W & Fr & Ee). pose proof O as (O1 & O2 & _ & O3 & O4 & O5 & O6 & _ & _ & O9).
  assert (F : final (Before [], xml_text x)).
  { rewrite xml_text_parts, Ee. cbn [miscs_text flat_map app].
    destruct (fair_root_steps all_declared (dtoks (xd_decl x) ++ mistoks (xd_prolog x)) (xd_gap x) (xd_root x) (xd_end x) O5 O4 Fr O3 (spaces_no_tag _ O9)) as (tail & N & S).
    exists tail. split; [easy|]. pose proof (proj1 (decl_steps (xd_decl x) (miscs_text (xd_prolog x) ++ xd_gap x ++ markup_text (xd_root x) ++ xd_end x) O1)) as S1.
    destruct (fair_prolog_steps (xd_gap x ++ markup_text (xd_root x) ++ xd_end x) (xd_prolog x) (dtoks (xd_decl x)) O2 P) as [S2 _]; [now apply dtoks_plain|].
    destruct S as [S|S]; [left|right]; exact (steps_trans _ _ _ S1 (steps_trans _ _ _ S2 S)). }
  apply final_read, parse_accepts in F. destruct F as [d H]. exists d. split; [exact H|].
  pose proof (proj1 fair_was_read _ _ _ _ O5 Fr) as R.
  destruct (accepts_stands _ _ _ _ (parsed_accepts _ _ H) (conf_one_root _ _ O P Fp O5 R Ee)) as (Dd & Dt & is & I & En).
  split; [|split].
  - apply (declared_fun _ _ _ Dd). apply conf_declared. now apply fair_no_pi.
  - apply (dtds_in_fun _ _ Dt). apply conf_dtds. now apply fair_no_pi.
  - rewrite W. rewrite W in O6. pose proof (proj1 fair_items _ _ _ _ (xd_gap x) [] O6 Fr ltac:(apply xi_white; now apply spaces_ws)) as I'. cbn [app] in I'.
    rewrite (items_fun _ _ I _ I') in En.
    destruct (proj1 fair_says _ no_declarations false nothing_declared [] [NElem (d_root d)] [] O6 Fr scoped_root extends_root) as (l & ns' & E & Sy & Hn).
    { apply ni_elem; [exact En|constructor]. }
    apply nodes_nil in Hn. subst ns'. rewrite app_nil_r in E. now rewrite E.
Qed.
Theorem conf_exact x : xml_ok x -> plain_comments x -> (exists d, parse_str (xml_text x) = Ok d /\ xml_says x d) <-> fair_xml x.
Proof.
  intros O P. split; [|now apply fair_xml_told]. intros (d & H & Sy). now apply told_fair_xml with d.
Qed.

(** The parser reads a text exactly as SpecErr.v says. *)
From Coq Require Import List NArith Arith Bool Ascii String Lia.
From Verif Require Import Base BaseFacts Escape Dom Spec EscapeFacts SpecDom DomFacts SpecApi ApiFacts Regex RegexFacts
  ParseTree SpecTree ParseTreeFacts Parse SpecLex SpecParse SpecEsc LexFacts ParseFacts DocFacts TagFacts AcceptFacts PosFacts
  DocProps SpecDoc UnescFacts PrintFacts PrintDoc PrologFacts ParsedFacts NsFacts FormFacts SpecErr ReadFacts ErrFacts StepFacts.
Import ListNotations.

(** * The tree *)

Definition at_stage (t : ptree) (names : list str) : Prop := exists m, sim t m /\ m <> MNew /\ stack m = names.
Lemma append_outcome t names n : at_stage t names ->
  (names <> [] /\ exists t', pt_append t n = Ok t' /\ at_stage t' names) \/
  (names = [] /\ pt_append t n = Err (ParsingError PNoRootElement None)).
Proof.
  intros (m & S & Hm & <-). destruct m as [|e ks outer|e ks]; [easy| |].
  - left. split; [discriminate|]. pose proof (sim_step t (MOpen e ks outer) (OpAppend n) S) as G. cbn [m_do pt_do] in G.
    destruct G as (t' & E & G). exists t'. split; [easy|]. eexists. split; [exact G|]. split; [discriminate|easy].
  - right. split; [easy|]. destruct S as (_ & P & _). unfold pt_append. now rewrite P.
Qed.
Lemma push_outcome t names e : at_stage t names -> exists t', pt_push t e = Ok t' /\ at_stage t' (tag_name e :: names).
Proof.
  intros (m & S & Hm & <-). pose proof (sim_step t m (OpPush e) S) as G. destruct m as [|e1 ks outer|e1 ks]; [easy| |]; cbn [m_do pt_do] in G;
    destruct G as (t' & E & G); exists t'; (split; [easy|]); eexists; (split; [exact G|]); (split; [discriminate|easy]).
Qed.
Lemma pop_outcome t n names : at_stage t (n :: names) -> exists t', pt_pop t = Ok t' /\ at_stage t' names.
Proof.
  intros (m & S & Hm & Es). destruct m as [|e ks outer|e ks]; try discriminate. injection Es as _ Es.
  pose proof (sim_step t (MOpen e ks outer) OpPop S) as G. cbn [m_do pt_do] in G.
  destruct outer as [|[e1 ks1] outer]; destruct G as (t' & E & G); exists t'; (split; [easy|]); eexists; (split; [exact G|]);
    (split; [discriminate|exact Es]).
Qed.
Lemma top_outcome t names : at_stage t names -> exists top, pt_top_element t = Ok top /\ (top = None <-> names = []) /\
  forall e, top = Some e -> exists names', names = tag_name e :: names'.
Proof.
  intros (m & S & Hm & <-). exists (m_top m). split; [now apply sim_top|]. destruct m as [|e ks outer|e ks]; [easy| |].
  - split; [split; discriminate|]. intros e' [= <-]. now eexists.
  - split; [easy|]. discriminate.
Qed.

(** * Steps *)

Lemma element_reads_iff (P Q : Prop) t n : (P <-> Q) -> element_reads P t n -> element_reads Q t n.
Proof.
  intros PQ (kvs & l & nm & A & B & C & D). exists kvs, l, nm. split; [easy|]. split; [easy|]. split; [|easy]. intro q. now apply C, PQ.
Qed.
Lemma element_fault_iff (P Q : Prop) t loc x : (P <-> Q) -> element_fault P t loc x -> element_fault Q t loc x.
Proof.
  intros PQ H. destruct H as [H|n good l kv more m A B C|p nm kvs l A B C D E|n kvs l nm A B C D E|n kvs l nm k v A B C D E F G].
  - now apply ef_empty.
  - now apply ef_attribute with n good l kv more.
  - apply ef_prefix with nm kvs l; try easy. now apply PQ.
  - apply ef_name with n kvs l; try easy. intro q. now apply C, PQ.
  - apply ef_attr_name with n kvs l nm v; try easy. intro q. now apply C, PQ.
Qed.

Inductive step_outcome (names : list str) (txt t : str) (loc : nat * nat) : outcome ptree -> Prop :=
| so_ok tr names' : at_stage tr names' -> text_fine names txt -> tag_fine names t names' -> step_outcome names txt t loc (Ok tr)
| so_err x : content_fault names txt t loc x -> step_outcome names txt t loc (Err x)
| so_panic : content_crash names txt t -> step_outcome names txt t loc Panic.

Lemma tag_begins s t rest p : tag_at s t rest -> begins p t -> begins p s.
Proof. intros T [x ->]. destruct (tag_at_nonempty _ _ _ T) as [-> _]. exists (x ++ rest). now rewrite <- app_assoc. Qed.
Lemma begins_two p q s : begins p s -> begins q s -> begins p q \/ begins q p.
Proof. intros [x ->] [y E]. now apply prefix_cases in E. Qed.
Ltac clash := match goal with A : begins ?p ?s, B : begins ?q ?s |- _ =>
  exfalso; destruct (begins_two _ _ _ A B) as [[? E]|[? E]]; discriminate E end.
Lemma comment_tag s t rest : tag_at s t rest -> begins (lit "<!--") t -> shortest comment_like s t rest.
Proof.
  intros T B. pose proof (tag_begins _ _ _ _ T B) as Bs.
  destruct T as [H H'|H H'|H H'|H N1 N2 H'|H N1 N2 H']; try easy; try clash.
  destruct N2. apply (begins_trans _ (lit "<!--")); [now exists (lit "--")|easy].
Qed.
Lemma cdata_tag s t rest : tag_at s t rest -> begins (lit "<![CDATA[") t -> shortest cdata_like s t rest.
Proof.
  intros T B. pose proof (tag_begins _ _ _ _ T B) as Bs.
  destruct T as [H H'|H H'|H H'|H N1 N2 H'|H N1 N2 H']; try easy; try clash.
  destruct N2. apply (begins_trans _ (lit "<![CDATA[")); [now exists (lit "[CDATA[")|easy].
Qed.
Lemma shortest_clean (p q c s rest : str) : q <> [] -> shortest (fun t => ends q t) s (p ++ c ++ q) rest -> ~ substring q c.
Proof.
  intros Hq (E & _ & M) (x & y & ->).
  destruct (M (p ++ x ++ q) (y ++ q ++ rest)) as [z Ez].
  - rewrite E, <- !app_assoc. easy.
  - exists (p ++ x). now rewrite <- app_assoc.
  - apply (f_equal blen) in Ez. rewrite !blen_app in Ez.
    assert (blen q <> 0) by (intro Z; now apply blen_nil in Z). lia.
Qed.

Lemma parse_tag_outcome buffer pos slc rest r t names txt : at_stage t names -> Forall trimmed names -> text_fine names txt ->
  tag_at r slc rest -> step_outcome names txt slc (line_and_column buffer pos) (parse_tag buffer slc pos t).
Proof.
  intros A Tr Tf T. pose proof (tag_delimited _ _ _ T) as D. unfold parse_tag.
  destruct (starts_with (lit "<!--") slc && ends_with (lit "-->") slc) eqn:E1.
  { apply andb_true_iff in E1. destruct E1 as [B1 B2]. apply begins_spec in B1. apply ends_spec in B2.
    pose proof (comment_tag _ _ _ T B1) as Sh.
    destruct (4 <? blen slc - 3) eqn:L1.
    { apply Nat.ltb_lt in L1. destruct (between _ _ _ B1 B2) as [c E]; [cbn; lia|].
      assert (Sl : slice slc 4 (blen slc - 3) = Ok c) by (rewrite E; apply slice_between). rewrite Sl. cbn [bind]. clear Sl.
      assert (Hs : slc <> lit "<!-->" /\ slc <> lit "<!--->" /\ slc <> lit "<!---->").
      { repeat split; intros ->; cbn in L1; lia. }
      destruct (comment_new_spec c) as [[Ec _]|[_ Hc]]; [|exfalso; rewrite E in Sh; now apply shortest_clean in Sh].
      rewrite Ec. cbn [bind]. destruct (append_outcome _ _ (NComment c) A) as [(Hn & t' & Ea & A')|(Hn & Ea)]; rewrite Ea; cbn [map_err].
      - apply so_ok with names; [easy|easy|]. now apply tf_comment.
      - apply so_err. now apply cf_comment_outside. }
    apply Nat.ltb_ge in L1. destruct (4 =? blen slc - 3) eqn:L2.
    { apply Nat.eqb_eq in L2. destruct (between _ _ _ B1 B2) as [c E]; [cbn; lia|].
      assert (c = []) as ->.
      { apply blen_nil. apply (f_equal blen) in E. rewrite !blen_app in E. cbn in E. lia. }
      cbn [comment_new contains bind].
      change (comment_new []) with (@Ok str []). cbn [bind].
      destruct (append_outcome _ _ (NComment []) A) as [(Hn & t' & Ea & A')|(Hn & Ea)]; rewrite Ea.
      - apply so_ok with names; [easy|easy|]. apply tf_comment; [easy|easy| |]; rewrite E; discriminate.
      - apply so_err. now apply cf_empty_outside. }
    apply Nat.eqb_neq in L2. apply so_err. apply cf_short_comment; [easy|].
    destruct B1 as [y ->]. destruct B2 as [z E]. rewrite blen_app in L1, L2. cbn [blen lit] in L1, L2.
    change (blen (lit "<!--")) with 4 in L1, L2.
    assert (Ly : blen y <= 2) by lia. clear -E Ly.
    destruct z as [|z0 [|z1 [|z2 [|z3 z]]]]; cbn in E; try discriminate.
    - injection E as _ _ ->. now left.
    - injection E as _ _ _ ->. now right.
    - exfalso. injection E as _ _ _ _ ->. rewrite blen_app in Ly. cbn in Ly. lia. }
  assert (NC : ~ begins (lit "<!--") slc).
  { intro B. pose proof (comment_tag _ _ _ T B) as (_ & En & _). apply begins_spec in B. apply ends_spec in En.
    now rewrite B, En in E1. }
  destruct (starts_with (lit "<![CDATA[") slc) eqn:E2.
  { apply begins_spec in E2. pose proof (cdata_tag _ _ _ T E2) as Sh. pose proof Sh as (_ & En & _).
    pose proof En as E3. apply ends_spec in E3. rewrite E3. cbn [negb]. clear E3.
    destruct (between _ _ _ E2 En) as [c E].
    { destruct E2 as [x' ->]. destruct En as [y E3]. rewrite blen_app.
      destruct (prefix_cases _ _ _ _ E3) as [[z Hz]|[z Hz]].
      - apply (f_equal blen) in E3. rewrite Hz, !blen_app in E3. lia.
      - rewrite Hz, <- app_assoc in E3. apply app_inv_head in E3.
        destruct z as [|z0 z]; [cbn [app] in E3; rewrite E3; apply Nat.le_refl|].
        exfalso. injection E3 as -> E3.
        assert (X : In 93%N (lit "<![CDATA[")) by (rewrite Hz; apply in_or_app; right; now left).
        cbn in X. repeat (destruct X as [X|X]; [discriminate|]). easy. }
    assert (Sl : slice slc 9 (blen slc - 3) = Ok c) by (rewrite E; apply slice_between). rewrite Sl. cbn [bind]. clear Sl.
    destruct (cdata_new_spec c) as [[Ec _]|[_ Hc]]; [|exfalso; rewrite E in Sh; now apply shortest_clean in Sh].
    rewrite Ec. cbn [bind]. destruct (append_outcome _ _ (NCData c) A) as [(Hn & t' & Ea & A')|(Hn & Ea)]; rewrite Ea; cbn [map_err].
    - apply so_ok with names; [easy|easy|]. now apply tf_cdata.
    - apply so_err. now apply cf_cdata_outside. }
  apply begins_false in E2.
  destruct (starts_with (lit "<!") slc) eqn:E4.
  { apply begins_spec in E4. destruct (abbreviate_outcome slc) as [what H|H]; cbn [bind].
    - apply so_err. now apply cf_markup.
    - apply so_panic. now apply cc_markup. }
  apply begins_false in E4.
  destruct (strip_tag_ok slc) as [b Eb]. rewrite Eb. cbn [bind].
  destruct (check_element_tag slc) as [[]|y| |] eqn:Ec; cbn [map_err bind].
  2:{ assert (y = ParsingError PInvalidElement None) as -> by (unfold check_element_tag in Ec; destruct (is_match _ _); congruence).
      apply not_formed_check in Ec. apply so_err. now apply cf_form. }
  2,3: exfalso; unfold check_element_tag in Ec; destruct (is_match _ _); discriminate.
  apply formed_check in Ec.
  destruct (top_outcome _ _ A) as (top & Et & Hto & Hta).
  destruct (starts_with (lit "</") slc) eqn:E5.
  { apply begins_spec in E5. rewrite Et. cbn [bind]. destruct top as [e|].
    - destruct (Hta _ eq_refl) as [names' ->]. assert (Te : trimmed (tag_name e)) by now inversion Tr.
      pose proof (strip_closes slc (tag_name e) D E5 Te) as K. destruct (str_eqb b (tag_name e)) eqn:Eq; cbn [negb].
      + apply str_eqb_eq in Eq. subst b. destruct (pop_outcome _ _ _ A) as (t' & -> & A').
        apply so_ok with names'; [easy|easy|]. apply tf_close with (tag_name e); try easy. now apply K.
      + apply str_eqb_neq in Eq. apply so_err. apply cf_mismatch with names'; try easy. intro C. apply K in C. congruence.
    - apply so_err. apply cf_closed; try easy. now apply Hto. }
  apply begins_false in E5. rewrite Et. cbn [bind].
  destruct (parse_new_outcome slc b buffer pos top (tag_elementish _ _ _ T E4) E5 Eb) as [e R|x R|R]; cbn [bind].
  - apply (element_reads_iff _ _ _ _ Hto) in R. destruct (ends_with (lit "/>") slc) eqn:E6.
    + apply ends_spec in E6. destruct (append_outcome _ _ (NElem e) A) as [(Hn & t' & Ea & A')|(Hn & Ea)]; rewrite Ea; cbn [map_err].
      * apply so_ok with names; [easy|easy|]. now apply tf_single with (tag_name e).
      * apply so_err. apply cf_single_outside with (tag_name e); try easy. now apply (element_reads_iff (names = [])).
    + assert (Z : ~ self_closing slc) by (intro Z; apply ends_spec in Z; congruence).
      destruct (push_outcome _ _ e A) as (t' & -> & A'). apply so_ok with (tag_name e :: names); [easy|easy|]. now apply tf_open.
  - apply (element_fault_iff _ _ _ _ _ Hto) in R. apply so_err. now apply cf_element.
  - apply so_panic. now apply cc_element.
Qed.

(** * The second loop *)

Lemma placed pre s : s <> [] -> place (pre ++ s) s (line_and_column (pre ++ s) (blen pre)).
Proof. intro H. exists (blen pre). split; [apply blen_app|]. now apply located_lc with pre s. Qed.
Lemma placed2 pre txt s : s <> [] -> place (pre ++ txt ++ s) s (line_and_column (pre ++ txt ++ s) (blen pre + blen txt)).
Proof. intro H. rewrite app_assoc, <- blen_app. now apply placed. Qed.
Lemma tag_some s t rest : tag_at s t rest -> s <> [].
Proof. intros T ->. destruct (tag_at_lt _ _ _ T) as [x E]. discriminate. Qed.
Lemma begins_not_nil r : begins (lit "<") r -> r <> [].
Proof. intros [x ->]. discriminate. Qed.
Lemma broken_loops f pre s sc st tr : broken s ->
  exists r loc, unfinished s r /\ place (pre ++ s) r loc /\
    content_loop (S f) (pre ++ s) sc (st, blen pre) tr = Err (ParsingError PInvalidSyntax (Some loc)) /\
    forall decl dtds n, prolog_loop (S f) (pre ++ s) decl dtds n (st, blen pre) = Err (ParsingError PNoClose (Some loc)).
Proof.
  intro Hb. destruct (broken_error f pre s sc st tr Hb) as (txt & r & E & Hn & B & E1 & E2).
  exists r, (line_and_column (pre ++ s) (blen pre + blen txt)). split; [|split; [|split; [exact E1|exact E2]]].
  - exists txt. split; [easy|]. split; [easy|]. split; [easy|]. destruct Hb as [txt' r' Hn' B' U].
    destruct (split_lt _ _ _ _ Hn Hn' B B') as [<- <-]; [now symmetry|exact U].
  - subst s. apply placed2. now apply begins_not_nil.
Qed.

Lemma text_outcome buffer pos txt t names slc : at_stage t names ->
  match (do rt <- real_text txt;
         match rt with
         | None => Ok t
         | Some content => map_err (pt_append t (NText content)) (at_pos buffer pos)
         end) with
  | Ok t' => at_stage t' names /\ text_fine names txt
  | Err x => content_fault names txt slc (line_and_column buffer pos) x
  | Panic => content_crash names txt slc
  | Fuel => False
  end.
Proof.
  intro A. destruct (real_text_cases txt) as [[B E]|[(B & v & U & E)|(B & U & E)]]; rewrite E; cbn [bind].
  - split; [easy|]. now left.
  - apply unescape_exact in U. destruct (append_outcome _ _ (NText v) A) as [(Hn & t' & Ea & A')|(Hn & Ea)]; rewrite Ea; cbn [map_err].
    + split; [easy|]. right. split; [easy|]. now exists v.
    + now apply cf_text_outside with v.
  - apply unescape_exact in U. now apply cc_text.
Qed.

Lemma content_reads : forall f pre s st tr names, at_stage tr names -> blen s < f -> reads (pre ++ s) (Inside names) s ->
  match content_loop f (pre ++ s) false (st, blen pre) tr with
  | Ok tr' => exists names' tail, at_stage tr' names' /\ reads (pre ++ s) (Inside names') tail /\ no_tag tail
  | Err x => rejected (pre ++ s) x
  | Panic => crashes (pre ++ s)
  | Fuel => False
  end.
Proof.
  induction f as [|f IH]; intros pre s st tr names A Hf R; [lia|].
  destruct (lex_cases s) as [Hn|[Hb|(txt & s' & t & rest & -> & Hn & T & Hlt)]].
  - rewrite content_end by easy. now exists names, s.
  - destruct (broken_loops f pre s false st tr Hb) as (r & loc & U & P & -> & _).
    apply rj_unfinished with (Inside names) s r; try easy. right. now exists names.
  - rewrite (content_step f pre txt s' t rest false st tr Hn T).
    assert (Pl := placed2 pre txt s' (tag_some _ _ _ T)).
    assert (Nx : next_tag_is (txt ++ s') txt t s' rest) by easy.
    pose proof (text_outcome (pre ++ txt ++ s') (blen pre + blen txt) txt tr names t A) as TO.
    destruct (do rt <- real_text txt; _) as [t1|x| |]; cbn [bind].
    2:{ eapply rj_content; eassumption. }
    2:{ eapply cr_content; eassumption. }
    2:{ contradiction. }
    destruct TO as [A1 Tf].
    assert (Tr : Forall trimmed names) by now apply (reads_inside_trimmed _ _ _ R).
    destruct (parse_tag_outcome (pre ++ txt ++ s') (blen pre + blen txt) t rest s' t1 names txt A1 Tr Tf T) as [t2 names' A2 _ G|x G|G]; cbn [bind].
    2:{ eapply rj_content; eassumption. }
    2:{ eapply cr_content; eassumption. }
    assert (R2 : reads (pre ++ txt ++ s') (Inside names') rest) by (eapply rd_tag; eassumption).
    destruct (tag_at_nonempty _ _ _ T) as [Et Ht].
    assert (Eb : pre ++ txt ++ s' = (pre ++ txt ++ t) ++ rest) by (rewrite Et, <- !app_assoc; easy).
    rewrite Eb in R2 |- *. apply IH with (names := names'); [easy| |exact R2].
    rewrite Et in Hf. rewrite !blen_app in Hf. assert (blen t <> 0) by (intro Z; now apply blen_nil in Z). lia.
Qed.

(** * The first loop *)

Definition no_comment_in (toks : list (str * str)) : Prop := forall x, In x toks -> ~ begins (lit "<!--") (snd x).
Lemma no_comment_more toks txt t : no_comment_in (toks ++ [(txt, t)]) <-> no_comment_in toks /\ ~ begins (lit "<!--") t.
Proof.
  unfold no_comment_in. split.
  - intro H. split.
    + intros x Hx. apply H. apply in_or_app. now left.
    + apply (H (txt, t)). apply in_or_app. right. now left.
  - intros [H1 H2] x Hx. apply in_app_or in Hx. destruct Hx as [Hx|[<-|[]]]; [now apply H1|easy].
Qed.
Lemma prolog_reads : forall f pre s decl dtds n st toks, reads (pre ++ s) (Before toks) s ->
  (pre = [] <-> toks = []) -> (st = 0 <-> declaration_allowed toks) -> (n = 0 <-> no_comment_in toks) -> blen s < f ->
  match prolog_loop f (pre ++ s) decl dtds n (st, blen pre) with
  | Ok (_, _, span) => exists toks' pre' txt t r rest, pre ++ s = pre' ++ txt ++ r /\ reads (pre ++ s) (Before toks') (txt ++ r) /\
      next_tag_is (txt ++ r) txt t r rest /\ ws txt /\ ~ prolog_like t /\ ~ begins (lit "</") t /\ formed t /\
      span = (blen pre' + blen txt, blen pre' + blen txt + blen t)
  | Err x => rejected (pre ++ s) x
  | Panic => crashes (pre ++ s)
  | Fuel => False
  end.
Proof.
  induction f as [|f IH]; intros pre s decl dtds n st toks R Hpre Hst Hcm Hf; [lia|].
  destruct (lex_cases s) as [Hn|[Hb|(txt & s' & t & rest & -> & Hn & T & Hlt)]].
  - cbn [prolog_loop snd]. rewrite (next_tag_none pre s Hn). cbn [bind]. now apply rj_no_content with toks s.
  - destruct (broken_loops f pre s false st pt_new Hb) as (r & loc & U & P & _ & E). rewrite E. now apply rj_no_close with toks s r.
  - rewrite (prolog_step f pre txt s' t rest decl dtds n st Hn T).
    assert (Pl := placed2 pre txt s' (tag_some _ _ _ T)).
    assert (Nx : next_tag_is (txt ++ s') txt t s' rest) by easy.
    destruct (real_text_cases txt) as [[B E]|[(B & v & U & E)|(B & U & E)]]; rewrite E; cbn [bind].
    2:{ apply unescape_exact in U. eapply rj_text; try eassumption. apply placed.
        intro Z. apply app_eq_nil in Z. now apply (tag_some _ _ _ T). }
    2:{ apply unescape_exact in U. eapply cr_text; eassumption. }
    destruct (tag_at_nonempty _ _ _ T) as [Et Ht].
    assert (Es : (pre ++ txt ++ t) ++ rest = pre ++ txt ++ s') by (rewrite Et; now rewrite <- !app_assoc).
    assert (Lt : blen t <> 0) by (intro Z; now apply blen_nil in Z).
    assert (Lr : blen rest < f) by (rewrite Et, !blen_app in Hf; lia).
    assert (Hp' : pre ++ txt ++ t = [] <-> toks ++ [(txt, t)] = []).
    { split; intro Z; [|now destruct toks]. apply app_eq_nil in Z. destruct Z as [_ Z]. apply app_eq_nil in Z. now destruct Z. }
    assert (Hst' : blen pre + blen txt = 0 <-> declaration_allowed (toks ++ [(txt, t)])).
    { split.
      - intro Z. assert (pre = []) as Z1 by (apply blen_nil; lia). assert (txt = []) as -> by (apply blen_nil; lia).
        apply Hpre in Z1. subst toks. right. now exists t.
      - intros [Z|[t' Z]]; [now destruct toks|]. destruct toks as [|y toks].
        + injection Z as -> _. rewrite (proj2 Hpre eq_refl). easy.
        + injection Z as _ Z. now destruct toks. }
    assert (Rec : forall decl dtds n', prolog_fine toks t -> (n' = 0 <-> no_comment_in (toks ++ [(txt, t)])) ->
      match prolog_loop f ((pre ++ txt ++ t) ++ rest) decl dtds n' (blen pre + blen txt, blen (pre ++ txt ++ t)) with
      | Ok (_, _, span) => exists toks' pre' txt' t r rest, pre ++ txt ++ s' = pre' ++ txt' ++ r /\ reads (pre ++ txt ++ s') (Before toks') (txt' ++ r) /\
          next_tag_is (txt' ++ r) txt' t r rest /\ ws txt' /\ ~ prolog_like t /\ ~ begins (lit "</") t /\ formed t /\
          span = (blen pre' + blen txt', blen pre' + blen txt' + blen t)
      | Err x => rejected (pre ++ txt ++ s') x
      | Panic => crashes (pre ++ txt ++ s')
      | Fuel => False
      end).
    { intros decl0 dtds0 n' Fi Hn'.
      assert (R2 : reads (pre ++ txt ++ s') (Before (toks ++ [(txt, t)])) rest) by (eapply rd_prolog; eassumption).
      rewrite <- Es in R2 |- *. exact (IH _ _ decl0 dtds0 n' _ _ R2 Hp' Hst' Hn' Lr). }
    clear IH. unfold prolog_tag.
    assert (SameN : ~ begins (lit "<!--") t -> (n = 0 <-> no_comment_in (toks ++ [(txt, t)]))).
    { intro Nc. rewrite Hcm, no_comment_more. tauto. }
    destruct (starts_with (lit "<?xml") t) eqn:E1.
    { apply begins_spec in E1. destruct (st =? 0) eqn:Z; cbn [negb].
      - apply Nat.eqb_eq in Z. destruct (decl_ok _ _ _ T E1) as (d & _ & _ & Ed). rewrite Ed. cbn [bind].
        apply Rec.
        + split; [now right|]. split; [intros _; now apply Hst|]. intros [G _]. exfalso. revert E1 G. clear. intros [a ->] [b E]. discriminate.
        + apply SameN. intro G. revert E1 G. clear. intros [a ->] [b E]. discriminate.
      - apply Nat.eqb_neq in Z. rewrite Es. eapply rj_declaration; try eassumption. intro G. now apply Z, Hst. }
    apply begins_false in E1.
    destruct (starts_with (lit "<!--") t) eqn:E2.
    { apply begins_spec in E2.
      assert (PL : prolog_like t) by (left; now apply comment_bang).
      assert (N2 : S n = 0 <-> no_comment_in (toks ++ [(txt, t)])).
      { rewrite no_comment_more. split; [discriminate|]. now intros [_ ?]. }
      destruct (n =? 0) eqn:Z.
      - apply Nat.eqb_eq in Z. assert (F1 : first_comment toks t) by (split; [easy|now apply Hcm]).
        destruct (abbreviate_outcome t) as [what H|H]; cbn [bind].
        + apply Rec; [|easy]. split; [easy|]. split; [intro G; contradiction|]. intros _. now exists what.
        + eapply cr_comment; eassumption.
      - apply Nat.eqb_neq in Z. cbn [bind]. apply Rec; [|easy]. split; [easy|]. split; [intro G; contradiction|].
        intros [_ G]. exfalso. now apply Z, Hcm. }
    apply begins_false in E2.
    assert (Fi : begins (lit "<!") t -> prolog_fine toks t).
    { intro G. split; [now left|]. split; [intro; contradiction|]. intros [? _]. contradiction. }
    destruct (starts_with (lit "<!DOCTYPE") t) eqn:E3.
    { apply begins_spec in E3. destruct (dtd_ok _ _ _ T E3) as (d & _ & Ed). rewrite Ed. cbn [bind]. apply Rec; [|now apply SameN].
      apply Fi. apply (begins_trans _ (lit "<!DOCTYPE")); [now exists (lit "DOCTYPE")|easy]. }
    destruct (starts_with (lit "<!") t) eqn:E4.
    { apply begins_spec in E4. apply Rec; [now apply Fi|now apply SameN]. }
    apply begins_false in E4. clear Rec. rewrite Es.
    destruct (starts_with (lit "</") t) eqn:E5.
    { apply begins_spec in E5. eapply rj_closing; eassumption. }
    apply begins_false in E5.
    assert (NP : ~ prolog_like t) by now intros [?|?].
    destruct (check_element_tag t) as [[]|y| |] eqn:Ec; cbn [map_err bind].
    + apply formed_check in Ec. exists toks, pre, txt, t, s', rest. rewrite !blen_app, Nat.add_assoc. tauto.
    + assert (y = ParsingError PInvalidElement None) as -> by (unfold check_element_tag in Ec; destruct (is_match _ _); congruence).
      apply not_formed_check in Ec. eapply rj_root_form; eassumption.
    + unfold check_element_tag in Ec; destruct (is_match _ _); discriminate.
    + unfold check_element_tag in Ec; destruct (is_match _ _); discriminate.
Qed.

(** * Documents *)

Lemma parse_reads s : match parse_str s with
  | Ok _ => read_through s
  | Err x => rejected s x
  | Panic => crashes s
  | Fuel => False
  end.
Proof.
  unfold parse_str. set (f := S (blen s)).
  assert (Hf : blen s < f) by (unfold f; lia). clearbody f. cbv zeta.
  pose proof (prolog_reads f [] s None [] 0 0 [] (rd_start s)) as PR. cbn [app blen] in PR.
  assert (PR' := PR ltac:(easy) ltac:(split; [now left|easy]) ltac:(split; [now intros _ x []|easy]) Hf). clear PR. rename PR' into PR.
  destruct (prolog_loop f s None [] 0 (0, 0)) as [[[decl dtds] span]|x| |]; cbn [bind]; try exact PR.
  destruct PR as (toks & pre & txt & t & r & rest & Es & R & Nx & Hw & NP & NC & Fo & ->). cbn [fst snd].
  pose proof Nx as (_ & Hn & T). destruct (tag_at_nonempty _ _ _ T) as [Et Ht].
  assert (Sl : slice s (blen pre + blen txt) (blen pre + blen txt + blen t) = Ok t).
  { rewrite Es, Et, app_assoc, <- blen_app. apply slice_app. }
  rewrite Sl. cbn [bind]. clear Sl.
  assert (Pl : place s r (line_and_column s (blen pre + blen txt))) by (rewrite Es; apply placed2; exact (tag_some _ _ _ T)).
  destruct (strip_tag_ok t) as [b Eb]. rewrite Eb. cbn [bind].
  assert (NB : ~ begins (lit "<!") t) by (intro G; apply NP; now left).
  assert (NN : @None elem = None <-> True) by easy.
  destruct (parse_new_outcome t b s (blen pre + blen txt) None (tag_elementish _ _ _ T NB) NC Eb) as [e E|x E|E]; cbn [bind].
  2:{ apply (element_fault_iff _ _ _ _ _ NN) in E. eapply rj_root; eassumption. }
  2:{ eapply cr_root; eassumption. }
  apply (element_reads_iff _ _ _ _ NN) in E.
  pose proof (sim_step pt_new MNew (OpPush e) sim_new) as S1. cbn [m_do pt_do] in S1. destruct S1 as (t1 & E1 & S1).
  rewrite E1. cbn [bind].
  assert (A1 : at_stage t1 [tag_name e]) by (eexists; split; [exact S1|]; split; [discriminate|easy]). clear S1 E1.
  assert (Es2 : s = (pre ++ txt ++ t) ++ rest) by (rewrite Es, Et; now rewrite <- !app_assoc).
  assert (Hfr : blen rest < f) by (rewrite Es2, blen_app in Hf; lia).
  assert (Pos : blen pre + blen txt + blen t = blen (pre ++ txt ++ t)) by (rewrite !blen_app; lia). rewrite Pos. clear Pos.
  assert (Fin : forall t' (names : list str), at_stage t' names -> names <> [] -> pt_empty_stack t' = false).
  { intros t' names (m & Sm & Hm & <-) Hne. rewrite (sim_empty _ _ Sm). now destruct m. }
  assert (Fin0 : forall t', at_stage t' [] -> pt_empty_stack t' = true /\ exists e, pt_to_dom t' = Ok e).
  { intros t' (m & Sm & Hm & Z). rewrite (sim_empty _ _ Sm), (sim_to_dom _ _ Sm). destruct m as [| |e' ks]; try easy. split; [easy|]. cbn. now eexists. }
  destruct (ends_with (lit "/>") t) eqn:E2.
  - apply ends_spec in E2. destruct (pop_outcome _ _ _ A1) as (t2 & Ep & A2). rewrite Ep. cbn [bind].
    assert (R1 : reads s Single rest) by (eapply rd_single; eassumption).
    destruct f as [|f]; [lia|].
    destruct (lex_cases rest) as [Hz|[Hb|(tx & sx & tg & rx & -> & Hx & Tx & _)]].
    + assert (Ec := content_end f (pre ++ txt ++ t) rest true (blen pre + blen txt) t2 Hz). rewrite <- Es2 in Ec. rewrite Ec. cbn [bind]. destruct (Fin0 _ A2) as (-> & e' & Ed). cbn [negb]. rewrite Ed. cbn [bind].
      exists rest. split; [easy|now left].
    + destruct (broken_loops f (pre ++ txt ++ t) rest true (blen pre + blen txt) t2 Hb) as (r' & loc & U & P & Ec & _).
      rewrite <- Es2 in P, Ec. rewrite Ec. cbn [bind]. apply rj_unfinished with Single rest r'; try easy. now left.
    + assert (Ec := content_step f (pre ++ txt ++ t) tx sx tg rx true (blen pre + blen txt) t2 Hx Tx). rewrite <- Es2 in Ec. rewrite Ec. cbn [bind].
      apply rj_second with (tx ++ sx) tx tg sx rx; try easy. rewrite Es2. apply placed2. exact (tag_some _ _ _ Tx).
  - assert (Z : ~ self_closing t) by (intro Z; apply ends_spec in Z; congruence). cbn [bind].
    assert (R1 : reads s (Inside [tag_name e]) rest) by (eapply rd_root; eassumption).
    rewrite Es2 in R1. pose proof (content_reads f _ rest (blen pre + blen txt) t1 _ A1 Hfr R1) as CR. rewrite <- Es2 in CR.
    destruct (content_loop f s false _ t1) as [t2|x| |]; cbn [bind]; try exact CR.
    destruct CR as (names & tail & A2 & R2 & Hz). destruct names as [|n names].
    + destruct (Fin0 _ A2) as (-> & e' & Ed). cbn [negb]. rewrite Ed. cbn [bind]. exists tail. split; [easy|now right].
    + rewrite (Fin _ _ A2) by discriminate. cbn [negb]. now apply rj_not_closed with n names tail.
Qed.

(** Accepted, rejected and crashing texts, exactly. *)
Theorem parse_accepts s : (exists d, parse_str s = Ok d) <-> read_through s.
Proof.
  pose proof (parse_reads s) as P. split.
  - intros [d E]. now rewrite E in P.
  - intro H. apply ending_done in H. destruct (parse_str s) as [d|x| |]; [now exists d| | |contradiction]; exfalso.
    + apply ending_reject in P. exact (ending_fun _ _ _ H P).
    + apply ending_crash in P. exact (ending_fun _ _ _ H P).
Qed.
Theorem parse_crashes s : parse_str s = Panic <-> crashes s.
Proof.
  pose proof (parse_reads s) as P. split.
  - intro E. now rewrite E in P.
  - intro H. apply ending_crash in H. destruct (parse_str s) as [d|x| |]; [| |easy|contradiction]; exfalso.
    + apply ending_done in P. exact (ending_fun _ _ _ H P).
    + apply ending_reject in P. exact (ending_fun _ _ _ H P).
Qed.
Theorem parse_rejects s x : parse_str s = Err x -> rejected s x.
Proof. intro E. pose proof (parse_reads s) as P. now rewrite E in P. Qed.
Theorem parse_rejected s x : rejected s x -> exists y, parse_str s = Err y /\ same_report x y.
Proof.
  pose proof (parse_reads s) as P. intro H. apply ending_reject in H. destruct (parse_str s) as [d|y| |]; [| | |contradiction].
  - exfalso. apply ending_done in P. exact (ending_fun _ _ _ H P).
  - exists y. split; [easy|]. apply ending_reject in P. exact (ending_fun _ _ _ H P).
  - exfalso. apply ending_crash in P. exact (ending_fun _ _ _ H P).
Qed.

(** * Nesting *)

Lemma element_reads_opening P t n : ~ begins (lit "<!") t -> ~ begins (lit "</") t -> element_reads P t n -> opening t n.
Proof.
  intros N1 N2 (kvs & l & nm & (comps & (b & o & Et & W & Ho) & _) & _). split; [easy|]. split; [easy|].
  split; [now apply words_first in W|]. split; [now apply words_first in W|].
  assert (exists w r, b = w ++ n ++ r /\ ws w /\ (r = [] \/ exists c r', r = c :: r' /\ is_whitespace c = true)) as (w & r & -> & Hw & Hr).
  { inversion W as [|w c Hw Hc Hs|w c x s l' Hw Hc Hs Hq Hx W']; subst.
    - exists w, []. split; [now rewrite app_nil_r|]. split; [easy|now left].
    - exists w, (x :: s). split; [easy|]. split; [easy|]. right. now exists x, s. }
  exists w, (r ++ o). split; [rewrite Et; now rewrite <- !app_assoc|]. split; [easy|].
  destruct Hr as [->|(c & r' & -> & Hc)].
  - destruct Ho as [->|[-> Ho]]; [right; now left|now left].
  - right. right. now exists c, (r' ++ o).
Qed.
Lemma closes_closing t n : closes t n -> closing t n.
Proof.
  intros (w1 & w2 & o & E & H1 & H2 & Ho). exists w1, w2, o. split; [easy|]. split; [easy|]. split; [easy|].
  destruct Ho as [->|[-> _]]; [now right|now left].
Qed.
Lemma roots_snoc l e : l = [] \/ roots_tags l -> element_tags e -> roots_tags (l ++ e).
Proof.
  intros [->|H] He; [now apply ro_one|]. induction H as [l H|l1 l2 H1 H2 IH].
  - apply ro_more; [easy|now apply ro_one].
  - rewrite <- app_assoc. now apply ro_more.
Qed.
Lemma oa_extend l n names body : open_after l (n :: names) -> content_tags body -> open_after (l ++ body) (n :: names).
Proof.
  intros H Hb. inversion H as [|l0 nm t n0 body0 H0 O Z Hb0]; subst. rewrite <- app_assoc. cbn [app].
  apply oa_open; [easy..|]. now apply content_app.
Qed.
Lemma oa_complete l names e : open_after l names -> element_tags e -> open_after (l ++ e) names.
Proof.
  intros H He. destruct names as [|n names].
  - inversion H as [l0 Hl|]; subst. apply oa_none. right. now apply roots_snoc.
  - apply oa_extend; [easy|]. rewrite <- (app_nil_r e). apply ct_elem; [easy|constructor].
Qed.
Lemma oa_close l n names c : open_after l (n :: names) -> closing c n -> open_after (l ++ [c]) names.
Proof.
  intros H C. inversion H as [|l0 nm t n0 body0 H0 O Z Hb0]; subst. rewrite <- app_assoc. cbn [app].
  apply oa_complete; [easy|]. now apply et_pair with n.
Qed.
Lemma tag_fine_open l names t names' : open_after l names -> tag_fine names t names' -> open_after (l ++ [t]) names'.
Proof.
  intros O G. destruct G as [Hn B _ _|Hn B|n names' -> B F C|n Hn N1 N2 F R Z|n N1 N2 F R Z].
  - destruct names as [|n names]; [easy|]. apply oa_extend; [easy|]. apply ct_markup; [now apply comment_bang|constructor].
  - destruct names as [|n names]; [easy|]. apply oa_extend; [easy|]. apply ct_markup; [now apply cdata_bang|constructor].
  - apply oa_close with n; [easy|now apply closes_closing].
  - apply oa_complete; [easy|]. apply et_single with n; [now apply element_reads_opening with (names = [])|easy].
  - apply oa_open; [easy|now apply element_reads_opening with (names = [])|easy|constructor].
Qed.
Lemma reads_path s st rest : reads s st rest ->
  match st with
  | Before toks => in_prolog s toks rest
  | Single => exists el, in_root s el [] rest /\ exists txt t, el = [(txt, t)] /\ self_closing t
  | Inside names => exists el, in_root s el names rest
  end.
Proof.
  assert (St : forall toks rest txt t r rest' names, in_prolog s toks rest -> next_tag_is rest txt t r rest' -> ~ prolog_like t ->
    open_after [t] names -> in_root s [(txt, t)] names rest').
  { intros toks rest0 txt t r rest' names P (-> & Hn & T) NP O. exists toks, (txt ++ r). split; [easy|].
    split; [apply lx_tag with rest'; [easy|easy|constructor]|]. split; [|easy]. now exists txt, t, []. }
  induction 1 as [|toks rest txt t r rest' R IH Nx Hw F|toks rest txt t r rest' n R IH Nx Hw NP NC F E Z|toks rest txt t r rest' n R IH Nx Hw NP NC F E Z|
    names rest txt t r rest' names' R IH Nx Tf G].
  - split; constructor.
  - destruct IH as [L A]. destruct Nx as (-> & Hn & T). split.
    + apply lexed_app with (txt ++ r); [easy|]. apply lx_tag with rest'; [easy|easy|constructor].
    + apply Forall_app. split; [easy|]. constructor; [|constructor]. split; [easy|]. apply F.
  - exists [(txt, t)]. split; [|now exists txt, t]. apply (St toks rest txt t r rest'); try easy.
    apply oa_none. right. apply ro_one. apply et_single with n; [|easy].
    apply element_reads_opening with True; try easy. intro G. apply NP. now left.
  - exists [(txt, t)]. apply (St toks rest txt t r rest'); try easy.
    apply (oa_open [] []); [apply oa_none; now left| |easy|constructor].
    apply element_reads_opening with True; try easy. intro G. apply NP. now left.
  - destruct IH as (el & toks & mid & P & L & (txt0 & t0 & r0 & -> & NP) & O). destruct Nx as (-> & Hn & T).
    exists (((txt0, t0) :: r0) ++ [(txt, t)]), toks, mid. split; [easy|]. split.
    + apply lexed_app with (txt ++ r); [easy|]. apply lx_tag with rest'; [easy|easy|constructor].
    + split; [now exists txt0, t0, (r0 ++ [(txt, t)])|]. rewrite map_app. now apply tag_fine_open with names.
Qed.

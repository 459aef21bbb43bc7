(** Proofs for SpecConf.v: the tags of well-formed XML. *)
From Coq Require Import List NArith Arith Bool Ascii String Lia.
From Verif Require Import Base BaseFacts Escape Dom Spec SpecDom SpecLex SpecParse LexFacts ParseFacts DocFacts
  SpecEsc SpecDoc PrintFacts PrintDoc SpecErr ReadFacts LoopFacts SpecMean SpecXml XmlFacts SpecConf.
Import ListNotations.

(** * Tags and their ends *)

Lemma attribute_quiet a : attribute_ok a -> quiet (attribute_text a).
Proof.
  intros (_ & H1 & (p & n & Q) & H2 & H3 & Hq & Hv). unfold attribute_text.
  assert (A : forall s, spaces s -> quiet s) by (intros s S; now apply calm_quiet, spaces_calm).
  apply quiet_app; [now apply A|]. apply quiet_app; [apply calm_quiet, qname_calm; now exists p, n|].
  apply quiet_app; [now apply A|]. apply quiet_app; [apply calm_quiet; intros c [<-|[]]; cbn; lia|].
  apply quiet_app; [now apply A|]. apply quoted_quiet; [easy|]. now apply value_quote.
Qed.
Lemma attributes_quiet l : Forall attribute_ok l -> quiet (flat_map attribute_text l).
Proof. induction 1 as [|a l H Hl IH]; [now apply calm_quiet; intros c []|]. cbn [flat_map]. apply quiet_app; [now apply attribute_quiet|easy]. Qed.
Definition start_text (nm : str) (attrs : list attribute) (w e : str) : str := lit "<" ++ nm ++ flat_map attribute_text attrs ++ w ++ e.
Definition end_text (nm w : str) : str := lit "</" ++ nm ++ w ++ lit ">".
Lemma name_head s : is_name s -> exists c r, s = c :: r /\ c <> 33%N /\ c <> 63%N /\ c <> 47%N.
Proof.
  intros (c & r & -> & H & _). exists c, r. split; [easy|]. unfold name_first, in_ranges in H. rewrite Exists_exists in H.
  destruct H as ([x y] & I & H). cbn [fst snd] in H. cbn in I.
  repeat (destruct I as [E|I]; [injection E as <- <-; lia|]). destruct I.
Qed.
Lemma start_at nm attrs w e rest : is_name nm -> Forall attribute_ok attrs -> spaces w -> e = lit ">" \/ e = lit "/>" ->
  tag_at (start_text nm attrs w e ++ rest) (start_text nm attrs w e) rest.
Proof.
  intros Hn Ha Hw He.
  assert (K : forall o, o = [] \/ o = lit "/" -> tag_at ((lit "<" ++ (nm ++ flat_map attribute_text attrs ++ w ++ o) ++ lit ">") ++ rest)
    (lit "<" ++ (nm ++ flat_map attribute_text attrs ++ w ++ o) ++ lit ">") rest).
  { intros o Ho. assert (quiet (nm ++ flat_map attribute_text attrs ++ w ++ o)) as (Q & _ & G).
    { repeat apply quiet_app; [now apply calm_quiet, name_calm|now apply attributes_quiet|now apply calm_quiet, spaces_calm|].
      apply calm_quiet. destruct Ho as [-> | ->]; [now intros c []|]. intros c [<-|[]]. cbn. lia. }
    rewrite <- app_assoc, <- (app_assoc _ (lit ">") rest). apply elem_tag_at; [exact Q|exact G|].
    destruct (name_head _ Hn) as (c & r & -> & H1 & H2 & _). now split. }
  unfold start_text. destruct He as [-> | ->].
  - specialize (K [] (or_introl eq_refl)). rewrite app_nil_r in K. rewrite <- !app_assoc in *. exact K.
  - specialize (K (lit "/") (or_intror eq_refl)). rewrite <- !app_assoc in *. exact K.
Qed.
Lemma end_at nm w rest : is_name nm -> spaces w -> tag_at (end_text nm w ++ rest) (end_text nm w) rest.
Proof.
  intros Hn Hw. assert (quiet (lit "/" ++ nm ++ w)) as (Q & _ & G).
  { repeat apply quiet_app; [apply calm_quiet; intros c [<-|[]]; cbn; lia|now apply calm_quiet, name_calm|now apply calm_quiet, spaces_calm]. }
  pose proof (elem_tag_at (lit "/" ++ nm ++ w) rest Q G) as K. unfold end_text.
  change (lit "</") with (lit "<" ++ lit "/"). rewrite <- !app_assoc in *. apply K. now split.
Qed.
Lemma reference_no_lt p : reference_ok p -> p <> Chr lt_ -> ~ In lt_ (piece_text p).
Proof.
  intros R N I. destruct p as [c|nm|ds|ds]; cbn [piece_text] in I.
  - destruct I as [->|[]]. now apply N.
  - now apply (ent_chars_in nm) in I.
  - destruct R as (c & R & _). destruct ds as [|d ds]; [discriminate R|]. cbn [refers] in R. apply number_digits in R. rewrite Forall_forall in R.
    apply in_app_or in I. destruct I as [I|I]; [cbn in I; repeat (destruct I as [I|I]; [discriminate I|]); exact I|].
    apply in_app_or in I. destruct I as [I|I]; [apply R in I; now apply I|].
    cbn in I; repeat (destruct I as [I|I]; [discriminate I|]); exact I.
  - destruct R as (c & R & _). destruct ds as [|d ds]; [discriminate R|]. cbn [refers] in R. apply number_digits in R. rewrite Forall_forall in R.
    apply in_app_or in I. destruct I as [I|I]; [cbn in I; repeat (destruct I as [I|I]; [discriminate I|]); exact I|].
    apply in_app_or in I. destruct I as [I|I]; [apply R in I; now apply I|].
    cbn in I; repeat (destruct I as [I|I]; [discriminate I|]); exact I.
Qed.
Lemma chardata_no_tag l : chardata_ok l -> no_tag (pieces_text l).
Proof.
  intros [H _] I. unfold pieces_text in I. apply in_flat_map in I. destruct I as (p & Ip & I). rewrite Forall_forall in H.
  destruct (H p Ip) as [R G]. apply (reference_no_lt p R); [|easy]. intros ->. destruct (G lt_ eq_refl) as [_ K]. apply K. now left.
Qed.

(** * Tags that are never fine *)

Lemma last_of {A} (a b : list A) x y : a ++ [x] = b ++ [y] -> a = b /\ x = y.
Proof. apply app_inj_tail. Qed.
Lemma words_last : forall s l, SpecParse.words s l -> forall a z, s = a ++ [z] -> is_whitespace z = false -> exists l0 c, l = l0 ++ [c ++ [z]].
Proof.
  assert (T : forall (u v a : str) z, v <> [] -> u ++ v = a ++ [z] -> exists v0, v = v0 ++ [z]).
  { intros u v a z N E. destruct (exists_last N) as (v0 & y & ->). rewrite app_assoc in E. apply app_inj_tail in E. destruct E as [_ ->]. now exists v0. }
  induction 1 as [w W|w c W N S|w c x s l W N S Q X H IH]; intros a z E Z.
  - exfalso. subst w. unfold ws in W. rewrite Forall_app in W. destruct W as [_ W]. inversion W; congruence.
  - destruct (T w c a z N E) as [v0 ->]. now exists [], v0.
  - destruct (T (w ++ c) (x :: s) a z ltac:(discriminate)) as [v0 Ev]; [now rewrite <- app_assoc|].
    destruct (IH v0 z Ev Z) as (l0 & c0 & ->). now exists (c :: l0), c0.
Qed.
Lemma joined_last : forall l r, joined l r -> forall l0 c z, l = l0 ++ [c ++ [z]] -> exists r0 c', r = r0 ++ [c' ++ [z]].
Proof.
  induction 1 as [|a l r N J IH|a b l r S N J IH|a b c l r S S2 J IH]; intros l0 y z E.
  - now destruct l0.
  - destruct l0 as [|d l0]; cbn in E; injection E as -> E.
    + subst l. inversion J; subst. now exists [], y.
    + destruct (IH _ _ _ E) as (r0 & c' & ->). now exists (d :: r0), c'.
  - destruct l0 as [|d [|d' l0]]; cbn in E.
    + discriminate E.
    + injection E as -> -> ->. inversion J; subst. exists [], (d ++ y). now rewrite <- app_assoc.
    + injection E as -> -> E. destruct (IH _ _ _ E) as (r0 & c' & ->). now exists ((d ++ d') :: r0), c'.
  - destruct l0 as [|d [|d' [|d'' l0]]]; cbn in E.
    + discriminate E.
    + discriminate E.
    + injection E as -> -> -> ->. inversion J; subst. exists [], (d ++ d' ++ y). now rewrite <- !app_assoc.
    + injection E as -> -> -> E. destruct (IH _ _ _ E) as (r0 & c' & ->). now exists ((d ++ d' ++ d'') :: r0), c'.
Qed.
Lemma reads_last kvs l r0 c z : Forall2 attr_reads kvs l -> kvs = r0 ++ [c ++ [z]] -> is_quote z = true.
Proof.
  intros F ->. apply Forall2_app_inv_l in F. destruct F as (l1 & l2 & _ & F & _). inversion F as [|? x ? ? (v & u & E & _ & (q & Hq & ->) & _) _]; subst.
  rewrite !app_assoc in E. apply app_inj_tail in E. now destruct E as [_ ->].
Qed.
Lemma word_closing b n comps a z : SpecParse.words b (n :: comps) -> b = a ++ [z] -> is_whitespace z = false -> comps = [] -> exists w, ws w /\ b = w ++ n /\ solid None n.
Proof.
  intros W E Z ->. inversion W as [|w c Hw N S|w c x s l Hw N S Q X H]; subst; [now exists w|].
  inversion H as [w' W'| |]; subst. exfalso.
  destruct (exists_last (l := x :: s)) as (v0 & y & Ev); [discriminate|]. rewrite Ev in *.
  match goal with K : w ++ n ++ v0 ++ [y] = _ |- _ => rewrite !app_assoc in K; apply app_inj_tail in K; destruct K as [_ ->] end.
  unfold ws in W'. rewrite Forall_app in W'. destruct W' as [_ W']. inversion W'; congruence.
Qed.

(** A tag that begins like a processing instruction is no element. *)
Lemma name_chars_no s x : is_name s -> In x [33; 34; 39; 47; 60; 62; 63; 32; 9; 10; 13]%N -> ~ In x s.
Proof.
  intros (c & r & -> & H & Hr) X I.
  assert (K : name_next x). { destruct I as [->|I]; [now left|]. rewrite Forall_forall in Hr. now apply Hr. }
  clear - X K. unfold name_next, name_first, in_ranges in K.
  repeat (destruct X as [<-|X]; [destruct K as [K|K]; rewrite Exists_exists in K; destruct K as ([u v] & I & L); cbn [fst snd] in L; cbn in I;
    repeat (destruct I as [E|I]; [injection E as <- <-; lia|]); destruct I|]). destruct X.
Qed.
Lemma pi_tag p r t rest : pi_ok p -> tag_at (pi_text p ++ r) t rest ->
  (pi_data p = [] /\ t = pi_text p) \/ exists c d, pi_data p <> [] /\ xml_space c /\ t = lit "<?" ++ (pi_target p ++ c :: d) ++ lit "?>".
Proof.
  intros (Hn & _ & Hd & _) T. unfold pi_text in T.
  assert (shortest pi_like ((lit "<?" ++ pi_target p ++ pi_data p ++ lit "?>") ++ r) t rest) as (E & (b & -> & Q) & M).
  { destruct T as [B H|B H|B H|B N1 N2 H|B N1 N2 H]; [now destruct B|easy|now destruct B|now destruct B|].
    exfalso. apply N1. rewrite <- app_assoc. now eexists. }
  assert (N63 : ~ In 63%N (pi_target p)) by (apply name_chars_no; [easy|cbn; tauto]).
  rewrite <- !app_assoc in E. apply app_inv_head in E.
  destruct Hd as [Hd|(c & d & Hd & Hc & _)].
  - left. split; [easy|]. rewrite Hd in *. cbn [app] in E.
    destruct (M (lit "<?" ++ pi_target p ++ lit "?>") r) as [z Ez].
    { now rewrite <- !app_assoc. }
    { exists (pi_target p). split; [easy|]. unfold quotes_closed. now apply (proj1 (calm_unquoted _ (name_calm _ Hn))). }
    rewrite <- !app_assoc in Ez. apply app_inv_head in Ez. destruct (prefix_split _ _ _ _ Ez) as [(y & E1 & E2)|(y & E1 & E2)].
    + destruct y as [|y0 y]; [rewrite app_nil_r in E1; subst b; unfold pi_text; now rewrite Hd|].
      exfalso. cbn in E2. injection E2 as <- E2. apply N63. rewrite E1. apply in_or_app. right. now left.
    + destruct y as [|y0 [|y1 y]]; [rewrite app_nil_r in E1; subst b; unfold pi_text; now rewrite Hd| |].
      * exfalso. cbn in E2. injection E2 as <- E2. discriminate E2.
      * exfalso. cbn in E2. injection E2 as <- <- E2. destruct y; discriminate E2.
  - right. destruct (prefix_split _ _ _ _ E) as [(y & E1 & E2)|(y & E1 & E2)].
    + destruct y as [|y0 y].
      * exfalso. rewrite Hd in E2. cbn in E2. injection E2 as <- E2. cbn in Hc. repeat (destruct Hc as [Hc|Hc]; [discriminate Hc|]). destruct Hc.
      * exfalso. cbn in E2. injection E2 as <- E2. apply N63. rewrite E1. apply in_or_app. right. now left.
    + destruct y as [|y0 y].
      * exfalso. rewrite Hd in E2. cbn in E2. injection E2 as -> E2. cbn in Hc. repeat (destruct Hc as [Hc|Hc]; [discriminate Hc|]). destruct Hc.
      * exists c, y. split; [rewrite Hd; discriminate|]. split; [easy|]. rewrite Hd in E2. cbn in E2. injection E2 as -> E2. now rewrite E1.
Qed.
Lemma pi_not_read p r t rest P n : pi_ok p -> tag_at (pi_text p ++ r) t rest -> formed t -> ~ element_reads P t n.
Proof.
  intros O T F (kvs & l & nm & (comps & (b & o & E & W & Ho) & J) & R & _).
  pose proof (pi_tag _ _ _ _ O T) as K. destruct O as (Hn & _).
  destruct K as [[Hd ->]|(c & d & Hd & Hc & ->)].
  - destruct F as (a & u & b' & Eu & (o1 & n1 & l1 & w1 & o2 & -> & Ho1 & (c1 & r1 & -> & Hs & _) & _)).
    unfold pi_text in Eu. rewrite Hd in Eu. cbn [app lit] in Eu.
    destruct a as [|a0 a].
    + cbn in Eu. destruct Ho1 as [-> | ->]; cbn in Eu; injection Eu as Eu _; [|discriminate Eu]. subst c1.
      destruct Hs as [[Hs _]|Hs]; [|discriminate Hs]. rewrite Exists_exists in Hs. destruct Hs as ([x y] & I & L). unfold between_ in L. cbn [fst snd] in L. cbn in I.
      repeat (destruct I as [Ei|I]; [injection Ei as <- <-; lia|]). destruct I.
    + assert (In lt_ (pi_target p ++ lit "?>")) as I.
      { cbn in Eu. injection Eu as _ Eu. destruct a as [|a1 a]; [cbn in Eu; discriminate Eu|]. cbn in Eu. injection Eu as _ Eu. change (In lt_ (pi_target p ++ [63%N; 62%N])). rewrite Eu.
        apply in_or_app. right. now left. }
      apply in_app_or in I. destruct I as [I|I]; [|cbn in I; repeat (destruct I as [I|I]; [discriminate I|]); destruct I].
      revert I. apply name_chars_no; [easy|cbn; tauto].
  - assert (Eb : b = (lit "?" ++ pi_target p ++ c :: d) ++ [63%N]).
    { change (lit "<?") with (lit "<" ++ lit "?") in E. rewrite <- (app_assoc (lit "<")) in E. apply app_inv_head in E.
      change (lit "?>") with ([63%N] ++ lit ">") in E. rewrite !app_assoc in E. apply app_inv_tail in E.
      destruct Ho as [-> | [-> _]].
      - exfalso. apply app_inj_tail in E. destruct E as [_ E]. discriminate E.
      - rewrite app_nil_r in E. rewrite <- E. now rewrite <- !app_assoc. }
    destruct comps as [|c0 comps].
    + destruct (word_closing _ _ _ _ _ W Eb eq_refl eq_refl) as (w & Hw & Ew & S).
      rewrite Eb in Ew. destruct w as [|w0 w]; [|cbn in Ew; injection Ew as <- _; inversion Hw; discriminate].
      cbn [app] in Ew. subst n. unfold solid in S. rewrite Forall_forall in S.
      assert (is_whitespace c = true) as Wc by (cbn in Hc; destruct Hc as [<-|[<-|[<-|[<-|[]]]]]; reflexivity).
      rewrite S in Wc; [discriminate Wc|].
      rewrite <- !app_assoc, !unquoted_app. change (unquoted None (lit "?")) with (lit "?"). change (open_quote None (lit "?")) with (@None char).
      destruct (calm_unquoted _ (name_calm _ Hn)) as [Q1 Q2]. rewrite Q1, Q2. apply in_or_app. right. apply in_or_app. right.
      cbn [app unquoted]. replace (is_quote c) with false; [now left|].
      cbn in Hc. destruct Hc as [<-|[<-|[<-|[<-|[]]]]]; reflexivity.
    + destruct (words_last _ _ W _ _ Eb eq_refl) as (l0 & y & El).
      destruct l0 as [|y0 l0]; [discriminate El|]. injection El as _ El.
      destruct (joined_last _ _ J _ _ _ El) as (r0 & c' & Er). pose proof (reads_last _ _ _ _ _ R Er) as Q. discriminate Q.
Qed.
(** Nor is a comment that ends at its start one. *)
Lemma short_comment c r t rest : begins (lit ">") c \/ begins (lit "->") c -> tag_at (comment_text c ++ r) t rest ->
  t = lit "<!-->" \/ t = lit "<!--->".
Proof.
  intros B T. unfold comment_text in T. rewrite <- !app_assoc in T.
  assert (shortest comment_like (lit "<!--" ++ c ++ lit "-->" ++ r) t rest) as (E & (a & ->) & M).
  { destruct T as [H H'|H H'|H H'|H N1 N2 H'|H N1 N2 H']; [easy|now destruct H|now destruct H|exfalso; apply N1; now eexists|exfalso; apply N2; now eexists]. }
  destruct B as [[x ->]|[x ->]].
  - left. destruct (M (lit "<!-->") (x ++ lit "-->" ++ r)) as [z Ez]; [easy|now exists (lit "<!")|].
    destruct a as [|a0 [|a1 [|a2 a]]]; cbn in Ez; try discriminate Ez.
    + injection Ez as <- <- _. reflexivity.
    + exfalso. apply (f_equal (@List.length _)) in Ez. cbn in Ez. rewrite !app_length in Ez. cbn in Ez. lia.
  - right. destruct (M (lit "<!--->") (x ++ lit "-->" ++ r)) as [z Ez]; [easy|now exists (lit "<!-")|].
    destruct a as [|a0 [|a1 [|a2 [|a3 a]]]]; cbn in Ez; try discriminate Ez.
    + injection Ez as <- <- <- _. reflexivity.
    + exfalso. apply (f_equal (@List.length _)) in Ez. cbn in Ez. rewrite !app_length in Ez. cbn in Ez. lia.
Qed.

(** * Reading on *)

Definition final (c : stage * str) : Prop := exists tail, no_tag tail /\ (steps c (Single, tail) \/ steps c (Inside [], tail)).
Lemma read_final s : read_through s -> final (Before [], s).
Proof. intros (tail & N & [R|R]); apply reads_steps in R; exists tail; tauto. Qed.
Lemma steps_trans c1 c2 c3 : steps c1 c2 -> steps c2 c3 -> steps c1 c3.
Proof. induction 1 as [c|c d e H1 H2 IH]; intro H; [easy|]. apply ss_step with d; auto. Qed.
Lemma steps_reads s : forall st rest c, steps (st, rest) c -> reads s st rest -> reads s (fst c) (snd c).
Proof.
  assert (K : forall c c', steps c c' -> reads s (fst c) (snd c) -> reads s (fst c') (snd c')).
  { induction 1 as [c|c d e H1 H2 IH]; intro R; [easy|]. apply IH. destruct H1; cbn [fst snd] in *;
      [eapply rd_prolog|eapply rd_single|eapply rd_root|eapply rd_tag]; eassumption. }
  intros st rest c S R. now apply K in S.
Qed.
Lemma final_read s : final (Before [], s) -> read_through s.
Proof.
  intros (tail & N & [S|S]); exists tail; (split; [exact N|]); [left|right]; apply (steps_reads s) in S; try exact S; constructor.
Qed.
Lemma tag_at_tag txt s t rest : no_tag txt -> tag_at s t rest -> ~ no_tag (txt ++ s).
Proof. intros N T K. apply tag_at_lt in T. destruct T as [y ->]. apply K. apply in_or_app. right. now left. Qed.
Lemma final_tag names txt s t rest : final (Inside names, txt ++ s) -> no_tag txt -> tag_at s t rest ->
  exists names', text_fine names txt /\ tag_fine names t names' /\ final (Inside names', rest).
Proof.
  intros (tail & N & S) Nt T.
  assert (K : forall c, steps (Inside names, txt ++ s) c -> c <> (Inside names, txt ++ s) ->
    exists names', text_fine names txt /\ tag_fine names t names' /\ steps (Inside names', rest) c).
  { intros c Sc D. inversion Sc as [|c1 c2 H1 H2]; subst; [easy|]. inversion H1 as [| | |? ? txt' t' r' rest' names' Hn Ht Hf]; subst.
    assert (next_tag_is (txt ++ s) txt t s rest) as Hn' by easy.
    destruct (next_tag_fun _ _ _ _ _ _ _ _ _ Hn Hn') as (-> & -> & -> & ->). now exists names'. }
  destruct S as [S|S]; apply K in S; try discriminate; [| |intro E; injection E as <- ->; now apply (tag_at_tag txt s t rest)];
    destruct S as (names' & A & B & S); exists names'; (split; [exact A|]; split; [exact B|]); exists tail; tauto.
Qed.
Lemma final_done names txt : names <> [] -> no_tag txt -> ~ final (Inside names, txt).
Proof.
  intros D N (tail & _ & [S|S]); inversion S as [|c1 c2 H1 H2]; subst; try easy;
    inversion H1 as [| | |? ? txt' t' r' rest' names' Hn Ht Hf]; subst; now apply next_tag_some in Hn.
Qed.

(** The tags that can be read. *)
Definition tag_read (t n : str) : Prop := formed t /\ element_reads False t n.
Fixpoint was_read (m : markup) : Prop :=
  match m with
  | MEmpty nm attrs w => exists n, tag_read (start_text nm attrs w (lit "/>")) n
  | MElem nm attrs w b w' => (exists n, tag_read (start_text nm attrs w (lit ">")) n /\ closes (end_text nm w') n) /\ was_read_in b
  | MComment c => ~ begins (lit ">") c /\ ~ begins (lit "->") c
  | MCData c => True
  | MPI p => False
  end
with was_read_in (b : content) : Prop :=
  match b with
  | CText t => True
  | CMore t m b => was_read m /\ was_read_in b
  end.
(** The tags, with the text before each; the text after the last one. *)
Fixpoint ctail (b : content) : str :=
  match b with
  | CText t => pieces_text t
  | CMore t m b => ctail b
  end.
Fixpoint mtoks (txt : str) (m : markup) : list (str * str) :=
  match m with
  | MEmpty nm attrs w => [(txt, start_text nm attrs w (lit "/>"))]
  | MElem nm attrs w b w' => (txt, start_text nm attrs w (lit ">")) :: ctoks b ++ [(ctail b, end_text nm w')]
  | MComment c => [(txt, comment_text c)]
  | MCData c => [(txt, lit "<![CDATA[" ++ c ++ lit "]]>")]
  | MPI p => [(txt, pi_text p)]
  end
with ctoks (b : content) : list (str * str) :=
  match b with
  | CText t => []
  | CMore t m b => mtoks (pieces_text t) m ++ ctoks b
  end.

Lemma element_reads_weak (P : Prop) t n : element_reads P t n -> element_reads False t n.
Proof. intros (kvs & l & nm & A & B & C & D). exists kvs, l, nm. tauto. Qed.
Lemma empty_text nm attrs w r : markup_text (MEmpty nm attrs w) ++ r = start_text nm attrs w (lit "/>") ++ r.
Proof. reflexivity. Qed.
Lemma elem_text nm attrs w b w' r : markup_text (MElem nm attrs w b w') ++ r = start_text nm attrs w (lit ">") ++ content_text b ++ end_text nm w' ++ r.
Proof. cbn [markup_text]. unfold start_text, end_text. now rewrite <- !app_assoc. Qed.
Lemma start_self nm attrs w : self_closing (start_text nm attrs w (lit "/>")).
Proof. exists (lit "<" ++ nm ++ flat_map attribute_text attrs ++ w). unfold start_text. now rewrite <- !app_assoc. Qed.
Lemma qname_head nm : is_qname nm -> is_name nm.
Proof. intros (p & n & Q). now apply qname_name in Q. Qed.
Lemma ends_two (p q s : str) : ends p s -> ends q s -> ends p q \/ ends q p.
Proof.
  intros [x ->] [y E].
  destruct (prefix_split x p y q E) as [(z & E1 & E2)|(z & E1 & E2)]; [left; now exists z|right; now exists z].
Qed.
Lemma last_not (s : str) a z (t : str) : s = a ++ [z] -> ends t s -> forall b y, t = b ++ [y] -> y = z.
Proof. intros -> [x E] b y ->. rewrite app_assoc in E. apply app_inj_tail in E. now destruct E. Qed.
Lemma start_open nm attrs w : is_name nm -> Forall attribute_ok attrs -> spaces w -> ~ self_closing (start_text nm attrs w (lit ">")).
Proof.
  intros Hn Ha Hw [x E]. unfold start_text in E. rewrite !app_assoc in E. change (lit "/>") with ([47%N] ++ lit ">") in E.
  rewrite (app_assoc x) in E. apply app_inv_tail in E. rewrite <- !app_assoc in E.
  assert (K : forall u v : str, u ++ v = x ++ [47%N] -> v = [] \/ exists v0, v = v0 ++ [47%N]).
  { intros u v Ev. destruct v as [|v0 v]; [now left|]. right. destruct (exists_last (l := v0 :: v)) as (v1 & y & Ey); [discriminate|].
    rewrite Ey in *. rewrite app_assoc in Ev. apply app_inj_tail in Ev. destruct Ev as [_ ->]. now exists v1. }
  destruct (K (lit "<" ++ nm ++ flat_map attribute_text attrs) w) as [-> | [v0 ->]]; [now rewrite <- !app_assoc| |].
  - rewrite app_nil_r in E. destruct attrs as [|a attrs].
    + cbn [flat_map] in E. rewrite app_nil_r in E. destruct (K (lit "<") nm E) as [-> | [v0 ->]].
      * now destruct Hn as (c & r & En & _).
      * apply (name_chars_no _ 47%N Hn); [cbn; tauto|]. apply in_or_app. right. now left.
    + destruct (exists_last (l := a :: attrs)) as (l & z & El); [discriminate|]. rewrite El in *. apply Forall_app in Ha. destruct Ha as [_ Ha].
      inversion Ha as [|z' l' (_ & _ & _ & _ & _ & Hq & _) _]; subst. rewrite flat_map_app in E. cbn [flat_map] in E. unfold attribute_text in E at 2.
      rewrite app_nil_r in E. rewrite !app_assoc in E. apply app_inj_tail in E. destruct E as [_ E]. destruct Hq as [Hq|Hq]; rewrite Hq in E; discriminate E.
  - unfold spaces in Hw. rewrite Forall_app in Hw. destruct Hw as [_ Hw]. inversion Hw as [|? ? X _]; subst.
    cbn in X. repeat (destruct X as [X|X]; [discriminate X|]). destruct X.
Qed.
Lemma start_not_special nm attrs w e : is_name nm -> ~ begins (lit "<!") (start_text nm attrs w e) /\ ~ begins (lit "</") (start_text nm attrs w e)
  /\ ~ begins (lit "<?") (start_text nm attrs w e).
Proof.
  intro Hn. destruct (name_head _ Hn) as (c & r & -> & H1 & H2 & H3).
  repeat split; intros [x E]; injection E as -> E; congruence.
Qed.
Lemma end_begins nm w : begins (lit "</") (end_text nm w).
Proof. now eexists. Qed.
Lemma comment_wf_at c r : comment_ok c -> ~ begins (lit ">") c -> ~ begins (lit "->") c -> tag_at (comment_text c ++ r) (comment_text c) r.
Proof.
  intros (_ & H1 & H2) B1 B2. unfold comment_text. rewrite <- !app_assoc. apply comment_at.
  split; [|now split]. intro S. apply H1. destruct S as (a & b & ->). now exists a, (lit ">" ++ b).
Qed.
Lemma cdata_wf_at c r : cdata_ok c -> tag_at ((lit "<![CDATA[" ++ c ++ lit "]]>") ++ r) (lit "<![CDATA[" ++ c ++ lit "]]>") r.
Proof. intros (_ & H1). rewrite <- !app_assoc. now apply cdata_at. Qed.

(** ** What was read inside an element *)

Lemma begins_app p (s r : str) : begins p s -> begins p (s ++ r).
Proof. intros [x ->]. exists (x ++ r). now rewrite app_assoc. Qed.
Lemma tag_ok_parts sc nm attrs w : tag_ok sc nm attrs w -> is_name nm /\ Forall attribute_ok attrs /\ spaces w.
Proof. intros ((p & n & Q & _) & (A & _) & W). apply qname_name in Q. tauto. Qed.
Lemma fine_start names t names' : tag_fine names t names' -> ~ begins (lit "<!") t -> ~ begins (lit "</") t ->
  exists n, tag_read t n /\ ((self_closing t /\ names' = names) \/ (~ self_closing t /\ names' = n :: names)).
Proof.
  intros F B1 B2. destruct F as [N C _ _|N C|n names' E C _ _|n N _ _ F R S|n _ _ F R S].
  - exfalso. apply B1. destruct C as [x ->]. now exists (lit "--" ++ x).
  - exfalso. apply B1. destruct C as [x ->]. now exists (lit "[CDATA[" ++ x).
  - now exfalso.
  - exists n. split; [split; [easy|]; now apply element_reads_weak in R|]. now left.
  - exists n. split; [split; [easy|]; now apply element_reads_weak in R|]. now right.
Qed.
Lemma fine_end names t names' : tag_fine names t names' -> begins (lit "</") t -> exists n, names = n :: names' /\ closes t n.
Proof.
  intros F B. destruct F as [N C _ _|N C|n names' E C _ K|n N _ C _ _ _|n _ C _ _ _]; try now exfalso.
  - exfalso. destruct B as [x ->]. destruct C as [y E]. discriminate E.
  - exfalso. destruct B as [x ->]. destruct C as [y E]. discriminate E.
  - now exists n.
Qed.
Lemma fine_bang names t names' : tag_fine names t names' -> begins (lit "<!") t -> names' = names /\ names <> [] /\ t <> lit "<!-->" /\ t <> lit "<!--->".
Proof.
  intros F B. destruct F as [N C H1 H2|N C|n names' E C _ _|n N C _ _ _ _|n C _ _ _ _]; try now exfalso.
  - now repeat split.
  - repeat split; try easy; intros ->; destruct C as [y E]; discriminate E.
  - exfalso. destruct B as [x ->]. destruct C as [y E']. discriminate E'.
Qed.
Lemma pi_not_fine p r t rest names names' : pi_ok p -> tag_at (pi_text p ++ r) t rest -> ~ tag_fine names t names'.
Proof.
  intros O T F.
  assert (begins (lit "<?") t) as [x ->].
  { destruct (pi_tag _ _ _ _ O T) as [[_ ->]|(c & d & _ & _ & ->)]; now eexists. }
  destruct (fine_start _ _ _ F) as (n & [Fo R] & _); [intros [y E]; discriminate E..|].
  exact (pi_not_read _ _ _ _ _ _ O T Fo R).
Qed.
Lemma pi_tag_some p r : pi_ok p -> forall names txt, no_tag txt -> final (Inside names, txt ++ pi_text p ++ r) -> False.
Proof.
  intros O names txt N (tail & Nt & S).
  assert (K : forall c, steps (Inside names, txt ++ pi_text p ++ r) c -> c <> (Inside names, txt ++ pi_text p ++ r) -> False).
  { intros c Sc D. inversion Sc as [|c1 c2 H1 H2]; subst; [easy|]. inversion H1 as [| | |? ? txt' t' r' rest' names' (E & Hn & Ht) Hx Hf]; subst.
    destruct (split_lt txt (pi_text p ++ r) txt' r') as [-> E']; [easy|easy|now eexists|now apply tag_at_lt in Ht|easy|].
    rewrite <- E' in Ht. exact (pi_not_fine _ _ _ _ _ _ O Ht Hf). }
  destruct S as [S|S]; apply K in S; try easy. intro E. injection E as _ ->. apply Nt. apply in_or_app. right. now left.
Qed.
Lemma comment_final c r names txt : comment_ok c -> no_tag txt -> final (Inside names, txt ++ comment_text c ++ r) ->
  ~ begins (lit ">") c /\ ~ begins (lit "->") c /\ names <> [] /\ final (Inside names, r).
Proof.
  intros O N F.
  assert (K : forall t rest, tag_at (comment_text c ++ r) t rest -> t <> lit "<!-->" /\ t <> lit "<!--->").
  { intros t rest T. destruct (final_tag _ _ _ _ _ F N T) as (names' & _ & H & _).
    apply fine_bang in H; [tauto|]. apply comment_bang. assert (shortest comment_like (comment_text c ++ r) t rest) as (E & (a & ->) & _).
    { destruct T as [H1 H2|H1 H2|H1 H2|H1 N1 N2 H2|H1 N1 N2 H2]; [easy|now destruct H1|now destruct H1|exfalso; apply N1; now eexists|exfalso; apply N2; now eexists]. }
    unfold comment_text in E. rewrite <- !app_assoc in E.
    destruct a as [|a0 [|a1 [|a2 [|a3 a]]]]; cbn in E; try discriminate E.
    - injection E as <- <- E. now eexists.
    - injection E as <- <- <- E. now eexists.
    - injection E as <- <- <- <- E. now eexists. }
  assert (B : ~ begins (lit ">") c /\ ~ begins (lit "->") c).
  { assert (T : begins (lit ">") c \/ begins (lit "->") c -> exists t rest, tag_at (comment_text c ++ r) t rest).
    { intros _. destruct F as (tail & Nt & S).
      assert (Q : forall c', steps (Inside names, txt ++ comment_text c ++ r) c' -> c' <> (Inside names, txt ++ comment_text c ++ r) ->
        exists t rest, tag_at (comment_text c ++ r) t rest).
      { intros c' Sc D. inversion Sc as [|c1 c2 H1 H2]; subst; [easy|]. inversion H1 as [| | |? ? txt' t' r' rest' names' (E & Hn & Ht) Hx Hf]; subst.
        destruct (split_lt txt (comment_text c ++ r) txt' r') as [-> E']; [easy|easy|now eexists|now apply tag_at_lt in Ht|easy|].
        rewrite <- E' in Ht. now exists t', rest'. }
      destruct S as [S|S]; apply Q in S; try easy. intro E. injection E as _ ->. apply Nt. apply in_or_app. right. now left. }
    split; intro B; (destruct T as (t & rest & T); [tauto|]); pose proof (K _ _ T) as [K1 K2]; apply short_comment in T; tauto. }
  destruct (final_tag _ _ _ _ _ F N (comment_wf_at c r O (proj1 B) (proj2 B))) as (names' & _ & H & G).
  apply fine_bang in H; [|now eexists]. destruct H as (-> & D & _). tauto.
Qed.
Lemma read_inside :
  (forall m sc names txt r, markup_ok sc m -> no_tag txt -> final (Inside names, txt ++ markup_text m ++ r) -> names <> [] ->
     was_read m /\ final (Inside names, r)) /\
  (forall b sc names r, content_ok sc b -> names <> [] -> final (Inside names, content_text b ++ r) ->
     was_read_in b /\ final (Inside names, ctail b ++ r)).
Proof.
  apply markup_ind2.
  - intros nm attrs w sc names txt r O N F D. cbn [markup_ok] in O. apply tag_ok_parts in O. destruct O as (Hn & Ha & Hw).
    rewrite empty_text in F. destruct (final_tag _ _ _ _ _ F N (start_at nm attrs w _ r Hn Ha Hw (or_intror eq_refl))) as (names' & _ & H & G).
    destruct (start_not_special nm attrs w (lit "/>") Hn) as (B1 & B2 & _). destruct (fine_start _ _ _ H B1 B2) as (n & R & [[_ ->]|[C _]]); [|exfalso; apply C, start_self].
    split; [now exists n|easy].
  - intros nm attrs w b IH w' sc names txt r O N F D. cbn [markup_ok] in O. destruct O as (O & Ob & Hw'). apply tag_ok_parts in O. destruct O as (Hn & Ha & Hw).
    rewrite elem_text in F. destruct (final_tag _ _ _ _ _ F N (start_at nm attrs w _ _ Hn Ha Hw (or_introl eq_refl))) as (names' & _ & H & G).
    destruct (start_not_special nm attrs w (lit ">") Hn) as (B1 & B2 & _).
    destruct (fine_start _ _ _ H B1 B2) as (n & R & [[C _]|[_ ->]]); [exfalso; revert C; now apply start_open|].
    destruct (IH _ (n :: names) _ Ob ltac:(discriminate) G) as [Rb Gb].
    assert (Nb : no_tag (ctail b)).
    { clear - Ob. revert Ob. generalize (declare attrs sc). intros sc0. induction b as [t|t m b IH]; intro Ob; cbn [content_ok ctail] in *; [now apply chardata_no_tag|]. apply IH. tauto. }
    destruct (final_tag _ _ _ _ _ Gb Nb (end_at nm w' r Hn Hw')) as (names'' & _ & H2 & G2).
    destruct (fine_end _ _ _ H2 (end_begins _ _)) as (n' & E & C). injection E as <- <-. split; [|easy]. split; [now exists n|easy].
  - intros c sc names txt r O N F D. destruct (comment_final _ _ _ _ O N F) as (B1 & B2 & _ & G). now split.
  - intros c sc names txt r O N F D. destruct (final_tag _ _ _ _ _ F N (cdata_wf_at c r O)) as (names' & _ & H & G).
    apply fine_bang in H; [|now eexists]. destruct H as (-> & _). now split.
  - intros p sc names txt r O N F D. exfalso. exact (pi_tag_some p r O names txt N F).
  - intros t sc names r O D F. now split.
  - intros t m IHm b IHb sc names r O D F. cbn [content_ok content_text ctail was_read_in] in *. destruct O as (Ot & Om & Ob).
    rewrite <- !app_assoc in F. destruct (IHm _ _ _ _ Om (chardata_no_tag _ Ot) F D) as [Rm G].
    destruct (IHb _ _ _ Ob D G) as [Rb Gb]. tauto.
Qed.

(** ** The tags *)

Lemma read_lexed :
  (forall m sc txt r, markup_ok sc m -> was_read m -> no_tag txt -> lexed (txt ++ markup_text m ++ r) (mtoks txt m) r) /\
  (forall b sc r, content_ok sc b -> was_read_in b -> lexed (content_text b ++ r) (ctoks b) (ctail b ++ r)).
Proof.
  apply markup_ind2.
  - intros nm attrs w sc txt r O R N. apply tag_ok_parts in O. destruct O as (Hn & Ha & Hw).
    rewrite empty_text. apply lexed_one; [easy|]. apply start_at; tauto.
  - intros nm attrs w b IH w' sc txt r O R N. cbn [markup_ok] in O. destruct O as (O & Ob & Hw'). apply tag_ok_parts in O. destruct O as (Hn & Ha & Hw).
    cbn [was_read] in R. destruct R as [_ R]. rewrite elem_text. cbn [mtoks]. eapply lx_tag; [easy|apply start_at; tauto|].
    apply lexed_app with (ctail b ++ end_text nm w' ++ r); [now apply IH with (declare attrs sc)|].
    apply lexed_one; [|now apply end_at].
    clear - Ob. revert Ob. generalize (declare attrs sc). intros sc0. induction b as [t|t m b IH]; intro Ob; cbn [content_ok ctail] in *; [now apply chardata_no_tag|]. apply IH. tauto.
  - intros c sc txt r O R N. apply lexed_one; [easy|]. apply comment_wf_at; [easy|apply R..].
  - intros c sc txt r O R N. apply lexed_one; [easy|]. now apply cdata_wf_at.
  - intros p sc txt r O R N. destruct R.
  - intros t sc r O R. constructor.
  - intros t m IHm b IHb sc r O R. cbn [content_ok content_text ctail ctoks was_read_in] in *. destruct O as (Ot & Om & Ob).
    rewrite <- !app_assoc. apply lexed_app with (content_text b ++ r); [|now apply IHb with sc].
    apply IHm with sc; [easy|easy|now apply chardata_no_tag].
Qed.
Lemma read_tags :
  (forall m sc txt, markup_ok sc m -> was_read m ->
     SpecXml.is_element m /\ element_tags (map snd (mtoks txt m)) \/ exists t, map snd (mtoks txt m) = [t] /\ begins (lit "<!") t) /\
  (forall b sc, content_ok sc b -> was_read_in b -> content_tags (map snd (ctoks b))).
Proof.
  apply markup_ind2.
  - intros nm attrs w sc txt O [n [_ R]]. left. split; [easy|]. apply tag_ok_parts in O. destruct O as (Hn & Ha & Hw).
    destruct (start_not_special nm attrs w (lit "/>") Hn) as (B1 & B2 & _). cbn [mtoks map snd].
    apply et_single with n; [now apply element_reads_opening in R|apply start_self].
  - intros nm attrs w b IH w' sc txt O [(n & [_ R] & C) Rb]. left. split; [easy|]. cbn [markup_ok] in O. destruct O as (O & Ob & Hw'). apply tag_ok_parts in O. destruct O as (Hn & Ha & Hw).
    destruct (start_not_special nm attrs w (lit ">") Hn) as (B1 & B2 & _). cbn [mtoks map snd]. rewrite map_app. cbn [map snd].
    apply et_pair with n; [now apply element_reads_opening in R|now apply start_open|now apply IH with (declare attrs sc)|now apply closes_closing].
  - intros c sc txt O R. right. eexists. split; [reflexivity|now eexists].
  - intros c sc txt O R. right. eexists. split; [reflexivity|now eexists].
  - intros p sc txt O R. destruct R.
  - intros t sc O R. constructor.
  - intros t m IHm b IHb sc O R. cbn [content_ok ctoks was_read_in] in *. destruct O as (Ot & Om & Ob). destruct R as [Rm Rb]. rewrite map_app.
    destruct (IHm sc (pieces_text t) Om Rm) as [[_ E]|(t' & -> & B)].
    + apply ct_elem; [easy|now apply IHb with sc].
    + cbn [app]. apply ct_markup; [easy|now apply IHb with sc].
Qed.

(** Reading does not depend on what follows the place where it stops. *)
From Coq Require Import List NArith Arith Bool Ascii String Lia.
From Verif Require Import Base BaseFacts Escape Dom Spec SpecDom Parse SpecLex SpecParse SpecEsc LexFacts ParseFacts DocFacts PosFacts
  SpecDoc SpecErr ReadFacts ErrFacts LoopFacts.
Import ListNotations.

Lemma begins_more p s u : begins p s -> begins p (s ++ u).
Proof. intros [z ->]. exists (z ++ u). now rewrite app_assoc. Qed.
(** A beginning without '>' of a text is decided before its first '>'. *)
Lemma begins_less p s u : ~ In gt_ p -> In gt_ s -> begins p (s ++ u) -> begins p s.
Proof.
  intros Np Hs [z E]. apply prefix_cases in E. destruct E as [[y ->]|H]; [|easy].
  exfalso. apply Np. apply in_or_app. now left.
Qed.
Lemma shortest_more P s t rest u : shortest P s t rest -> shortest P (s ++ u) t (rest ++ u).
Proof.
  intros (E & H & M). split; [now rewrite E, app_assoc|]. split; [easy|]. intros t' r' E' H'.
  pose proof E' as E2. apply prefix_cases in E2. destruct E2 as [[y ->]|[y ->]].
  - rewrite E, <- app_assoc. apply begins_app.
  - now apply (M t' y).
Qed.
Lemma tag_at_more s t rest u : tag_at s t rest -> tag_at (s ++ u) t (rest ++ u).
Proof.
  intro T. pose proof (tag_at_nonempty _ _ _ T) as [E _].
  destruct T as [B H|B H|B H|B N1 N2 H|B N1 N2 H].
  - apply ta_comment; [now apply begins_more|now apply shortest_more].
  - apply ta_pi; [now apply begins_more|now apply shortest_more].
  - apply ta_cdata; [now apply begins_more|now apply shortest_more].
  - assert (G : In gt_ s).
    { destruct H as (_ & (b & -> & _) & _). rewrite E. apply in_or_app. left. apply in_or_app. right. apply in_or_app. right. now left. }
    apply ta_decl; [now apply begins_more| | |now apply shortest_more];
      intro X; apply begins_less in X; try easy; cbv; intuition discriminate.
  - assert (G : In gt_ s).
    { destruct H as (_ & (b & -> & _) & _). rewrite E. apply in_or_app. left. apply in_or_app. right. apply in_or_app. right. now left. }
    apply ta_elem; [now apply begins_more| | |now apply shortest_more];
      intro X; apply begins_less in X; try easy; cbv; intuition discriminate.
Qed.
Lemma lexed_tail_more s toks tail u : lexed s toks tail -> lexed (s ++ u) toks (tail ++ u).
Proof.
  induction 1 as [s|txt s t rest toks tail Hn T L IH]; [constructor|].
  rewrite <- app_assoc. apply lx_tag with (rest ++ u); [easy|now apply tag_at_more|easy].
Qed.
Lemma next_tag_more rest txt t r rest' u : next_tag_is rest txt t r rest' -> next_tag_is (rest ++ u) txt t (r ++ u) (rest' ++ u).
Proof. intros (-> & N & T). split; [now rewrite app_assoc|]. split; [easy|]. now apply tag_at_more. Qed.
Lemma place_more s r loc u : place s r loc -> place (s ++ u) (r ++ u) loc.
Proof.
  intros (pos & E & (a & c & b & l & -> & -> & H)). exists (blen a). split; [rewrite !blen_app in *; lia|].
  exists a, c, (b ++ u), l. split; [now rewrite <- !app_assoc|easy].
Qed.
Lemma reads_more s st rest u : reads s st rest -> reads (s ++ u) st (rest ++ u).
Proof.
  induction 1 as [|toks rest txt t r rest' R IH T W F|toks rest txt t r rest' n R IH T W N1 N2 F E Z|toks rest txt t r rest' n R IH T W N1 N2 F E Z|names rest txt t r rest' names' R IH T X G].
  - constructor.
  - apply rd_prolog with (rest ++ u) (r ++ u); [easy|now apply next_tag_more|easy..].
  - apply rd_single with toks (rest ++ u) txt t (r ++ u) n; [easy|now apply next_tag_more|easy..].
  - apply rd_root with toks (rest ++ u) txt t (r ++ u); [easy|now apply next_tag_more|easy..].
  - apply rd_tag with names (rest ++ u) txt t (r ++ u); [easy|now apply next_tag_more|easy..].
Qed.

Lemma crashes_more s u : crashes s -> crashes (s ++ u).
Proof.
  intro C. destruct C as [toks rest txt t r rest' R T|toks rest txt t r rest' R T|toks rest txt t r rest' R T|names rest txt t r rest' R T];
    apply (reads_more _ _ _ u) in R; apply (next_tag_more _ _ _ _ _ u) in T.
  - eapply cr_text; eassumption.
  - eapply cr_comment; eassumption.
  - eapply cr_root; eassumption.
  - eapply cr_content; eassumption.
Qed.
Lemma rejected_more s x u : rejected s x -> incomplete s \/ rejected (s ++ u) x.
Proof.
  intro J.
  destruct J as [toks tail R N|toks rest r loc R U P|toks rest txt t r rest' v loc R T W E P|toks rest txt t r rest' loc R T W B D P
    |toks rest txt t r rest' loc R T W B P|toks rest txt t r rest' loc R T W N1 N2 F P|toks rest txt t r rest' loc x R T W N1 N2 F P X
    |rest txt t r rest' loc R T P|st rest r loc R Hs U P|names rest txt t r rest' loc x R T P X|n names tail R N];
    try (left; eexists; eexists; split; [exact R|left; exists r; exact U]);
    try (left; eexists; eexists; split; [exact R|right; split; [exact N|split; discriminate]]); right;
    apply (reads_more _ _ _ u) in R; apply (next_tag_more _ _ _ _ _ u) in T; apply (place_more _ _ _ u) in P.
  - eapply rj_text; eassumption.
  - eapply rj_declaration; eassumption.
  - eapply rj_closing; eassumption.
  - eapply rj_root_form; eassumption.
  - eapply rj_root; eassumption.
  - eapply rj_second; eassumption.
  - eapply rj_content; eassumption.
Qed.

(** * Tags can be finished *)

Lemma shortest_exists (P : str -> Prop) : (forall t, P t \/ ~ P t) -> forall r t, P t -> exists t' r', shortest P (t ++ r) t' r'.
Proof.
  intro D. assert (H : forall n t r, List.length t < n -> P t -> exists t' r', shortest P (t ++ r) t' r').
  { induction n as [|n IH]; [lia|]. intros t r L Pt.
    assert (X : (exists a b, t = a ++ b /\ b <> [] /\ P a) \/ forall a b, t = a ++ b -> b <> [] -> ~ P a).
    { clear - D. induction t as [|x t IH] using rev_ind.
      - right. intros a b E Nb. apply eq_sym, app_eq_nil in E. now destruct E.
      - destruct (D t) as [H|H]; [left; now exists t, [x]|].
        destruct IH as [(a & b & -> & Nb & Pa)|N].
        + left. exists a, (b ++ [x]). split; [now rewrite app_assoc|]. split; [|easy]. now destruct b.
        + right. intros a b E Nb. destruct b as [|y b _] using rev_ind; [easy|].
          rewrite app_assoc in E. apply app_inj_tail in E. destruct E as [-> _].
          destruct b as [|z b]; [now rewrite app_nil_r in H|]. now apply (N a (z :: b)). }
    destruct X as [(a & b & -> & Nb & Pa)|N].
    - rewrite <- app_assoc. apply IH; [|easy]. rewrite app_length in L. destruct b; [easy|]. cbn in L. lia.
    - exists t, r. split; [easy|]. split; [easy|]. intros t' r' E P'. apply prefix_cases in E. destruct E as [E|[y ->]]; [easy|].
      destruct y as [|c y]; [rewrite app_nil_r; exists []; now rewrite app_nil_r|]. exfalso. now apply (N t' (c :: y)). }
  intros r t. apply (H (S (List.length t))). lia.
Qed.
Lemma body_dec (p e : str) (Q : str -> Prop) : (forall b, Q b \/ ~ Q b) ->
  forall t, (exists b, t = p ++ b ++ e /\ Q b) \/ ~ exists b, t = p ++ b ++ e /\ Q b.
Proof.
  intros D t. set (b := firstn (List.length t - List.length p - List.length e) (skipn (List.length p) t)).
  assert (U : forall b', t = p ++ b' ++ e -> b' = b).
  { intros b' E. unfold b. rewrite E at 2. rewrite skipn_app, skipn_all, Nat.sub_diag. cbn [app skipn].
    replace (List.length t - List.length p - List.length e) with (List.length b') by (rewrite E, !app_length; lia).
    rewrite firstn_app, firstn_all, Nat.sub_diag. cbn. now rewrite app_nil_r. }
  destruct (list_eq_dec N.eq_dec t (p ++ b ++ e)) as [E|E].
  - destruct (D b) as [H|H]; [left; now exists b|]. right. intros (b' & E' & H'). apply U in E'. now subst b'.
  - right. intros (b' & E' & _). pose proof (U _ E') as Eb. rewrite Eb in E'. contradiction.
Qed.
Lemma closed_dec b : quotes_closed b \/ ~ quotes_closed b.
Proof. unfold quotes_closed. destruct (open_quote None b); [now right|now left]. Qed.
Lemma comment_dec t : comment_like t \/ ~ comment_like t.
Proof. unfold comment_like. destruct (ends_with (lit "-->") t) eqn:E; [left; now apply ends_spec|right; intro H; apply ends_spec in H; congruence]. Qed.
Lemma cdata_dec t : cdata_like t \/ ~ cdata_like t.
Proof. unfold cdata_like. destruct (ends_with (lit "]]>") t) eqn:E; [left; now apply ends_spec|right; intro H; apply ends_spec in H; congruence]. Qed.
Lemma pi_dec t : pi_like t \/ ~ pi_like t.
Proof. apply body_dec, closed_dec. Qed.
Lemma elem_dec t : elem_like t \/ ~ elem_like t.
Proof. apply body_dec, closed_dec. Qed.
Lemma decl_dec t : decl_like t \/ ~ decl_like t.
Proof.
  apply body_dec with (Q := fun b => quotes_closed b /\ angles_balanced b). intro b. destruct (closed_dec b) as [H|H]; [|now right].
  unfold angles_balanced. destruct (Nat.eq_dec (count_occ N.eq_dec (unquoted None b) lt_) (count_occ N.eq_dec (unquoted None b) gt_)); [left|right]; easy.
Qed.

Definition end_quote (b : str) : str := match open_quote None b with Some q => [q] | None => [] end.
Lemma end_quote_closed b : quotes_closed (b ++ end_quote b).
Proof.
  unfold quotes_closed, end_quote. rewrite open_quote_app. destruct (open_quote None b) as [q|] eqn:E; [|easy].
  cbn. now rewrite N.eqb_refl.
Qed.
Lemma end_quote_chars b c : In c (end_quote b) -> is_quote c = true.
Proof.
  unfold end_quote. destruct (open_quote None b) as [q|] eqn:E; [|easy]. intros [<-|[]].
  now apply open_is_quote in E.
Qed.
Definition angles (b : str) : str :=
  repeat lt_ (count_occ N.eq_dec (unquoted None b) gt_) ++ repeat gt_ (count_occ N.eq_dec (unquoted None b) lt_).
Lemma plain_quotes s : (forall c, In c s -> is_quote c = false) -> open_quote None s = None /\ unquoted None s = s.
Proof.
  induction s as [|c s IH]; intro H; [easy|]. cbn. rewrite (H c) by now left.
  destruct IH as [-> ->]; [|easy]. intros x Hx. apply H. now right.
Qed.
Lemma angles_chars b c : In c (angles b) -> c = lt_ \/ c = gt_.
Proof. unfold angles. intro H. apply in_app_or in H. destruct H as [H|H]; apply repeat_spec in H; auto. Qed.
Lemma count_repeat (x y : char) n : count_occ N.eq_dec (repeat x n) y = if N.eq_dec x y then n else 0.
Proof. induction n as [|n IH]; cbn; destruct (N.eq_dec x y); congruence. Qed.
Lemma angles_closed b : quotes_closed b -> quotes_closed (b ++ angles b) /\ angles_balanced (b ++ angles b).
Proof.
  intro H. assert (Q : forall c, In c (angles b) -> is_quote c = false) by (intros c Hc; apply angles_chars in Hc; now destruct Hc as [->| ->]).
  apply plain_quotes in Q. destruct Q as [Q1 Q2]. unfold quotes_closed, angles_balanced in *. rewrite open_quote_app, unquoted_app, H, Q1, Q2.
  split; [easy|]. rewrite !count_occ_app. unfold angles. rewrite !count_occ_app, !count_repeat. destruct (N.eq_dec lt_ lt_) as [_|X]; [|now destruct X]. destruct (N.eq_dec gt_ gt_) as [_|X]; [|now destruct X].
  destruct (N.eq_dec lt_ gt_) as [X|_]; [now vm_compute in X|]. destruct (N.eq_dec gt_ lt_) as [X|_]; [now vm_compute in X|]. rewrite Nat.add_0_r. apply Nat.add_comm.
Qed.

(** The first character of the rest of a prefix. *)
Lemma begins_grow p r u : r <> [] -> begins p (r ++ u) -> ~ begins p r -> exists c u', u = c :: u' /\ In c (tl p).
Proof.
  intros Nr [z E] N. pose proof E as E'. apply prefix_cases in E'. destruct E' as [[y ->]|H]; [|contradiction].
  rewrite <- app_assoc in E. apply app_inv_head in E. destruct y as [|c y]; [exfalso; apply N; rewrite app_nil_r; exists []; now rewrite app_nil_r|].
  exists c, (y ++ z). split; [now rewrite E|]. destruct r; [easy|]. cbn. apply in_or_app. right. now left.
Qed.
Definition finishing (c : char) : Prop := is_quote c = true \/ c = lt_ \/ c = gt_.
Lemma not_begins_grow p r u : r <> [] -> Forall finishing u -> Forall (fun c => ~ finishing c) (tl p) -> ~ begins p r -> ~ begins p (r ++ u).
Proof.
  intros Nr F T N B. destruct (begins_grow _ _ _ Nr B N) as (c & u' & -> & H).
  rewrite Forall_forall in T. apply (T c H). now inversion F.
Qed.
(** A prefix of a text in [P] that has no prefix in [P] is continued to a tag. *)
Lemma finish_shortest P r u : (forall t, P t \/ ~ P t) -> P (r ++ u) ->
  (exists t rest, shortest P r t rest) \/ exists u' v, u = u' ++ v /\ shortest P (r ++ u') (r ++ u') [].
Proof.
  intros D H. destruct (shortest_exists P D [] (r ++ u) H) as (t & rest & E & Pt & M). rewrite app_nil_r in E, M.
  pose proof E as E'. apply prefix_cases in E'. destruct E' as [[y ->]|[y ->]].
  - right. rewrite <- app_assoc in E. apply app_inv_head in E. exists y, rest. split; [easy|].
    split; [now rewrite app_nil_r|]. split; [easy|]. intros t' r' E2 P2. apply (M t' (r' ++ rest)); [|easy].
    rewrite app_assoc, <- E2, E. now rewrite app_assoc.
  - left. exists t, y. split; [easy|]. split; [easy|]. intros t' r' E2 P2. apply (M t' (r' ++ u)); [|easy]. now rewrite E2, <- app_assoc.
Qed.
Lemma Forall_app_l {A} (P : A -> Prop) a b : Forall P (a ++ b) -> Forall P a.
Proof. intro H. now apply Forall_app in H. Qed.
Lemma unfinished_finish rest r : unfinished rest r -> exists u, tag_at (r ++ u) (r ++ u) [].
Proof.
  intros (txt & _ & _ & B & N).
  assert (Nr : r <> []) by (destruct B as [z ->]; easy).
  assert (F : forall p, ~ begins p r -> forallb (fun c => negb (is_quote c || (c =? lt_)%N || (c =? gt_)%N)) (tl p) = true ->
    forall u, Forall finishing u -> ~ begins p (r ++ u)).
  { intros p H T u Hu. apply not_begins_grow; [easy..| |easy]. apply Forall_forall. intros c Hc [X|[X|X]].
    all: rewrite forallb_forall in T; specialize (T c Hc); rewrite ?X in T; try discriminate T; now rewrite ?Bool.orb_true_r in T. }
  destruct (starts_with (lit "<!--") r) eqn:E1; [apply begins_spec in E1|apply begins_false in E1].
  { destruct (finish_shortest comment_like r (lit "-->") comment_dec) as [(t & rs & S)|(u & v & _ & S)]; [now exists r| |].
    - exfalso. apply (N t rs). now apply ta_comment.
    - exists u. apply ta_comment; [now apply begins_more|easy]. }
  destruct (starts_with (lit "<?") r) eqn:E2; [apply begins_spec in E2|apply begins_false in E2].
  { destruct E2 as [b Eb].
    destruct (finish_shortest pi_like r (end_quote b ++ lit "?>") pi_dec) as [(t & rs & S)|(u & v & _ & S)].
    - exists (b ++ end_quote b). split; [rewrite Eb; now rewrite <- !app_assoc|apply end_quote_closed].
    - exfalso. apply (N t rs). apply ta_pi; [now exists b|easy].
    - exists u. apply ta_pi; [apply begins_more; now exists b|easy]. }
  destruct (starts_with (lit "<![CDATA[") r) eqn:E3; [apply begins_spec in E3|apply begins_false in E3].
  { destruct (finish_shortest cdata_like r (lit "]]>") cdata_dec) as [(t & rs & S)|(u & v & _ & S)]; [now exists r| |].
    - exfalso. apply (N t rs). now apply ta_cdata.
    - exists u. apply ta_cdata; [now apply begins_more|easy]. }
  destruct (starts_with (lit "<!") r) eqn:E4; [apply begins_spec in E4|apply begins_false in E4].
  { destruct E4 as [b Eb]. pose proof (end_quote_closed b) as Q. set (b1 := b ++ end_quote b) in *.
    destruct (angles_closed _ Q) as [Q1 Q2].
    destruct (finish_shortest decl_like r (end_quote b ++ angles b1 ++ lit ">") decl_dec) as [(t & rs & S)|(u & v & Eu & S)].
    - exists (b1 ++ angles b1). split; [|easy]. rewrite Eb. change (b1 ++ angles b1) with ((b ++ end_quote b) ++ angles b1). now rewrite <- !app_assoc.
    - exfalso. apply (N t rs). apply ta_decl; [now exists b|easy..].
    - assert (Hu : Forall finishing u).
      { apply Forall_app_l with v. rewrite <- Eu. apply Forall_forall. intros c Hc. apply in_app_or in Hc. destruct Hc as [Hc|Hc].
        - left. now apply end_quote_chars in Hc.
        - right. apply in_app_or in Hc. destruct Hc as [Hc|[<-|[]]]; [now apply angles_chars in Hc|now right]. }
      exists u. apply ta_decl; [apply begins_more; now exists b|now apply F..|easy]. }
  destruct B as [b Eb].
  destruct (finish_shortest elem_like r (end_quote b ++ lit ">") elem_dec) as [(t & rs & S)|(u & v & Eu & S)].
  - exists (b ++ end_quote b). split; [rewrite Eb; now rewrite <- !app_assoc|apply end_quote_closed].
  - exfalso. apply (N t rs). apply ta_elem; [now exists b|easy..].
  - assert (Hu : Forall finishing u).
    { apply Forall_app_l with v. rewrite <- Eu. apply Forall_forall. intros c Hc. apply in_app_or in Hc. destruct Hc as [Hc|[<-|[]]].
      - left. now apply end_quote_chars in Hc.
      - right. now right. }
    exists u. apply ta_elem; [apply begins_more; now exists b|now apply F..|easy].
Qed.

(** * Which errors can change *)

Lemma place_exists a r : r <> [] -> exists loc, place (a ++ r) r loc.
Proof.
  intro H. exists (line_and_column (a ++ r) (blen a)). exists (blen a). split; [apply blen_app|]. now apply (located_lc _ _ a r).
Qed.
Lemma rejected_fun s x y : rejected s x -> rejected s y -> same_report x y.
Proof. intros H H'. apply ending_reject in H, H'. exact (ending_fun _ _ _ H H'). Qed.
Lemma steps_stuck c a b : steps c a -> steps c b -> stuck b -> steps a b.
Proof.
  induction 1 as [c|c d a H1 H2 IH]; intros Hb Sb; [easy|].
  destruct Hb as [|d' b H1' Hb]; [now apply Sb in H1|]. rewrite (step_fun _ _ _ H1' H1) in Hb. now apply IH.
Qed.
Lemma reads_suffix s st rest : reads s st rest -> exists a, s = a ++ rest.
Proof.
  induction 1 as [|toks rest txt t r rest' R [a Ea] (E & _ & T)|toks rest txt t r rest' n R [a Ea] (E & _ & T)|toks rest txt t r rest' n R [a Ea] (E & _ & T)|names rest txt t r rest' names' R [a Ea] (E & _ & T)];
    [now exists []|..]; pose proof (tag_at_nonempty _ _ _ T) as [E2 _]; exists (a ++ txt ++ t); rewrite Ea, E, E2, <- !app_assoc; reflexivity.
Qed.
Lemma next_tag_step st rest txt t r st' rest' rest2 : next_tag_is rest txt t r rest' -> step (st, rest) (st', rest2) -> rest2 = rest'.
Proof. intros N S. inversion S; subst; same_next; easy. Qed.

Definition of_end (x : error) : Prop :=
  match x with ParsingError PNoContent None | ParsingError PRootNotClosed None => True | _ => False end.
(** The error of a text that ends too early. *)
Lemma incomplete_error s st rest : reads s st rest ->
  (no_tag rest -> st <> Single -> st <> Inside [] ->
    (exists toks, st = Before toks) /\ rejected s (ParsingError PNoContent None) \/
    (exists n names, st = Inside (n :: names)) /\ rejected s (ParsingError PRootNotClosed None)) /\
  (forall r, unfinished rest r -> exists loc,
    (exists toks, st = Before toks) /\ rejected s (ParsingError PNoClose (Some loc)) \/
    (st = Single \/ exists names, st = Inside names) /\ rejected s (ParsingError PInvalidSyntax (Some loc))).
Proof.
  intro R. split.
  - intros N N1 N2. destruct st as [toks| |[|n names]]; try easy; [left|right].
    + split; [now exists toks|]. now apply rj_no_content with toks rest.
    + split; [now exists n, names|]. now apply rj_not_closed with n names rest.
  - intros r U. assert (exists loc, place s r loc) as [loc P].
    { destruct (reads_suffix _ _ _ R) as [a ->]. destruct U as (txt & -> & _ & [z ->] & _). rewrite app_assoc. now apply place_exists. }
    exists loc. destruct st as [toks| |names]; [left|right|right].
    + split; [now exists toks|]. now apply rj_no_close with toks rest r.
    + split; [now left|]. apply rj_unfinished with Single rest r; auto.
    + split; [right; now exists names|]. apply rj_unfinished with (Inside names) rest r; eauto.
Qed.
Lemma incomplete_rejected s : incomplete s -> exists x, parse_str s = Err x.
Proof.
  intros (st & rest & R & H). apply incomplete_error in R. destruct R as [R1 R2].
  assert (exists x, rejected s x) as [x J].
  { destruct H as [[r U]|(N & N1 & N2)].
    - destruct (R2 r U) as [loc [[_ J]|[_ J]]]; now eexists; eauto.
    - destruct (R1 N N1 N2) as [[_ J]|[_ J]]; now eexists; eauto. }
  apply parse_rejected in J. destruct J as (y & J & _). now exists y.
Qed.
Lemma incomplete_reports s : incomplete s -> exists x, parse_str s = Err x /\
  (x = ParsingError PNoContent None \/ x = ParsingError PRootNotClosed None \/
   exists loc, x = ParsingError PNoClose (Some loc) \/ x = ParsingError PInvalidSyntax (Some loc)).
Proof.
  intro I. destruct (incomplete_rejected _ I) as [x E]. exists x. split; [easy|]. apply parse_rejects in E.
  assert (K : forall p loc, rejected s (ParsingError p loc) -> x = ParsingError p loc).
  { intros p loc J. destruct (rejected_fun _ _ _ J E) as [<-|(k & k' & C & _)]; [easy|discriminate]. }
  destruct I as (st & rest & R & H). apply incomplete_error in R. destruct R as [R1 R2].
  destruct H as [[r U]|(N & N1 & N2)].
  - destruct (R2 r U) as [loc [[_ J]|[_ J]]]; apply K in J; right; right; exists loc; auto.
  - destruct (R1 N N1 N2) as [[_ J]|[_ J]]; apply K in J; auto.
Qed.
Lemma lt_no_tag t rest : ~ tag_at [lt_] t rest.
Proof.
  intro T. pose proof (tag_at_nonempty _ _ _ T) as [E Nt]. destruct t as [|c t]; [easy|]. injection E as <- E.
  apply eq_sym, app_eq_nil in E. destruct E as [-> ->].
  destruct T as [[z B]|[z B]|[z B]|[z B]|_ _ _ (_ & (b & E & _) & _)]; try discriminate. destruct b as [|? [|? ?]]; discriminate.
Qed.
Lemma same_parsing p loc y : same_report (ParsingError p loc) y -> y = ParsingError p loc.
Proof. intros [<-|(k & k' & E & _)]; [easy|discriminate]. Qed.
Lemma incomplete_changes s x : incomplete s -> parse_str s = Err x ->
  exists u, forall y, parse_str (s ++ u) = Err y -> ~ same_report x y.
Proof.
  intros (st & rest & R & H) X. apply parse_rejects in X. pose proof (incomplete_error _ _ _ R) as [R1 R2].
  destruct H as [[r U]|(N & N1 & N2)].
  - (* an unfinished tag is finished *)
    destruct (unfinished_finish _ _ U) as [u T]. exists u. intros y Y S. apply parse_rejects in Y.
    assert (NT : exists txt, next_tag_is (rest ++ u) txt (r ++ u) (r ++ u) []).
    { destruct U as (txt & -> & Hn & _). exists txt. split; [now rewrite app_assoc|easy]. }
    destruct NT as [txt NT]. pose proof (reads_more _ _ _ u R) as R'. pose proof Y as Y'. apply ending_reject in Y'. destruct Y' as (st2 & rest2 & Q & HL).
    apply reads_steps in R', Q. pose proof (steps_stuck _ _ _ R' Q (halts_stuck _ _ _ _ HL)) as SS. clear R' Q.
    assert (K : (exists loc, x = ParsingError PNoClose (Some loc) /\ exists toks, st = Before toks) \/
                (exists loc, x = ParsingError PInvalidSyntax (Some loc) /\ forall toks, st <> Before toks)).
    { destruct (R2 r U) as [loc [[Hs J]|[Hs J]]]; pose proof (same_parsing _ _ _ (rejected_fun _ _ _ J X)) as ->; [left|right]; exists loc; (split; [easy|]); [easy|].
      intros toks ->. destruct Hs as [Hs|[? Hs]]; discriminate. }
    assert (L : forall loc, x = ParsingError PNoClose (Some loc) \/ x = ParsingError PInvalidSyntax (Some loc) -> y = x).
    { intros loc [-> | ->]; now apply same_parsing. }
    assert (y = x) as -> by (destruct K as [(loc & -> & _)|(loc & -> & _)]; eauto).
    inversion SS as [E|c1 c2 S1 S2]; subst.
    + inversion HL as [| |? ? ? ? ? ? v NT2 BE| | | | | | |? ? ? ? ? ? v NT2 BE]; subst; try no_next; try same_next.
      * destruct K as [(lc & -> & _)|(lc & _ & K)]; [|now apply (K toks)].
        inversion BE as [| | | |? ? _ _ _ _ _ EF| | |]; subst. inversion EF as [|? ? ? ? ? ? ? ? AB| | |]; subst. inversion AB.
      * destruct K as [(lc & E & _)|(lc & E & _)]; discriminate.
      * destruct K as [(lc & -> & toks & E)|(lc & -> & _)]; [discriminate|].
        inversion BE as [? ? _ CF|]; subst. inversion CF as [| | | | | | | | |? _ _ _ _ EF|]; subst. inversion EF as [|? ? ? ? ? ? ? ? AB| | |]; subst. inversion AB.
    + destruct c1 as [st1 rest1]. pose proof (next_tag_step _ _ _ _ _ _ _ _ NT S1) as ->.
      inversion S2 as [E|c1 c2 S3 S4]; subst.
      * inversion HL as [| |? ? ? ? ? ? v NT2 BE| | |? ? ? ? ? ? NT2| | | |? ? ? ? ? ? v NT2 BE]; subst;
          try (match goal with A : next_tag_is [] _ _ _ _ |- _ => apply next_tag_some in A; now destruct A end);
          try (match goal with A : unfinished [] _ |- _ => apply unfinished_some in A; now destruct A end);
          destruct K as [(lc & E & _)|(lc & E & _)]; discriminate.
      * inversion S3; subst; match goal with A : next_tag_is [] _ _ _ _ |- _ => apply next_tag_some in A; now destruct A end.
  - (* a '<' is added *)
    exists [lt_]. intros y Y S. apply parse_rejects in Y.
    assert (U : unfinished (rest ++ [lt_]) [lt_]).
    { exists rest. split; [easy|]. split; [easy|]. split; [now exists []|]. apply lt_no_tag. }
    destruct (incomplete_error _ _ _ (reads_more _ _ _ [lt_] R)) as [_ R3]. destruct (R3 _ U) as [loc [[_ J]|[_ J]]];
      pose proof (same_parsing _ _ _ (rejected_fun _ _ _ J Y)) as ->;
      (destruct (R1 N N1 N2) as [[_ J1]|[_ J1]]; pose proof (same_parsing _ _ _ (rejected_fun _ _ _ J1 X)) as ->;
       apply same_parsing in S; discriminate).
Qed.

(** * Whole texts *)

Lemma accepts_fun s d d' : accepts s d -> accepts s d' -> d = d'.
Proof.
  intros [toks txt root rest decl dtds b e body tail m r ks L P B T Eb Ee S X1 X2 Em]
    [toks' txt' root' rest' decl' dtds' b' e' body' tail' m' r' ks' L' P' B' T' Eb' Ee' S' X1' X2' Em'].
  destruct (root_unique _ _ _ _ _ _ _ _ _ _ _ _ _ L P T L' P' T') as (<- & <- & <- & <- & <- & <-).
  rewrite Eb in Eb'. injection Eb' as <-. rewrite Ee in Ee'. injection Ee' as <-.
  destruct (splits_fun _ _ _ _ _ S S') as [<- <-].
  assert (m = m') as <-.
  { destruct (ends_with (lit "/>") root) eqn:Z.
    - apply ends_spec in Z. destruct (X1 Z) as [_ ->], (X1' Z) as [_ ->]. easy.
    - assert (N : ~ ends (lit "/>") root) by (intro Q; apply ends_spec in Q; congruence). exact (feeds_fun _ _ _ _ (X2 N) (X2' N)). }
  rewrite Em in Em'. injection Em' as <- <-. easy.
Qed.

Theorem panic_more s u : parse_str s = Panic -> parse_str (s ++ u) = Panic.
Proof. intro H. apply parse_crashes. apply crashes_more. now apply parse_crashes. Qed.
Theorem error_more s x : parse_str s = Err x -> ~ incomplete s -> forall u, exists y, parse_str (s ++ u) = Err y /\ same_report x y.
Proof.
  intros H N u. apply parse_rejects in H. destruct (rejected_more _ _ u H) as [I|J]; [easy|]. now apply parse_rejected.
Qed.
Theorem prefix_outcome s u d : parse_str (s ++ u) = Ok d -> (exists d', parse_str s = Ok d') \/ incomplete s.
Proof.
  intro H. destruct (parse_str s) as [d'|x| |] eqn:E; [left; now exists d'|right| |].
  - pose proof E as E'. apply parse_rejects in E'. destruct (rejected_more _ _ u E') as [I|J]; [easy|].
    exfalso. apply parse_rejected in J. destruct J as (y & J & _). congruence.
  - pose proof (panic_more _ u E). congruence.
  - exfalso. pose proof (parse_reads s) as P. now rewrite E in P.
Qed.
Theorem trailing_text s u d : parse_str s = Ok d -> no_tag u -> parse_str (s ++ u) = Ok d.
Proof.
  intros H N. pose proof (parse_str_result s) as R. rewrite H in R. inversion R as [? A| |]; subst.
  assert (A' : accepts (s ++ u) d).
  { destruct A as [toks txt root rest decl dtds b e body tail m r ks L P B T Eb Ee [S1 S2] X1 X2 Em].
    apply ac with toks txt root (rest ++ u) b e body (tail ++ u) m; try assumption; [now apply lexed_tail_more|].
    split; [now apply lexed_tail_more|]. intro C. apply in_app_or in C. now destruct C. }
  pose proof (parse_str_result (s ++ u)) as R'. destruct (parse_str (s ++ u)) as [d'|x| |]; inversion R' as [? A2|? F|F1 F2]; subst.
  - f_equal. now apply (accepts_fun (s ++ u)).
  - now apply F in A'.
  - now apply F2 in A'.
Qed.
Theorem final_error s x : parse_str s = Err x ->
  (~ incomplete s <-> forall u, exists y, parse_str (s ++ u) = Err y /\ same_report x y).
Proof.
  intro E. split; [now apply error_more|]. intros H I. destruct (incomplete_changes _ _ I E) as [u Hu].
  destruct (H u) as (y & Y & S). now apply (Hu y).
Qed.

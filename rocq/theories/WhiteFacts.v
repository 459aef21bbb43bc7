(** Proofs for SpecWhite.v. *)
From Coq Require Import List NArith Arith Bool Ascii String Lia.
From Verif Require Import ConfLex ConfFacts.
From Verif Require Import Base BaseFacts Escape Dom Parse Spec EscapeFacts SpecDom DomFacts SpecLex SpecParse LexFacts ParseFacts DocFacts SerFacts
  SpecEsc UnescFacts SpecDoc SpecErr ReadFacts LoopFacts AppendFacts SpecMean MeanFacts P_Parse P_Mean SpecWhite.
Import ListNotations.

(** * The text *)

Definition item_text (i : item) : str := match i with ILeaf (NText v) => v | _ => [] end.
Definition said (n : node) : str := match n with NText s => s | NElem c => elem_text c | _ => [] end.
Lemma text_said e : elem_text e = flat_map said (e_children e).
Proof. destruct e as [nm ch at_ ns p ctx]. cbn [elem_text e_children]. induction ch as [|[c|s|s|s] ch IH]; cbn [flat_map said]; rewrite ?IH; reflexivity. Qed.
Lemma items_text : (forall anc e is, element_of_items anc e is -> elem_text e = flat_map item_text is) /\
  (forall anc ns is, nodes_of_items anc ns is -> flat_map said ns = flat_map item_text is).
Proof.
  apply items_ind2.
  - intros anc e n l is _ _ _ _ IH. rewrite text_said. cbn [flat_map item_text app]. rewrite flat_map_app, IH. cbn [flat_map item_text app]. now rewrite app_nil_r.
  - reflexivity.
  - intros anc n ns is H _ IH. cbn [flat_map]. rewrite IH. f_equal. destruct n as [e|s|s|s]; try reflexivity. now destruct (H e).
  - intros anc e ns is is' _ IH1 _ IH2. cbn [flat_map said]. now rewrite flat_map_app, IH1, IH2.
Qed.
Definition shown (v : str) : str := if white v then [] else v.
Lemma white_ws v : white v = true <-> ws v.
Proof. unfold white, ws. now rewrite forallb_forall, Forall_forall. Qed.
Lemma unescape_ws g : ws g -> unescape g = Ok g.
Proof.
  intro W. apply unescape_no_amp. intro I. unfold ws in W. rewrite Forall_forall in W. apply W in I. vm_compute in I. discriminate.
Qed.
Lemma text_item_shown g a : text_item g a -> exists v, unescape g = Ok v /\ flat_map item_text a = shown v.
Proof.
  intros [txt W|txt v N U [_ B]|txt v N U B].
  - exists txt. split; [now apply unescape_ws|]. unfold shown. apply white_ws in W. now rewrite W.
  - exists v. split; [now apply (unescape_exact txt)|]. unfold shown. apply white_ws in B. now rewrite B.
  - exists v. split; [now apply (unescape_exact txt)|]. unfold shown. cbn [flat_map item_text]. rewrite app_nil_r. destruct (white v) eqn:E; [|reflexivity].
    apply white_ws in E. destruct v; [reflexivity|]. exfalso. apply B. now split.
Qed.
Lemma tag_item_text t b : tag_item t b -> flat_map item_text b = [].
Proof. now intros [c|c|? n l _ _|? n l _ _|? n _]. Qed.
Lemma items_shown el is : items el is -> exists vs, Forall2 (fun x v => unescape (fst x) = Ok v) el vs /\ flat_map item_text is = flat_map shown vs.
Proof.
  induction 1 as [|txt t toks a b l T G I (vs & F & E)]; [exists []; split; [constructor|reflexivity]|].
  destruct (text_item_shown _ _ T) as (v & U & Ev). exists (v :: vs). split; [now constructor|]. rewrite !flat_map_app, Ev, (tag_item_text _ _ G), E. reflexivity.
Qed.
Theorem white_text s d pr el : parse_str s = Ok d -> one_root s pr el -> exists vs, decoded el vs /\
  elem_text (d_root d) = flat_map (fun v => if white v then [] else v) vs.
Proof.
  intros H O. destruct (C67_document _ _ _ _ H O) as (_ & _ & is & I & E). pose proof (proj1 items_text _ _ _ E) as T.
  inversion I as [|txt t toks a b l Ta G Ir]; subst; [inversion E|].
  assert (Ea : flat_map item_text a = []).
  { inversion Ta; subst; try reflexivity. exfalso. inversion E. }
  destruct (items_shown _ _ Ir) as (vs & F & Ev). exists vs. split; [exact F|].
  rewrite T, !flat_map_app, Ea, (tag_item_text _ _ G), Ev. reflexivity.
Qed.
Lemma shown_le v : List.length (shown v) <= List.length v.
Proof. unfold shown. destruct (white v); cbn; lia. Qed.
Lemma shown_short vs : List.length (flat_map shown vs) <= List.length (List.concat vs).
Proof. induction vs as [|v vs IH]; [cbn; lia|]. cbn [flat_map List.concat]. rewrite !app_length. pose proof (shown_le v). lia. Qed.
Lemma shown_all vs : flat_map shown vs = List.concat vs <-> Forall (fun v => ~ blank v) vs.
Proof.
  split.
  - induction vs as [|v vs IH]; intro E; [constructor|]. cbn [flat_map List.concat] in E.
    assert (Ev : shown v = v).
    { pose proof (shown_le v) as L1. pose proof (shown_short vs) as L2. apply (f_equal (@List.length _)) in E. rewrite !app_length in E.
      unfold shown in *. destruct (white v); [|reflexivity]. cbn in E, L1. symmetry. apply length_zero_iff_nil. lia. }
    rewrite Ev in E. apply app_inv_head in E. constructor; [|now apply IH]. intros [N B]. apply white_ws in B. unfold shown in Ev. rewrite B in Ev. now apply N.
  - induction 1 as [|v vs N F IH]; [reflexivity|]. cbn [flat_map List.concat]. rewrite IH. f_equal. unfold shown. destruct (white v) eqn:E; [|reflexivity].
    apply white_ws in E. destruct v; [reflexivity|]. exfalso. apply N. now split.
Qed.
Lemma decoded_fun el vs vs' : decoded el vs -> decoded el vs' -> vs = vs'.
Proof.
  unfold decoded. generalize (tl el). intros l H. revert vs'. induction H as [|x v l vs U H IH]; intros vs' H'; inversion H' as [|? v' ? vs2 U' H2]; subst; [reflexivity|].
  rewrite U in U'. injection U' as <-. now rewrite (IH vs2).
Qed.
Theorem white_kept s d pr el vs : parse_str s = Ok d -> one_root s pr el -> decoded el vs ->
  (elem_text (d_root d) = List.concat vs <-> Forall (fun v => ~ blank v) vs).
Proof. intros H O D. destruct (white_text _ _ _ _ H O) as (vs' & D' & ->). rewrite (decoded_fun _ _ _ D' D). apply shown_all. Qed.

(** * Spacing *)

Lemma shortest_swap P t rest u : shortest P (t ++ rest) t rest -> shortest P (t ++ u) t u.
Proof.
  intros (_ & H & M). split; [reflexivity|]. split; [exact H|]. intros t' r' E H'. pose proof E as E2. apply prefix_cases in E2. destruct E2 as [B|[y E3]]; [exact B|].
  apply (M t' (y ++ rest)); [|exact H']. rewrite E3. now rewrite <- app_assoc.
Qed.
Lemma tag_at_swap t rest u : tag_at (t ++ rest) t rest -> tag_at (t ++ u) t u.
Proof.
  intro T.
  assert (G : In gt_ t).
  { destruct T as [_ (_ & [y ->] & _)|_ (_ & (b & -> & _) & _)|_ (_ & [y ->] & _)|_ _ _ (_ & (b & -> & _) & _)|_ _ _ (_ & (b & -> & _) & _)]; repeat (apply in_or_app; right); cbn; tauto. }
  assert (K : forall p, ~ In gt_ p -> begins p (t ++ rest) <-> begins p (t ++ u)).
  { intros p N. split; intro B; apply begins_more; now apply (begins_less p t) in B. }
  assert (N1 : ~ In gt_ (lit "<!--")) by (cbv; intuition discriminate). assert (N2 : ~ In gt_ (lit "<?")) by (cbv; intuition discriminate).
  assert (N3 : ~ In gt_ (lit "<![CDATA[")) by (cbv; intuition discriminate). assert (N4 : ~ In gt_ (lit "<!")) by (cbv; intuition discriminate).
  assert (N5 : ~ In gt_ (lit "<")) by (cbv; intuition discriminate).
  destruct T as [B H|B H|B H|B C1 C2 H|B C1 C2 H]; apply shortest_swap with (u := u) in H.
  - apply ta_comment; [now apply (K _ N1)|exact H].
  - apply ta_pi; [now apply (K _ N2)|exact H].
  - apply ta_cdata; [now apply (K _ N3)|exact H].
  - apply ta_decl; [now apply (K _ N4)|now rewrite <- (K _ N1)|now rewrite <- (K _ N3)|exact H].
  - apply ta_elem; [now apply (K _ N5)|now rewrite <- (K _ N2)|now rewrite <- (K _ N4)|exact H].
Qed.
Lemma ws_no_tag w : ws w -> no_tag w.
Proof. intros W I. unfold ws in W. rewrite Forall_forall in W. apply W in I. vm_compute in I. discriminate. Qed.
Lemma respaced_lexed el el' : respaced el el' -> forall s tail tail', lexed s el tail -> lexed (written el' ++ tail') el' tail'.
Proof.
  induction 1 as [|[g t] [g' t'] el el' [E S] F IH]; intros s tail tail' L; [constructor|]. cbn [fst snd] in *. subst t'.
  inversion L as [|? s0 ? rest ? ? N T L' E0]; subst. pose proof (tag_at_nonempty _ _ _ T) as [-> _].
  cbn [written flat_map fst snd]. fold (written el'). rewrite <- !app_assoc. apply lx_tag with (written el' ++ tail'); [|now apply tag_at_swap with rest|now apply (IH rest tail)].
  destruct S as [<- |[_ W]]; [exact N|now apply ws_no_tag].
Qed.
Lemma respaced_same l : respaced l l.
Proof. induction l as [|x l IH]; [constructor|]. constructor; [|exact IH]. split; [reflexivity|now left]. Qed.
Theorem respaced_splits el el' : respaced el el' -> forall s pr tail, splits s (pr ++ el) tail -> splits (written (pr ++ el') ++ tail) (pr ++ el') tail.
Proof.
  intros R s pr tail [L N]. split; [|exact N]. apply (respaced_lexed (pr ++ el) (pr ++ el')) with (s := s) (tail := tail); [|exact L].
  apply Forall2_app; [apply respaced_same|exact R].
Qed.
Lemma respaced_snd el el' : respaced el el' -> map snd el = map snd el'.
Proof. induction 1 as [|x y l l' [E _] F IH]; [reflexivity|]. cbn. now rewrite E, IH. Qed.
Lemma respaced_items el el' : respaced el el' -> forall is, items el is -> items el' is.
Proof.
  induction 1 as [|[g t] [g' t'] el el' [E S] F IH]; intros is I; inversion I as [|txt t0 toks a b l Ta G Ir]; subst; [constructor|]. cbn [fst snd] in *. subst t'.
  constructor; [|exact G|now apply IH]. destruct S as [<- |[W W']]; [exact Ta|]. inversion Ta; subst; try contradiction. now constructor.
Qed.
Lemma respaced_starts el el' : respaced el el' -> starts_with_element el -> starts_with_element el'.
Proof.
  intros R (g & t & rest & -> & N). inversion R as [|? [g' t'] ? l' [E _] _]; subst. cbn [snd] in E. subst t'. now exists g', t, l'.
Qed.
(** The run of the reader. *)
Lemma first_step txt s0 t rest st c st2 tail : no_tag txt -> tag_at s0 t rest -> steps (st, txt ++ s0) (st2, tail) -> no_tag tail -> c = (st2, tail) ->
  exists st1, step (st, txt ++ s0) (st1, rest) /\ steps (st1, rest) c.
Proof.
  intros N T S Nt ->. assert (NT : next_tag_is (txt ++ s0) txt t s0 rest) by now repeat split.
  inversion S as [E|c1 c2 S1 S2]; subst; [exfalso; now apply (tag_at_tag _ _ _ _ N T)|].
  destruct c1 as [st1 s1]. exists st1. assert (s1 = rest) as ->; [|now split].
  inversion S1 as [? ? txt' t' r' rest' Hn|? ? txt' t' r' rest' n Hn|? ? txt' t' r' rest' n Hn|? ? txt' t' r' rest' n Hn]; subst; now destruct (next_tag_fun _ _ _ _ _ _ _ _ _ NT Hn) as (_ & _ & _ & <-).
Qed.
Lemma respaced_step txt txt' s0 t rest s0' rest' st st1 : no_tag txt -> no_tag txt' -> tag_at s0 t rest -> tag_at s0' t rest' -> txt = txt' \/ ws txt /\ ws txt' /\ (forall toks, st = Before toks -> ~ prolog_like t) ->
  step (st, txt ++ s0) (st1, rest) -> step (st, txt' ++ s0') (st1, rest').
Proof.
  intros N N' T T' X S. assert (NT : next_tag_is (txt ++ s0) txt t s0 rest) by now repeat split. assert (NT' : next_tag_is (txt' ++ s0') txt' t s0' rest') by now repeat split.
  inversion S as [? ? tx t1 r1 rest1 Hn W P|? ? tx t1 r1 rest1 n Hn W P1 P2 P3 P4 P5|? ? tx t1 r1 rest1 n Hn W P1 P2 P3 P4 P5|? ? tx t1 r1 rest1 n Hn X1 F]; subst; destruct (next_tag_fun _ _ _ _ _ _ _ _ _ NT Hn) as (E1 & E2 & E3 & E4); subst.
  - destruct X as [E|(_ & _ & K)]; [subst|exfalso; apply (K toks eq_refl); apply P]. eapply sp_prolog; eassumption.
  - eapply sp_single; try eassumption. destruct X as [E|(_ & W' & _)]; [now subst|exact W'].
  - eapply sp_root; try eassumption. destruct X as [E|(_ & W' & _)]; [now subst|exact W'].
  - eapply sp_tag; try eassumption. destruct X as [E|(_ & W' & _)]; [now subst|now left].
Qed.
Lemma respaced_steps_in el el' : respaced el el' -> forall s s' tail tail' st st2, (forall toks, st <> Before toks) -> lexed s el tail -> lexed s' el' tail' -> no_tag tail ->
  steps (st, s) (st2, tail) -> steps (st, s') (st2, tail').
Proof.
  induction 1 as [|[g t] [g' t'] el el' [E X] F IH]; intros s s' tail tail' st st2 NB L L' Nt S.
  - inversion L; subst. inversion L'; subst. inversion S as [|c1 c2 S1 S2]; subst; [constructor|]. exfalso.
    inversion S1 as [? ? txt t r rest' (E & _ & T)|? ? txt t r rest' n (E & _ & T)|? ? txt t r rest' n (E & _ & T)|? ? txt t r rest' n (E & N1 & T)]; subst;
      apply Nt; apply in_or_app; right; apply tag_at_lt in T; destruct T as [z ->]; now left.
  - cbn [fst snd] in *. subst t'. inversion L as [|? s0 ? rest ? ? N T L1]; subst. inversion L' as [|? s0' ? rest' ? ? N' T' L1']; subst.
    destruct (first_step _ _ _ _ _ _ _ _ N T S Nt eq_refl) as (st1 & S1 & S2).
    apply ss_step with (st1, rest').
    + apply (respaced_step g g' s0 t rest s0' rest' st st1); try assumption. destruct X as [X|[X1 X2]]; [now left|right]. split; [exact X1|]. split; [exact X2|]. intros toks Es. now destruct (NB toks).
    + apply (IH rest rest' tail tail'); try assumption. intros toks ->. inversion S1; subst. now destruct (NB toks0).
Qed.
Lemma respaced_steps : forall pr el el' s s' tail tail' toks0 st2, respaced el el' -> lexed s (pr ++ el) tail -> lexed s' (pr ++ el') tail' -> no_tag tail ->
  steps (Before toks0, s) (st2, tail) -> starts_with_element el -> steps (Before toks0, s') (st2, tail').
Proof.
  induction pr as [|[g t] pr IH]; intros el el' s s' tail tail' toks0 st2 R L L' Nt S SE.
  - cbn [app] in *. destruct SE as (g & t & el0 & -> & NP). inversion R as [|? [g' t'] ? el0' [E X] R0]; subst. cbn [fst snd] in *. subst t'.
    inversion L as [|? s0 ? rest ? ? N T L1]; subst. inversion L' as [|? s0' ? rest' ? ? N' T' L1']; subst.
    destruct (first_step _ _ _ _ _ _ _ _ N T S Nt eq_refl) as (st1 & S1 & S2). apply ss_step with (st1, rest').
    + apply (respaced_step g g' s0 t rest s0' rest' _ st1); try assumption. destruct X as [X|[X1 X2]]; [now left|right]. now split.
    + apply (respaced_steps_in el0 el0' R0 rest rest' tail tail'); try assumption. intros toks ->.
      inversion S1 as [? ? tx t1 r1 rest1 Hn W P|? ? tx t1 r1 rest1 n Hn W P1 P2 P3 P4 P5|? ? tx t1 r1 rest1 n Hn W P1 P2 P3 P4 P5|? ? tx t1 r1 rest1 n Hn X1 F]; subst.
      assert (NT : next_tag_is (g ++ s0) g t s0 rest) by now repeat split. destruct (next_tag_fun _ _ _ _ _ _ _ _ _ NT Hn) as (_ & E2 & _). subst t1. apply NP, P.
  - cbn [app] in *. inversion L as [|? s0 ? rest ? ? N T L1]; subst. inversion L' as [|? s0' ? rest' ? ? N' T' L1']; subst.
    destruct (first_step _ _ _ _ _ _ _ _ N T S Nt eq_refl) as (st1 & S1 & S2). apply ss_step with (st1, rest').
    + apply (respaced_step g g s0 t rest s0' rest' _ st1); try assumption. now left.
    + destruct st1 as [toks| |names].
      * now apply (IH el el' rest rest' tail tail').
      * assert (R' : respaced (pr ++ el) (pr ++ el')) by (apply Forall2_app; [apply respaced_same|exact R]).
        now apply (respaced_steps_in (pr ++ el) (pr ++ el') R' rest rest' tail tail').
      * assert (R' : respaced (pr ++ el) (pr ++ el')) by (apply Forall2_app; [apply respaced_same|exact R]).
        now apply (respaced_steps_in (pr ++ el) (pr ++ el') R' rest rest' tail tail').
Qed.
Lemma steps_lexed_fwd c e : steps c e -> exists toks, lexed (snd c) toks (snd e).
Proof.
  induction 1 as [c|c d e S _ [toks L]]; [exists []; constructor|]. destruct S as [? ? txt t r rest' (-> & N & T)|? ? txt t r rest' n (-> & N & T)|? ? txt t r rest' n (-> & N & T)|? ? txt t r rest' n (-> & N & T)];
    exists ((txt, t) :: toks); cbn [snd] in *; now apply lx_tag with rest'.
Qed.
Theorem white_between s d pr el s' el' tail' : parse_str s = Ok d -> one_root s pr el -> splits s' (pr ++ el') tail' -> respaced el el' ->
  exists d', parse_str s' = Ok d' /\ doc_same d' d.
Proof.
  intros H O Sp' R. pose proof O as ((tail & Sp) & Fp & ET & SE). pose proof Sp as [L N]. pose proof Sp' as [L' N'].
  destruct (C67_document _ _ _ _ H O) as (D1 & D2 & is & I & E).
  apply C67_exact with pr el'.
  - split; [now exists tail'|]. split; [exact Fp|]. split; [now rewrite <- (respaced_snd _ _ R)|now apply (respaced_starts el)].
  - apply final_read. assert (F : final (Before [], s)) by (apply read_final, parse_accepts; now exists d). destruct F as (tl0 & Nt & S).
    assert (tl0 = tail).
    { assert (exists toks, lexed s toks tl0) as [toks Lt].
      { destruct S as [S|S]; apply steps_lexed_fwd in S; destruct S as [toks S]; now exists toks. }
      now destruct (C35_splits_unique _ _ _ _ _ (conj Lt Nt) Sp). }
    subst tl0. exists tail'. split; [exact N'|]. destruct S as [S|S]; [left|right]; now apply (respaced_steps pr el el' s s' tail tail').
  - split; [exact D1|]. split; [exact D2|]. exists is. split; [now apply (respaced_items el)|exact E].
Qed.

(** * Every element *)

Lemma inside_step e c : inside e c -> c = e \/ exists c0, In (NElem c0) (e_children e) /\ inside c0 c.
Proof.
  intros [->|H]; [now left|right]. rewrite descendants_eq in H. apply in_flat_map in H. destruct H as (n & I & [->|H]).
  - exists c. split; [exact I|now left].
  - destruct n as [c0|s|s|s]; try contradiction. exists c0. split; [exact I|now right].
Qed.
Lemma nodes_split b : bal b -> forall anc ns r, nodes_of_items anc ns (b ++ r) -> exists n1 n2, ns = n1 ++ n2 /\ nodes_of_items anc n1 b /\ nodes_of_items anc n2 r.
Proof.
  induction 1 as [|n is H IH|n l a1 a2 H1 IH1 H2 IH2]; intros anc ns r N.
  - exists [], ns. split; [reflexivity|]. split; [constructor|exact N].
  - cbn [app] in N. remember (ILeaf n :: is ++ r) as j eqn:E. destruct N as [anc|anc y ns is0 X N|anc e ns is1 is2 He N]; [discriminate E| |destruct He; discriminate E].
    injection E as -> ->. destruct (IH _ _ _ N) as (n1 & n2 & -> & N1 & N2). exists (n :: n1), n2. split; [reflexivity|]. split; [now constructor|exact N2].
  - cbn [app] in N. rewrite <- app_assoc in N. cbn [app] in N. remember (IOpen n l :: a1 ++ IClose :: a2 ++ r) as j eqn:E.
    destruct N as [anc|anc y ns is0 X N|anc e ns is1 is2 He N]; [discriminate E|discriminate E|]. inversion He as [? ? n' l' is3 L X1 X2 N3]; subst. cbn [app] in E. injection E as -> -> E.
    rewrite <- app_assoc in E. cbn [app] in E. apply bal_cut in E; [|now apply nodes_bal in N3|exact H1]. destruct E as [-> ->].
    destruct (IH2 _ _ _ N) as (n1 & n2 & -> & N1 & N2). exists (NElem e :: n1), n2. split; [reflexivity|]. split; [|exact N2].
    replace (IOpen n l :: a1 ++ IClose :: a2) with ((IOpen n l :: a1 ++ [IClose]) ++ a2) by (cbn [app]; now rewrite <- app_assoc). now constructor.
Qed.
Definition text_here (own : list (str * str)) (c : elem) : Prop := exists vs, decoded own vs /\ elem_text c = flat_map shown vs.
Definition found (toks : list (str * str)) (c : elem) : Prop := exists x own y, toks = x ++ own ++ y /\ tags_of own c /\ text_here own c.
Lemma found_more a toks b c : found toks c -> found (a ++ toks ++ b) c.
Proof. intros (x & own & y & -> & H). exists (a ++ x), own, (y ++ b). split; [now rewrite <- !app_assoc|exact H]. Qed.
Lemma texts_no_elem xs c : Forall ConfFacts.is_text xs -> ~ In (NElem c) xs.
Proof. intros F I. rewrite Forall_forall in F. apply F in I. now destruct I as [v E]. Qed.
Lemma open_tag_item t n b : opening t n -> tag_item t b ->
  exists m l, start_tag t m l /\ (~ self_closing t /\ b = [IOpen m l] \/ self_closing t /\ b = [IOpen m l; IClose]).
Proof.
  intros (N1 & N2 & _) T. destruct T as [c|c|? m l S1 S2|? m l S1 S2|? m (w1 & w2 & o & -> & _)].
  - exfalso. apply N1. now exists (lit "--" ++ c ++ lit "-->").
  - exfalso. apply N1. now exists (lit "[CDATA[" ++ c ++ lit "]]>").
  - exists m, l. split; [exact S1|now left].
  - exists m, l. split; [exact S1|now right].
  - exfalso. apply N2. now eexists.
Qed.
Lemma bang_tag_item t b : begins (lit "<!") t -> tag_item t b -> exists x, b = [ILeaf x] /\ forall c, x <> NElem c.
Proof.
  intros [y Ey] T. destruct T as [c|c|? m l (S1 & _) S2|? m l (S1 & _) S2|? m (w1 & w2 & o & -> & _)].
  - now exists (NComment c).
  - now exists (NCData c).
  - exfalso. apply S1. now exists y.
  - exfalso. apply S1. now exists y.
  - discriminate Ey.
Qed.
Lemma every_text : (forall l, element_tags l -> forall toks is, map snd toks = l -> items toks is -> exists a n at_ b,
    is = map ILeaf a ++ IOpen n at_ :: b ++ [IClose] /\ Forall ConfFacts.is_text a /\ bal b /\
    forall anc e, labelled n at_ e -> nodes_of_items anc (e_children e) b -> forall c, inside e c -> found toks c) /\
  (forall l, content_tags l -> forall toks is, map snd toks = l -> items toks is -> bal is /\
    forall anc ns, nodes_of_items anc ns is -> forall c0 c, In (NElem c0) ns -> inside c0 c -> found toks c).
Proof.
  apply tags_ind2.
  - intros t n O S toks is E I. destruct toks as [|[g t'] [|]]; try discriminate E. cbn in E. injection E as ->.
    destruct (ConfFacts.items_one _ _ _ I) as (a & b & -> & Ta & Tb). destruct (open_tag_item _ _ _ O Tb) as (m & l & St & [[N _]|[_ ->]]); [contradiction|].
    destruct (text_leaves _ _ Ta) as (xs & -> & F). exists xs, m, l, []. split; [reflexivity|]. split; [exact F|]. split; [constructor|].
    intros anc e La N c Hc. apply nodes_nil in N. apply inside_step in Hc. rewrite N in Hc. destruct Hc as [->|(c0 & [] & _)].
    exists [], [(g, t)], []. split; [reflexivity|]. split; [split; [now apply et_single with n|now exists g, t, [], m, l]|]. exists []. split; [constructor|]. rewrite text_said, N. reflexivity.
  - intros t n body c O S C IH Cl toks is E I. destruct toks as [|[g t'] toks]; [discriminate E|]. cbn in E. injection E as -> E.
    destruct (AcceptFacts.map_snd_app _ _ _ E) as (tb & tc & -> & Eb & Ec). destruct tc as [|[g2 c'] [|]]; try discriminate Ec. cbn in Ec. injection Ec as ->.
    inversion I as [|? ? ? a b l Ta Tb Ir]; subst. destruct (open_tag_item _ _ _ O Tb) as (m & at_ & St & [[_ ->]|[N _]]); [|contradiction].
    destruct (text_leaves _ _ Ta) as (xs & -> & F). pose proof Ir as Ir0. destruct (ConfFacts.items_split _ _ _ Ir) as (x & y & -> & Ix & Iy).
    destruct (ConfFacts.items_one _ _ _ Iy) as (a2 & b2 & -> & Ta2 & Tb2). rewrite (tag_item_fun _ _ _ Tb2 (gi_close _ _ Cl)) in *. destruct (text_leaves _ _ Ta2) as (xs2 & -> & F2).
    destruct (IH tb x eq_refl Ix) as [Bx K]. exists xs, m, at_, (x ++ map ILeaf xs2). split; [cbn [app]; now rewrite <- !app_assoc|]. split; [exact F|].
    split; [apply bal_app; [exact Bx|apply bal_leaves]|]. intros anc e La N c1 Hc. destruct (inside_step _ _ Hc) as [->|(c0 & I0 & Hc0)].
    + exists [], ((g, t) :: tb ++ [(g2, c)]), []. split; [cbn [app]; now rewrite app_nil_r|]. split; [split; [cbn [map snd]; rewrite map_app; now apply et_pair with n|now exists g, t, (tb ++ [(g2, c)]), m, at_]|].
      destruct (items_shown _ _ Ir0) as (vs & Fv & Ev). exists vs. split; [exact Fv|]. rewrite text_said, (proj2 items_text _ _ _ N), <- Ev, !flat_map_app. cbn [flat_map item_text app]. now rewrite app_nil_r.
    + destruct (nodes_split _ Bx _ _ _ N) as (n1 & n2 & En & N1 & N2). rewrite En in I0. apply in_app_or in I0. destruct I0 as [I0|I0].
      * change ((g, t) :: tb ++ [(g2, c)]) with ([(g, t)] ++ tb ++ [(g2, c)]). apply found_more. now apply (K _ _ N1 c0).
      * exfalso. rewrite <- (app_nil_r (map ILeaf xs2)) in N2. destruct (leaves_inv _ _ _ _ N2) as (n3 & -> & N3). apply nodes_nil in N3. subst n3. rewrite app_nil_r in I0. now apply (texts_no_elem xs2 c0).
  - intros toks is E I. destruct toks; [|discriminate E]. inversion I; subst. split; [constructor|]. intros anc ns N c0 c H. apply nodes_nil in N. now subst ns.
  - intros t l B C IH toks is E I. destruct toks as [|[g t'] toks]; [discriminate E|]. cbn in E. injection E as -> E. inversion I as [|? ? ? a b r Ta Tb Ir]; subst.
    destruct (bang_tag_item _ _ B Tb) as (x & -> & Nx). destruct (text_leaves _ _ Ta) as (xs & -> & F). destruct (IH toks r eq_refl Ir) as [Br K].
    split; [apply bal_app; [apply bal_leaves|now constructor]|]. intros anc ns N c0 c H Hc. destruct (leaves_inv _ _ _ _ N) as (n1 & -> & N1).
    change ([ILeaf x] ++ r) with (map ILeaf [x] ++ r) in N1. destruct (leaves_inv _ _ _ _ N1) as (n2 & -> & N2).
    apply in_app_or in H. destruct H as [H|[H|H]]; [now apply texts_no_elem in H|now apply Nx in H|].
    replace ((g, t) :: toks) with ([(g, t)] ++ toks ++ []) by (cbn; now rewrite app_nil_r). apply found_more. now apply (K _ _ N2 c0).
  - intros l1 l2 E1 IH1 C2 IH2 toks is E I. destruct (AcceptFacts.map_snd_app _ _ _ E) as (ta & tb & -> & Ea & Eb).
    destruct (ConfFacts.items_split _ _ _ I) as (x & y & -> & Ix & Iy). destruct (IH1 _ _ Ea Ix) as (a & n & at_ & b & -> & F & Bb & K1). destruct (IH2 _ _ Eb Iy) as [By K2].
    split.
    + apply bal_app; [|exact By]. apply bal_app; [apply bal_leaves|]. apply bl_elem; [exact Bb|constructor].
    + intros anc ns N c0 c H Hc. rewrite <- app_assoc in N. destruct (leaves_inv _ _ _ _ N) as (n1 & -> & N1). cbn [app] in N1. rewrite <- app_assoc in N1. cbn [app] in N1.
      destruct (open_inv _ _ _ _ _ _ N1 Bb) as (e & n2 & -> & La & _ & Ne & N2). apply in_app_or in H. destruct H as [H|[H|H]].
      * now apply texts_no_elem in H.
      * injection H as ->. change (ta ++ tb) with ([] ++ ta ++ tb). apply found_more. now apply (K1 _ _ La Ne).
      * replace (ta ++ tb) with (ta ++ tb ++ []) by now rewrite app_nil_r. apply found_more. now apply (K2 _ _ N2 c0).
Qed.
Theorem white_every s d pr el c : parse_str s = Ok d -> one_root s pr el -> inside (d_root d) c -> exists x own y vs,
  el = x ++ own ++ y /\ tags_of own c /\ decoded own vs /\ elem_text c = flat_map (fun v => if white v then [] else v) vs.
Proof.
  intros H O Hc. destruct (C67_document _ _ _ _ H O) as (_ & _ & is & I & E). destruct O as (_ & _ & T & _).
  destruct (proj1 every_text _ T el is eq_refl I) as (a & n & at_ & b & -> & F & B & K).
  destruct a as [|a0 a]; [|inversion E]. cbn [map app] in E. inversion E as [? ? n' l' is' L X1 X2 N Ei]; subst.
  match goal with X : _ ++ [IClose] = _ ++ [IClose] |- _ => apply app_inv_tail in X; subst end. destruct (K _ _ L N c Hc) as (x & own & y & -> & To & vs & D & Ev). now exists x, own, y, vs.
Qed.

(** Proofs for SpecCut.v. *)
From Coq Require Import List NArith Arith Bool Ascii String Lia ZArith.
From Verif Require Import Base BaseFacts Escape Dom Parse Spec SpecDom DomFacts SpecLex SpecParse LexFacts ParseFacts DocFacts SerFacts SpecDoc PrintFacts PrintDoc PrologFacts RoundFacts SpecMore TripFacts
  Files SpecBytes SpecFiles Utf8Facts P_Files P_Doc SpecErr ReadFacts AppendFacts P_Parse P_Append FormTags SpecWhite WhiteFacts SpecCut.
Import ListNotations.

Lemma lexed_cont s a x : lexed s a x -> forall b y, lexed s b y -> no_tag y -> exists more, b = a ++ more /\ lexed x more y.
Proof.
  intro L. induction L as [s|txt s t rest toks tail Hn T L IH]; intros b y L' Ny; [now exists b|].
  inversion L' as [|txt' s' t' rest' ? ? Hn' T' L'' E]; subst.
  - exfalso. apply Ny. destruct (tag_at_lt _ _ _ T) as [z ->]. apply in_or_app. right. now left.
  - destruct (split_lt _ _ _ _ Hn' Hn (tag_at_lt _ _ _ T') (tag_at_lt _ _ _ T) E) as [-> ->]. destruct (tag_at_fun _ _ _ _ _ T T') as [-> ->].
    destruct (IH _ _ L'' Ny) as (more & -> & M). now exists more.
Qed.
Lemma roots_depth l : roots_tags l -> depths l = 0%Z /\ l <> [].
Proof.
  induction 1 as [l H|l1 l2 H1 H2 [D2 N2]].
  - split; [now apply (proj1 depths_tags)|]. inversion H; easy.
  - split; [rewrite depths_app, D2, (proj1 (proj1 depths_tags l1 H1)); reflexivity|]. inversion H1; easy.
Qed.
Lemma whole_root a b : element_tags (a ++ b) -> roots_tags a -> b = [].
Proof.
  intros H R. apply roots_depth in R. destruct R as [D N]. destruct b as [|x b]; [reflexivity|]. exfalso.
  destruct (proj1 depths_tags _ H) as [_ P]. specialize (P a (x :: b) eq_refl N). lapply P; [lia|easy].
Qed.
Lemma cut_short s d pr el p q d' : parse_str s = Ok d -> one_root s pr el -> s = p ++ q -> parse_str p = Ok d' -> begins (written (pr ++ el)) p.
Proof.
  intros H O -> H'. destruct O as ((tail & Sp) & Fp & ET & SE). destruct (C35_balanced _ _ H') as (pr' & el' & tail' & [L' N'] & Fp' & R & SE').
  destruct Sp as [L N]. apply (lexed_tail_more _ _ _ q) in L' as L2. destruct (lexed_cont _ _ _ L2 _ _ L N) as (more & E & _).
  rewrite <- app_assoc in E. assert (SE2 : starts_with_element (el' ++ more)).
  { destruct SE' as (g & t & r & -> & X). now exists g, t, (r ++ more). }
  destruct (prolog_fun _ _ _ _ Fp Fp' SE SE2 E) as [-> ->]. rewrite map_app in ET. apply whole_root in ET; [|exact R].
  apply map_eq_nil in ET. subst more. rewrite app_nil_r. exists tail'. exact (lexed_flatten _ _ _ L').
Qed.
Theorem cut_exact s d pr el p q : parse_str s = Ok d -> one_root s pr el -> s = p ++ q ->
  (begins (written (pr ++ el)) p /\ parse_str p = Ok d) \/
  (~ begins (written (pr ++ el)) p /\ exists x, parse_str p = Err x /\ ends_early x).
Proof.
  intros H O E. destruct (C65_prefix p q d) as [[d' H']|I]; [now rewrite <- E|left|right].
  - pose proof (cut_short _ _ _ _ _ _ _ H O E H') as B. split; [exact B|]. destruct O as ((tail & L & N) & _). apply lexed_flatten in L.
    destruct B as [u ->]. rewrite E, <- app_assoc in L. apply app_inv_head in L. subst tail.
    assert (Nq : no_tag q) by (intro I; apply N, in_or_app; now right). pose proof (C65_trailing _ q _ H' Nq) as K. rewrite <- E in K. congruence.
  - destruct (C65_incomplete _ I) as (x & Hx & Ex). split; [|now exists x]. intros [u ->].
    destruct O as ((tail & L & N) & O). pose proof L as L0. apply lexed_flatten in L. rewrite E, <- app_assoc in L. apply app_inv_head in L.
    assert (Nu : no_tag u) by (intro J; apply N; rewrite <- L; apply in_or_app; now left).
    assert (S' : splits (written (pr ++ el) ++ u) (pr ++ el) u).
    { split; [|exact Nu]. apply (respaced_lexed _ _ (respaced_same _) s tail u L0). }
    destruct (white_between s d pr el _ el u H (conj (ex_intro _ tail (conj L0 N)) O) S' (respaced_same el)) as (d' & H' & _). congruence.
Qed.

(** * Written documents *)

Lemma writable_tidy : forall e anc, writable anc e -> well_named e /\ tidy e.
Proof.
  induction e as [e IH] using elem_ind'. intros anc W. inversion W as [? ? Wn Wa _ Wt Wx Wc Wd Wk]; subst. split; constructor.
  - exact Wn.
  - intros k v Hk. now apply (Wa k v).
  - intros c Hc. now apply (IH c Hc (e :: anc)), Wk.
  - exact Wt.
  - intros [c|t|c|c] Hn; cbn [leaf_ok]; [exact I|now apply Wx|now apply Wc|exact I].
  - exact Wd.
  - intros c Hc. now apply (IH c Hc (e :: anc)), Wk.
Qed.
Lemma writable_root d ind : writable_doc d -> exists pr el, one_root (doc_to_string_with_indent d ind) pr el /\
  doc_to_string_with_indent d ind = written (pr ++ el) ++ [10%N].
Proof.
  intros (Ho & Nd & Dw & Wr & _). destruct (writable_tidy _ _ Wr) as [W T].
  destruct (doc_written d ind Ho) as (i & I & Es). rewrite Nd in Es. cbn [flat_map app] in Es.
  assert (Si : item_shape i) by (apply (proj1 indents_shape _ _ I); now apply item_src_shape).
  assert (Ei : is_element i).
  { rewrite item_src_eq in I. destruct (e_children (root_element d)); now inversion I. }
  set (o := declaration d) in *. exists (decl_toks o), (toks_item (gap_of o) i). split; [rewrite Es; now apply written_one_root|].
  assert (Hg : no_tag (gap_of o)) by (destruct o; [apply ws_no_tag; now repeat constructor|easy]).
  pose proof (proj1 shapes_lexed i Si (gap_of o) [10%N] Hg) as L. rewrite Es. destruct o as [x|]; cbn [decl_text decl_toks gap_of app] in *; [|now apply lexed_flatten in L].
  apply lexed_flatten in L. cbn [written flat_map fst snd]. fold (written (toks_item [10%N] i)). rewrite <- !app_assoc. cbn [app]. do 3 f_equal. exact L.
Qed.
Theorem cut_written d ind : writable_doc d -> exists d', doc_eqb d' d = true /\
  forall p q, doc_to_string_with_indent d ind = p ++ q ->
    ((q = [] \/ q = [10%N]) /\ parse_str p = Ok d') \/ (2 <= List.length q /\ exists x, parse_str p = Err x /\ ends_early x).
Proof.
  intro W. destruct (C31_round_trip d ind W) as (d' & H & E). exists d'. split; [exact E|]. destruct (writable_root d ind W) as (pr & el & O & Ew).
  intros p q Eq. destruct (cut_exact _ _ _ _ _ _ H O Eq) as [[[u ->] K]|[N K]].
  - left. split; [|exact K]. rewrite Ew, <- app_assoc in Eq. apply app_inv_head in Eq. destruct u as [|a u]; [now right|]. destruct u; [|discriminate Eq].
    injection Eq as _ E2. left. now symmetry.
  - right. split; [|exact K]. destruct q as [|a [|b q]]; [| |cbn; lia]; exfalso; apply N.
    + rewrite app_nil_r in Eq. exists [10%N]. now rewrite <- Eq.
    + rewrite Ew in Eq. apply app_inj_tail in Eq. destruct Eq as [<- _]. exists []. now rewrite app_nil_r.
Qed.
Theorem cut_prefix_free d1 d2 i1 i2 u : writable_doc d1 -> writable_doc d2 ->
  doc_to_string_with_indent d2 i2 = doc_to_string_with_indent d1 i1 ++ u -> u = [].
Proof.
  intros W1 W2 E. destruct (cut_written d1 i1 W1) as (d1' & _ & K1). destruct (cut_written d2 i2 W2) as (d2' & _ & K2).
  destruct (K1 (doc_to_string_with_indent d1 i1) []) as [[_ H1]|[L _]]; [now rewrite app_nil_r| |cbn in L; lia].
  destruct (K2 _ _ E) as [[[Eu|Eu] _]|[_ (x & Hx & _)]]; [exact Eu| |congruence]. exfalso. subst u.
  destruct (writable_root d1 i1 W1) as (pr1 & el1 & _ & E1). destruct (writable_root d2 i2 W2) as (pr2 & el2 & O2 & E2).
  rewrite E1, E2 in E. apply app_inj_tail in E. destruct E as [E _].
  destruct O2 as ((tail & L & N) & _ & ET & SE). assert (Ne : el2 <> []) by (destruct SE as (? & ? & ? & -> & _); discriminate).
  destruct (exists_last Ne) as (b & [g t] & ->).
  assert (G : exists y, t = y ++ [gt_]).
  { rewrite app_assoc in L. apply AcceptFacts.lexed_delimited in L. apply Forall_app in L. destruct L as [_ L]. inversion L as [|? ? D _]; subst. cbn [snd] in D.
    destruct D as [y ->]. exists (lit "<" ++ y). now rewrite <- app_assoc. }
  destruct G as [y ->]. unfold written in E at 1. rewrite app_assoc, flat_map_app in E. cbn [flat_map fst snd] in E. rewrite app_nil_r, !app_assoc in E.
  apply app_inj_tail in E. destruct E as [_ E]. discriminate E.
Qed.
Lemma written_differ d1 d2 i1 i2 : writable_doc d1 -> writable_doc d2 -> doc_to_string_with_indent d1 i1 = doc_to_string_with_indent d2 i2 -> doc_eqb d1 d2 = true.
Proof.
  intros W1 W2 E. destruct (C31_round_trip d1 i1 W1) as (d1' & H1 & Q1). destruct (C31_round_trip d2 i2 W2) as (d2' & H2 & Q2). rewrite E, H2 in H1. injection H1 as <-.
  pose proof (C48_parsed_valid _ _ H2) as [V _]. apply elem_valid_ok in V. pose proof (proj1 W1) as O1. pose proof (proj1 W2) as O2. unfold root_element in *.
  apply doc_eqb_same in Q1; [|exact V|exact O1]. apply doc_eqb_same in Q2; [|exact V|exact O2]. apply doc_eqb_same; [exact O1|exact O2|].
  apply doc_same_trans with d2'; [now apply doc_same_sym|exact Q2].
Qed.
Theorem cut_sequence (l1 l2 : list (document * str)) : Forall (fun x => writable_doc (fst x)) l1 -> Forall (fun x => writable_doc (fst x)) l2 ->
  flat_map (fun x => doc_to_string_with_indent (fst x) (snd x)) l1 = flat_map (fun x => doc_to_string_with_indent (fst x) (snd x)) l2 ->
  Forall2 (fun x y => doc_eqb (fst x) (fst y) = true) l1 l2.
Proof.
  assert (N : forall d i, writable_doc d -> doc_to_string_with_indent d i <> []).
  { intros d i W E. destruct (writable_root d i W) as (pr & el & _ & Ew). rewrite Ew in E. now destruct (written (pr ++ el)). }
  intro F1. revert l2. induction F1 as [|[d1 i1] l1 W1 F1 IH]; intros l2 F2 E; destruct F2 as [|[d2 i2] l2 W2 F2]; cbn [flat_map fst snd] in *.
  - constructor.
  - symmetry in E. apply app_eq_nil in E. destruct E as [E _]. now apply N in E.
  - apply app_eq_nil in E. destruct E as [E _]. now apply N in E.
  - assert (Et : doc_to_string_with_indent d1 i1 = doc_to_string_with_indent d2 i2).
    { destruct (app_eq_app _ _ _ _ E) as (z & [[E1 E2]|[E1 E2]]).
      - pose proof (cut_prefix_free d2 d1 i2 i1 z W2 W1 E1) as ->. now rewrite app_nil_r in E1.
      - pose proof (cut_prefix_free d1 d2 i1 i2 z W1 W2 E1) as ->. now rewrite app_nil_r in E1. }
    rewrite Et in E. apply app_inv_head in E. constructor; [now apply (written_differ d1 d2 i1 i2)|now apply IH].
Qed.

(** * Files *)

Lemma cut_bytes d ind bs rest : writable_doc d -> unicode_doc d -> utf8 (doc_to_string_with_indent d ind) = bs ++ rest ->
  (exists d', doc_eqb d' d = true /\ (rest = [] \/ rest = [10%N]) /\ exists p, text_ok p /\ bs = utf8 p /\ parse_str p = Ok d') \/
  (2 <= List.length rest /\ ((exists p x, text_ok p /\ bs = utf8 p /\ parse_str p = Err x /\ ends_early x) \/ forall p, text_ok p -> utf8 p <> bs)).
Proof.
  intros W U E. assert (Tk : text_ok (doc_to_string_with_indent d ind)) by (apply C52_text; [apply W|exact U]).
  destruct (cut_written d ind W) as (d' & Ed & K). destruct (from_utf8 bs) as [p|] eqn:F.
  - apply from_utf8_spec in F. destruct F as [Tp Ep]. subst bs. destruct (utf8_prefix p _ rest Tp Tk E) as (q & Eq & ->).
    destruct (K p q Eq) as [[Q Hp]|[L (x & Hx & Ex)]].
    + left. exists d'. split; [exact Ed|]. split; [destruct Q as [-> | ->]; [now left|now right]|]. now exists p.
    + right. split; [|left; now exists p, x]. rewrite utf8_length. pose proof (blen_length q). lia.
  - right. assert (N : forall p, text_ok p -> utf8 p <> bs).
    { intros p Tp <-. unfold text_ok in Tp. rewrite from_utf8_utf8 in F by exact Tp. discriminate F. }
    split; [|now right]. destruct rest as [|a [|b rest]]; [| |cbn; lia]; exfalso.
    + rewrite app_nil_r in E. now apply (N _ Tk).
    + destruct (writable_root d ind W) as (pr & el & _ & Ew). rewrite Ew in E, Tk. apply Forall_app in Tk. destruct Tk as [Tk _].
      rewrite utf8_app in E. apply app_inj_tail in E. destruct E as [E _]. now apply (N _ Tk).
Qed.
Theorem cut_file d ind w p bs rest : writable_doc d -> unicode_doc d -> lookup w p = Some (File bs) -> fs_denied w p = false ->
  utf8 (doc_to_string_with_indent d ind) = bs ++ rest ->
  ((rest = [] \/ rest = [10%N]) /\ exists d', parse_filepath w p = Ok d' /\ doc_eqb d' d = true) \/
  (2 <= List.length rest /\ exists x, parse_filepath w p = Err x /\ (x = IOError \/ ends_early x)).
Proof.
  intros W U L D E. destruct (cut_bytes d ind bs rest W U E) as [(d' & Ed & R & t & Tt & Et & Ht)|[R [(t & x & Tt & Et & Hx & Ex)|N]]].
  - left. split; [exact R|]. exists d'. split; [|exact Ed]. now rewrite (C52_file w p bs t D L Tt Et).
  - right. split; [exact R|]. exists x. split; [|now right]. now rewrite (C52_file w p bs t D L Tt Et).
  - right. split; [exact R|]. exists IOError. split; [|now left]. now apply (C52_file_invalid w p bs L).
Qed.
Theorem cut_stream d ind l bs rest : writable_doc d -> unicode_doc d -> delivers l bs ->
  utf8 (doc_to_string_with_indent d ind) = bs ++ rest ->
  ((rest = [] \/ rest = [10%N]) /\ exists d', parse_stream l = Ok d' /\ doc_eqb d' d = true) \/
  (2 <= List.length rest /\ exists x, parse_stream l = Err x /\ (x = IOError \/ ends_early x)).
Proof.
  intros W U L E. destruct (cut_bytes d ind bs rest W U E) as [(d' & Ed & R & t & Tt & Et & Ht)|[R [(t & x & Tt & Et & Hx & Ex)|N]]].
  - left. split; [exact R|]. exists d'. split; [|exact Ed]. subst bs. now rewrite (C52_stream l t Tt L).
  - right. split; [exact R|]. exists x. split; [|now right]. subst bs. now rewrite (C52_stream l t Tt L).
  - right. split; [exact R|]. exists IOError. split; [|now left]. now apply (C52_stream_invalid l bs).
Qed.
Theorem cut_save d ind w p w' r : writable_doc d -> unicode_doc d -> write_to_filepath_with_indent d w p ind = (w', r) ->
  (r = Ok tt /\ exists d', parse_filepath w' p = Ok d' /\ doc_eqb d' d = true) \/
  (r = Err IOError /\
    (lookup w' p = lookup w p \/ (exists d', parse_filepath w' p = Ok d' /\ doc_eqb d' d = true) \/
     exists x, parse_filepath w' p = Err x /\ (x = IOError \/ ends_early x))).
Proof.
  intros W U H. destruct (C52_write_path _ _ _ _ _ _ H) as ([(-> & _)|(-> & K)] & _).
  - left. split; [reflexivity|]. exact (C52_file_round_trip d w p ind w' W U H).
  - right. split; [reflexivity|]. destruct K as [K|(bs & rest & L & N & E)]; [now left|right].
    destruct (fs_denied w' p) eqn:D.
    + right. exists IOError. split; [|now left]. apply C52_file_unreadable. now left.
    + destruct (cut_file d ind w' p bs rest W U L D E) as [[_ X]|[_ X]]; [now left|now right].
Qed.

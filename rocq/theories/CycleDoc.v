(** Documents that are written and read again and again. *)
From Coq Require Import List NArith Arith Bool Ascii String Lia Permutation.
From Verif Require Import Base BaseFacts Escape Dom Spec EscapeFacts SpecDom DomFacts SpecApi ApiFacts Regex RegexFacts
  ParseTree SpecTree ParseTreeFacts Parse SpecLex SpecParse SpecEsc LexFacts ParseFacts DocFacts TagFacts AcceptFacts PosFacts
  DocProps SpecDoc UnescFacts PrintFacts PrintDoc PrologFacts ParsedFacts NsFacts FormFacts SerFacts RoundFacts SpecMore ReFacts
  SpecErr ReadFacts ErrFacts StepFacts SpecMean MeanFacts TripFacts P_Parse P_Exact SpecCycle CycleFacts.
Import ListNotations.

(** * A value that cannot be decoded *)

Lemma attr_printed a : attr_shape any_str a -> ~ In 61%N (a_key a) /\
  PrintFacts.joined a = a_key a ++ lit "=" ++ [a_quote a] ++ a_raw a ++ [a_quote a] /\ is_quote (a_quote a) = true.
Proof.
  intros (_ & _ & Hk & _ & _ & Hq & _). split.
  - intro Hi. apply plain_xml, xml_name_chars in Hk. rewrite Forall_forall in Hk. apply Hk in Hi. apply name_char_odd in Hi. intuition congruence.
  - split; [reflexivity|]. now destruct Hq as [->| ->].
Qed.
Lemma attrs_outcome l : Forall (attr_shape any_str) l ->
  (exists kvs, Forall2 attr_reads (map PrintFacts.joined l) kvs /\ map fst kvs = map a_key l /\ Forall attr_wf l) \/
  (exists good a more kvs, l = good ++ a :: more /\ Forall2 attr_reads (map PrintFacts.joined good) kvs /\
     attr_crashes (PrintFacts.joined a) /\ unescape (a_raw a) = Panic).
Proof.
  induction 1 as [|a l Ha Hl IH].
  - left. exists []. split; [constructor|]. split; [easy|constructor].
  - destruct (attr_printed a Ha) as (Hk & Ej & Hq).
    destruct (unescapes_total _ (a_raw a) (le_n _)) as [[v|] U].
    + assert (R : attr_reads (PrintFacts.joined a) (a_key a, v)).
      { exists ([a_quote a] ++ a_raw a ++ [a_quote a]), (a_raw a). split; [exact Ej|]. split; [exact Hk|]. split; [now exists (a_quote a)|exact U]. }
      destruct IH as [(kvs & F & Ek & W)|(good & b & more & kvs & -> & F & C & P)].
      * left. exists ((a_key a, v) :: kvs). split; [now constructor|]. split; [cbn [map fst]; now rewrite Ek|].
        constructor; [|easy]. destruct Ha as (H1 & H2 & H3 & H4 & H5 & H6 & H7 & _). do 7 (split; [easy|]). exists v. now apply unescape_exact.
      * right. exists (a :: good), b, more, ((a_key a, v) :: kvs). split; [easy|]. split; [now constructor|easy].
    + right. exists [], a, l, []. split; [easy|]. split; [constructor|]. split; [|now apply unescape_exact].
      exists (a_key a), ([a_quote a] ++ a_raw a ++ [a_quote a]), (a_raw a). split; [exact Ej|]. split; [exact Hk|]. split; [now exists (a_quote a)|exact U].
Qed.
Lemma head_outcome (outermost : Prop) nm p n l w o : named nm p n -> Forall (attr_shape any_str) l -> ws w -> o = [] \/ o = lit "/" ->
  (outermost -> forall q, p = Some q -> In (lit "xmlns:" ++ q) (map a_key l)) ->
  let t := lit "<" ++ head_print nm l ++ w ++ o ++ lit ">" in
  Forall attr_wf l /\ element_reads outermost t nm \/ element_crash t.
Proof.
  intros Hn Hl Hw Ho Ht t. destruct (named_xml _ _ _ Hn) as [Hx Hp].
  pose proof (head_parts nm l w o Hx Hl Hw Ho) as P. fold t in P.
  destruct (attrs_outcome l Hl) as [(kvs & F & Ek & W)|(good & a & more & kvs & -> & F & C & _)].
  - left. split; [easy|]. exists (map PrintFacts.joined l), kvs, n. split; [easy|]. split; [easy|]. split.
    + intros Hom q nm' En Hq. rewrite Ek. apply (Ht Hom). destruct Hn as [m Hm Hc|q' m Hm Hc Hm'].
      * exfalso. apply Hc. rewrite En. apply in_or_app. right. now left.
      * apply split_colon in En; [|easy|easy]. now destruct En as [-> _].
    + split; [destruct Hn as [m Hm Hc|q' m Hm Hc Hm']; [now left|right; now exists q']|]. split; [now apply plain_valid|].
      apply Forall_forall. intros x Hi. apply (in_map fst) in Hi. rewrite Ek in Hi. apply in_map_iff in Hi. destruct Hi as (a & <- & Hi).
      rewrite Forall_forall in W. apply W in Hi. apply plain_valid. now destruct Hi as (_ & _ & Hk & _).
  - right. exists nm, (map PrintFacts.joined good), kvs, (PrintFacts.joined a), (map PrintFacts.joined more). split; [|easy].
    rewrite map_app in P. exact P.
Qed.
Fixpoint item_grouped (i : citem) : Prop :=
  match i with
  | CEmpty _ l _ => grouped l
  | CElem _ l _ b _ => grouped l /\ body_grouped b
  | _ => True
  end
with body_grouped (b : cbody) : Prop :=
  match b with
  | BEnd _ => True
  | BItem _ i b => item_grouped i /\ body_grouped b
  end.
Lemma head_formed nm l w o : xml_name nm -> Forall (attr_shape any_str) l -> grouped l -> ws w -> o = [] \/ o = lit "/" ->
  formed (lit "<" ++ head_print nm l ++ w ++ o ++ lit ">").
Proof.
  intros Hx Hl Hg Hw Ho. apply formed_check. unfold head_print. rewrite <- app_assoc.
  apply (check_ok [] nm (flat_map attr_print l) w o); [now left|easy|now apply (attrs_match (R := any_str))|easy|easy].
Qed.

(** * Reading on until something cannot be decoded *)

Lemma text_outcome names t : names <> [] -> no_tag t -> text_wf t /\ text_fine names t \/ ~ ws t /\ unescapes t None.
Proof.
  intros Hn Ht. destruct (is_blank t) eqn:B.
  - apply is_blank_spec in B. left. split; [split; [easy|now left]|now left].
  - apply is_blank_false in B. destruct (unescapes_total _ t (le_n _)) as [[v|] U].
    + left. split; [split; [easy|]; right; exists v; now apply unescape_exact|]. right. split; [easy|now exists v].
    + now right.
Qed.
Lemma comment_not_short c : lit "<!--" ++ c ++ lit "-->" <> lit "<!-->" /\ lit "<!--" ++ c ++ lit "-->" <> lit "<!--->".
Proof.
  split; intro E; apply (f_equal (@List.length char)) in E; rewrite !app_length in E; cbn in E; lia.
Qed.
Lemma shapes_read s :
  (forall i, item_shape i -> item_grouped i -> forall names txt rest, names <> [] -> no_tag txt ->
     reads s (Inside names) (txt ++ item_print i ++ rest) ->
     crashes s \/ text_wf txt /\ item_wf i /\ reads s (Inside names) rest) /\
  (forall b, body_shape b -> body_grouped b -> forall nm w names rest, xml_name nm -> ws w ->
     reads s (Inside (nm :: names)) (body_print b ++ close_tag nm w ++ rest) ->
     crashes s \/ body_wf b /\ reads s (Inside names) rest).
Proof.
  apply citem_ind2.
  - intros nm l w ((p & n & Hn) & Hl & Hw) Hg names txt rest N Ht R. cbn [item_print item_grouped] in *.
    destruct (named_xml _ _ _ Hn) as [Hx _].
    assert (NT : next_tag_is (txt ++ (lit "<" ++ head_print nm l ++ w ++ lit "/>") ++ rest) txt (empty_tag nm l w) (empty_tag nm l w ++ rest) rest).
    { split; [easy|]. split; [easy|]. pose proof (head_at nm l w (lit "/") rest Hx Hl Hw (or_intror eq_refl)) as T. unfold empty_tag.
      rewrite <- !app_assoc. exact T. }
    destruct (head_tag_first nm l (w ++ lit "/>") Hx) as (F1 & F2 & _).
    pose proof (head_formed nm l w (lit "/") Hx Hl Hg Hw (or_intror eq_refl)) as Fm.
    destruct (text_outcome names txt N Ht) as [[T1 T2]|[T1 T2]].
    2: { left. eapply cr_content; [exact R|exact NT|now apply cc_text]. }
    destruct (head_outcome (names = []) nm p n l w (lit "/") Hn Hl Hw (or_intror eq_refl)) as [[W E]|C]; [easy| |].
    + right. split; [easy|]. split; [cbn; split; [eauto|]; now split|]. eapply rd_tag; [exact R|exact NT|exact T2|].
      apply tf_single with nm; try easy. destruct (empty_opening nm l w Hx Hl Hw). easy.
    + left. eapply cr_content; [exact R|exact NT|]. now apply cc_element.
  - intros nm l w b IH w' ((p & n & Hn) & Hl & Hw & Hb & Hw') [Hg Hgb] names txt rest N Ht R. cbn [item_print] in *.
    destruct (named_xml _ _ _ Hn) as [Hx _].
    assert (NT : next_tag_is (txt ++ (lit "<" ++ head_print nm l ++ w ++ lit ">" ++ body_print b ++ lit "</" ++ nm ++ w' ++ lit ">") ++ rest) txt
      (open_tag nm l w) (open_tag nm l w ++ body_print b ++ close_tag nm w' ++ rest) (body_print b ++ close_tag nm w' ++ rest)).
    { split; [unfold open_tag, close_tag; now rewrite <- !app_assoc|]. split; [easy|].
      pose proof (head_at nm l w [] (body_print b ++ close_tag nm w' ++ rest) Hx Hl Hw (or_introl eq_refl)) as T. unfold open_tag.
      rewrite <- !app_assoc. exact T. }
    destruct (head_tag_first nm l (w ++ lit ">") Hx) as (F1 & F2 & _).
    pose proof (head_formed nm l w [] Hx Hl Hg Hw (or_introl eq_refl)) as Fm.
    destruct (text_outcome names txt N Ht) as [[T1 T2]|[T1 T2]].
    2: { left. eapply cr_content; [exact R|exact NT|now apply cc_text]. }
    destruct (head_outcome (names = []) nm p n l w [] Hn Hl Hw (or_introl eq_refl)) as [[W E]|C]; [easy| |].
    + assert (R' : reads s (Inside (nm :: names)) (body_print b ++ close_tag nm w' ++ rest)).
      { eapply rd_tag; [exact R|exact NT|exact T2|]. apply tf_open; try easy. now apply (open_not_empty (R := any_str)). }
      destruct (IH Hb Hgb nm w' names rest Hx Hw' R') as [C|[Wb R2]]; [now left|right].
      split; [easy|]. split; [|easy]. cbn [item_wf]. split; [eauto|]. split; [now split|]. easy.
    + left. eapply cr_content; [exact R|exact NT|]. now apply cc_element.
  - intros c Hc _ names txt rest N Ht R. cbn [item_print] in *.
    assert (NT : next_tag_is (txt ++ (lit "<!--" ++ c ++ lit "-->") ++ rest) txt (lit "<!--" ++ c ++ lit "-->") ((lit "<!--" ++ c ++ lit "-->") ++ rest) rest).
    { split; [easy|]. split; [easy|]. rewrite <- !app_assoc. now apply comment_at. }
    destruct (text_outcome names txt N Ht) as [[T1 T2]|[T1 T2]].
    + right. split; [easy|]. split; [easy|]. eapply rd_tag; [exact R|exact NT|exact T2|].
      apply tf_comment; [easy|now exists (c ++ lit "-->")|apply comment_not_short..].
    + left. eapply cr_content; [exact R|exact NT|now apply cc_text].
  - intros c Hc _ names txt rest N Ht R. cbn [item_print] in *.
    assert (NT : next_tag_is (txt ++ (lit "<![CDATA[" ++ c ++ lit "]]>") ++ rest) txt (lit "<![CDATA[" ++ c ++ lit "]]>") ((lit "<![CDATA[" ++ c ++ lit "]]>") ++ rest) rest).
    { split; [easy|]. split; [easy|]. rewrite <- !app_assoc. now apply cdata_at. }
    destruct (text_outcome names txt N Ht) as [[T1 T2]|[T1 T2]].
    + right. split; [easy|]. split; [easy|]. eapply rd_tag; [exact R|exact NT|exact T2|].
      apply tf_cdata; [easy|now exists (c ++ lit "]]>")].
    + left. eapply cr_content; [exact R|exact NT|now apply cc_text].
  - intros t Ht _ nm w names rest Hx Hw R. cbn [body_print] in *.
    assert (NT : next_tag_is (t ++ close_tag nm w ++ rest) t (close_tag nm w) (close_tag nm w ++ rest) rest).
    { split; [easy|]. split; [easy|]. now apply close_at. }
    destruct (text_outcome (nm :: names) t ltac:(easy) Ht) as [[T1 T2]|[T1 T2]].
    + right. split; [easy|]. eapply rd_tag; [exact R|exact NT|exact T2|].
      apply tf_close with nm; [easy|now exists (nm ++ w ++ lit ">")| |].
      * apply formed_check. exact (check_ok (lit "/") nm [] w [] (or_intror eq_refl) Hx ltac:(constructor) Hw (or_introl eq_refl)).
      * exists [], w, []. split; [reflexivity|]. split; [apply ws_nil|]. split; [easy|]. right. split; [easy|].
        intros [x E]. destruct (last_of_head (R := any_str) nm [] w Hx (Forall_nil _) Hw) as (a & c & Eh & Hc).
        unfold head_print in Eh. cbn [flat_map] in Eh. rewrite app_nil_r in Eh. rewrite Eh in E. apply app_inj_tail in E. now destruct E as [_ E].
    + left. eapply cr_content; [exact R|exact NT|now apply cc_text].
  - intros t i IHi b IHb (Ht & Hi & Hb) [Gi Gb] nm w names rest Hx Hw R. cbn [body_print] in R. rewrite <- !app_assoc in R.
    destruct (IHi Hi Gi (nm :: names) t _ ltac:(easy) Ht R) as [C|(T & Wi & R2)]; [now left|].
    destruct (IHb Hb Gb nm w names rest Hx Hw R2) as [C|(Wb & R3)]; [now left|]. right. split; [|easy]. now cbn [body_wf].
Qed.

(** * From what is written back to the document *)

Lemma storable_tidy : forall e, storable e -> well_named e /\ tidy e.
Proof.
  induction e as [e IH] using elem_ind'. intro S. destruct S as [e Hn Ha Ht Htx Hc Hcd Hk]. split; constructor; try easy.
  - intros c Hi. now apply IH; [|apply Hk].
  - intros [c|t|t|t] Hi; cbn; auto.
  - intros c Hi. now apply IH; [|apply Hk].
Qed.
Lemma tidy_storable : forall e, well_named e -> tidy e -> storable e.
Proof.
  induction e as [e IH] using elem_ind'. intros W T. destruct W as [e Hn Ha Hk]. inversion T as [? T1 T2 T3 T4]; subst. constructor; try easy.
  - intros t Hi. exact (T2 _ Hi).
  - intros t Hi. exact (T2 _ Hi).
  - intros c Hi. apply IH; auto.
Qed.
Lemma encodable_storable : forall e, encodable e -> storable e.
Proof.
  induction e as [e IH] using elem_ind'. intro W. destruct W as [e Hn Ha Ht Htx Hc Hcd Hk]. constructor; try easy.
  - intros k v Hi. now apply Ha in Hi.
  - intros t Hi. now apply Htx.
  - intros c Hi. apply IH; auto.
Qed.
Lemma grouped_src m : grouped (attrs_src m).
Proof. unfold attrs_src. induction (sorted_attrs m) as [|kv l IH]; [constructor|]. cbn [map]. now apply gr_one. Qed.
Lemma body_src_grouped l : (forall c, In (NElem c) l -> item_grouped (item_src c)) -> forall t, body_grouped (body_src t l).
Proof.
  induction l as [|[c|s|s|s] l IH]; intros H t; cbn [body_src body_grouped item_grouped]; try (split; [easy|]); try (apply IH; intros x Hx; apply H; now right); try easy.
  split; [apply H; now left|]. apply IH. intros x Hx. apply H. now right.
Qed.
Lemma item_src_grouped : forall e, item_grouped (item_src e).
Proof.
  induction e as [e IH] using elem_ind'. rewrite item_src_eq. destruct (e_children e) as [|n ch] eqn:E; cbn [item_grouped]; [apply grouped_src|].
  split; [apply grouped_src|]. apply body_src_grouped. exact IH.
Qed.
Lemma indents_grouped : (forall i i', indents i i' -> item_grouped i -> item_grouped i') /\
  (forall b b', indents_body b b' -> body_grouped b -> body_grouped b').
Proof.
  apply indents_ind2; cbn [item_grouped body_grouped]; try easy.
  - intros nm l w b b' w' _ IH [H1 H2]. split; [easy|now apply IH].
  - intros t t' i i' b b' _ _ IHi _ IHb [H1 H2]. split; [now apply IHi|now apply IHb].
Qed.
Lemma indents_wf : (forall i i', indents i i' -> item_wf i' -> item_wf i) /\
  (forall b b', indents_body b b' -> body_wf b' -> body_wf b).
Proof.
  assert (T : forall t t', t = t' \/ ws t /\ ws t' -> text_wf t' -> text_wf t).
  { intros t t' [->|[H _]] W; [easy|]. split; [now apply ws_no_tag|now left]. }
  apply indents_ind2; cbn [item_wf body_wf]; try easy.
  - intros nm l w b b' w' _ IH (H1 & H2 & H3 & H4 & H5). split; [easy|]. split; [easy|]. split; [easy|]. split; [now apply IH|easy].
  - intros t t' i i' b b' H _ IHi _ IHb (H1 & H2 & H3). split; [now apply (T t t')|]. split; [now apply IHi|now apply IHb].
Qed.
Lemma body_src_read l : no_adjacent_text l -> (forall s, In (NText s) l -> s <> [] /\ ~ blank s) ->
  forall t, (starts_with_text l -> t = []) -> body_wf (body_src t l) ->
  (forall s, In (NText s) l -> rereadable text_special s) /\ (forall c, In (NElem c) l -> item_wf (item_src c)) /\ text_wf t.
Proof.
  induction l as [|n l IH]; intros Ha Hb t Hs W; [easy|].
  assert (Ha' := no_adjacent_tail _ _ Ha).
  assert (Hb' : forall s, In (NText s) l -> s <> [] /\ ~ blank s) by (intros s Hi; apply Hb; now right).
  destruct n as [c|s|s|s]; cbn [body_src body_wf] in W.
  - destruct W as (W1 & W2 & W3). destruct (IH Ha' Hb' [] ltac:(easy) W3) as (I1 & I2 & _).
    split; [intros s [?|Hi]; [easy|now apply I1]|]. split; [|easy]. intros x [Ex|Hi]; [now injection Ex as <-|now apply I2].
  - rewrite Hs in * by now exists s, l. cbn [app] in W. destruct (Hb s (or_introl eq_refl)) as [B1 B2].
    destruct (IH Ha' Hb' (esc_text s)) as (I1 & I2 & I3).
    + intros (s' & r & ->). exfalso. now apply (Ha [] s s' r).
    + exact W.
    + split; [|split; [intros x [?|Hi]; [easy|now apply I2]|apply nil_text_wf]].
      intros x [Ex|Hi]; [injection Ex as <-|now apply I1]. destruct I3 as [_ [I3|I3]]; [|exact I3].
      exfalso. apply (esc_text_not_ws s B1) in B2. apply is_blank_false in B2. contradiction.
  - destruct W as (W1 & W2 & W3). destruct (IH Ha' Hb' [] ltac:(easy) W3) as (I1 & I2 & _).
    split; [intros x [?|Hi]; [easy|now apply I1]|]. split; [|easy]. intros x [Ex|Hi]; [easy|now apply I2].
  - destruct W as (W1 & W2 & W3). destruct (IH Ha' Hb' [] ltac:(easy) W3) as (I1 & I2 & _).
    split; [intros x [?|Hi]; [easy|now apply I1]|]. split; [|easy]. intros x [Ex|Hi]; [easy|now apply I2].
Qed.
Lemma item_src_encodable : forall e, storable e -> item_wf (item_src e) -> encodable e.
Proof.
  induction e as [e IH] using elem_ind'. intros S W. inversion S as [? Hn Ha Ht Htx Hc Hcd Hk]; subst.
  rewrite item_src_eq in W.
  assert (A : attrs_wf (attrs_src (e_attributes e)) -> forall k v, In (k, v) (e_attributes e) -> plain_name k /\ rereadable all_special v).
  { intros [F _] k v Hi. split; [now apply (Ha k v)|]. rewrite Forall_forall in F.
    assert (In (attr_src (k, v)) (attrs_src (e_attributes e))) as Hin by (unfold attrs_src; apply in_map; now apply sorted_in).
    apply F in Hin. destruct Hin as (_ & _ & _ & _ & _ & _ & _ & R). exact R. }
  destruct (e_children e) as [|n ch] eqn:E.
  - cbn [item_wf] in W. constructor; rewrite ?E; try easy. now apply A.
  - cbn [item_wf] in W. destruct W as (_ & W1 & _ & W2 & _). rewrite <- E in *. destruct Ht as [Ht1 Ht2].
    destruct (body_src_read (e_children e) Ht1 (fun s Hi => conj (Htx s Hi) (Ht2 s Hi)) [] (fun _ => eq_refl) W2) as (I1 & I2 & _).
    constructor; try easy.
    + now apply A.
    + intros t Hi. split; [now apply Htx|now apply I1].
    + intros c Hi. apply IH; auto.
Qed.

(** * One cycle *)

Lemma doc_outcome d ind : storable_doc d -> parse_str (doc_to_string_with_indent d ind) = Panic \/ encodable_doc d.
Proof.
  intros (Ho & Nd & Dw & S & Rp). destruct (doc_written d ind Ho) as (i & I & Es). rewrite Nd in Es. cbn [flat_map app] in Es.
  destruct (storable_tidy _ S) as [Wn Td].
  assert (Si : item_shape i) by (apply (proj1 indents_shape _ _ I); now apply item_src_shape).
  assert (Gi : item_grouped i) by (apply (proj1 indents_grouped _ _ I); apply item_src_grouped).
  set (s := doc_to_string_with_indent d ind) in *.
  assert (K : crashes s \/ item_wf i).
  2: { destruct K as [K|K]; [left; now apply C64_panics|right]. split; [easy|]. split; [easy|]. split; [easy|]. split; [|easy].
       apply item_src_encodable; [easy|]. now apply (proj1 indents_wf _ _ I). }
  assert (exists toks, reads s (Before toks) (gap_of (declaration d) ++ item_print i ++ [10%N])) as [toks R].
  { rewrite Es. destruct (declaration d) as [x|] eqn:Ed; cbn [decl_text gap_of app].
    - eexists. eapply rd_prolog with (rest := _) (txt := []) (t := lit "<?" ++ x ++ lit "?>"); [apply rd_start| |apply ws_nil|].
      + assert (((lit "<?" ++ x ++ lit "?>" ++ [10%N]) ++ item_print i ++ [10%N]) = lit "<?" ++ x ++ lit "?>" ++ [10%N] ++ item_print i ++ [10%N]) as ->
          by now rewrite <- !app_assoc.
        split; [reflexivity|]. split; [easy|]. apply (decl_at x ([10%N] ++ item_print i ++ [10%N])). now apply Dw.
      + destruct (Dw x eq_refl) as ([r Er] & _). split; [right; exists (r ++ lit "?>"); rewrite Er; reflexivity|]. split; [now left|].
        intros [[r' F] _]. discriminate.
    - exists []. apply rd_start. }
  assert (Wg : ws (gap_of (declaration d))) by (destruct (declaration d); [now repeat constructor|apply ws_nil]).
  rewrite item_src_eq in I. inversion S as [? Hn Ha Ht Htx Hc Hcd Hk]; subst.
  set (e := root_element d) in *. set (l := attrs_src (e_attributes e)) in *.
  assert (Hr : forall q, e_prefix e = Some q -> In (lit "xmlns:" ++ q) (map a_key l)).
  { intros q Eq. specialize (Rp q Eq). unfold get_attr in Rp. destruct (aget (lit "xmlns:" ++ q) (e_attributes e)) as [v|] eqn:Ev; [|easy].
    apply aget_in in Ev. unfold l, attrs_src. rewrite map_map. apply in_map_iff. exists (lit "xmlns:" ++ q, v). split; [easy|]. now apply sorted_in. }
  destruct (named_xml _ _ _ Hn) as [Hx _].
  assert (P : forall r, ~ prolog_like (lit "<" ++ head_print (qualified e) l ++ r)).
  { intros r [H|H]; now apply (head_tag_first (qualified e) l r Hx) in H. }
  destruct (e_children e) as [|n0 ch] eqn:E; inversion I as [nm l' w|nm l' w b b' w' I'| |]; subst i.
  - rename nm into nm0. subst. cbn [item_print item_shape item_grouped] in *. destruct Si as (_ & Sl & Sw).
    assert (NT : next_tag_is (gap_of (declaration d) ++ (lit "<" ++ head_print (qualified e) l ++ [] ++ lit "/>") ++ [10%N]) (gap_of (declaration d))
      (empty_tag (qualified e) l []) (empty_tag (qualified e) l [] ++ [10%N]) [10%N]).
    { split; [easy|]. split; [now apply ws_no_tag|]. pose proof (head_at (qualified e) l [] (lit "/") [10%N] Hx Sl Sw (or_intror eq_refl)) as T. unfold empty_tag.
      rewrite <- !app_assoc. exact T. }
    destruct (head_tag_first (qualified e) l ([] ++ lit "/>") Hx) as (F1 & F2 & _).
    pose proof (head_formed (qualified e) l [] (lit "/") Hx Sl Gi Sw (or_intror eq_refl)) as Fm.
    destruct (head_outcome True _ _ _ l [] (lit "/") Hn Sl Sw (or_intror eq_refl) (fun _ => Hr)) as [[W _]|C].
    + right. cbn [item_wf]. split; [eauto|]. split; [now split|easy].
    + left. eapply cr_root; [exact R|exact NT|exact Wg|apply P|exact F2|exact Fm|exact C].
  - subst. cbn [item_print item_shape item_grouped] in *. destruct Si as (_ & Sl & Sw & Sb & _). destruct Gi as [Gl Gb].
    assert (NT : next_tag_is (gap_of (declaration d) ++ (lit "<" ++ head_print (qualified e) l ++ [] ++ lit ">" ++ body_print b' ++ lit "</" ++ qualified e ++ [] ++ lit ">") ++ [10%N])
      (gap_of (declaration d)) (open_tag (qualified e) l []) (open_tag (qualified e) l [] ++ body_print b' ++ close_tag (qualified e) [] ++ [10%N]) (body_print b' ++ close_tag (qualified e) [] ++ [10%N])).
    { split; [unfold open_tag, close_tag; now rewrite <- !app_assoc|]. split; [now apply ws_no_tag|].
      pose proof (head_at (qualified e) l [] [] (body_print b' ++ close_tag (qualified e) [] ++ [10%N]) Hx Sl Sw (or_introl eq_refl)) as T. unfold open_tag.
      rewrite <- !app_assoc. exact T. }
    destruct (head_tag_first (qualified e) l ([] ++ lit ">") Hx) as (F1 & F2 & _).
    pose proof (head_formed (qualified e) l [] [] Hx Sl Gl Sw (or_introl eq_refl)) as Fm.
    destruct (head_outcome True _ _ _ l [] [] Hn Sl Sw (or_introl eq_refl) (fun _ => Hr)) as [[W Er]|C].
    + assert (R' : reads s (Inside [qualified e]) (body_print b' ++ close_tag (qualified e) [] ++ [10%N])).
      { eapply rd_root; [exact R|exact NT|exact Wg|apply P|exact F2|exact Fm|exact Er|now apply (open_not_empty (R := any_str))]. }
      destruct (proj2 (shapes_read s) b' Sb Gb (qualified e) [] [] [10%N] Hx ws_nil R') as [C|[Wb _]]; [now left|right].
      cbn [item_wf]. split; [eauto|]. split; [now split|easy].
    + left. eapply cr_root; [exact R|exact NT|exact Wg|apply P|exact F2|exact Fm|exact C].
Qed.

(** * The text or value that cannot be decoded *)

Lemma rereadable_or set t : good_set set -> rereadable set t \/ rereads set (width t) t None.
Proof.
  intro G. destruct (rereads_total set G _ t (width t) (le_n _) (or_intror eq_refl)) as [[r|] R]; [left|now right].
  exists r. now apply (again_exact set G).
Qed.
Lemma not_both set t : good_set set -> rereadable set t -> rereads set (width t) t None -> False.
Proof. intros G [r H] R. apply (again_exact set G) in R. congruence. Qed.
Lemma all_or {A} (P Q : A -> Prop) (l : list A) : (forall x, In x l -> P x \/ Q x) -> (forall x, In x l -> P x) \/ exists x, In x l /\ Q x.
Proof.
  induction l as [|x l IH]; intro H; [now left|]. destruct (H x (or_introl eq_refl)) as [Hp|Hq]; [|right; exists x; split; [now left|easy]].
  destruct IH as [I|(y & Hy & Q')]; [intros y Hy; apply H; now right| |right; exists y; split; [now right|easy]].
  left. intros y [<-|Hy]; auto.
Qed.
Lemma encodable_or : forall e, storable e -> encodable e \/ undecodable e.
Proof.
  induction e as [e IH] using elem_ind'. intro S. inversion S as [? Hn Ha Ht Htx Hc Hcd Hk]; subst.
  destruct (all_or (fun kv => rereadable all_special (snd kv)) (fun kv => rereads all_special (width (snd kv)) (snd kv) None) (e_attributes e)) as [H1|([k v] & Hi & U)].
  { intros kv _. apply rereadable_or, good_all. }
  2: { right. right. exists v. split; [now apply hv_here with k|exact U]. }
  destruct (all_or (fun n => (forall t, n = NText t -> rereadable text_special t) /\ (forall c, n = NElem c -> encodable c))
    (fun n => (exists t, n = NText t /\ rereads text_special (width t) t None) \/ (exists c, n = NElem c /\ undecodable c)) (e_children e)) as [H2|(n & Hi & U)].
  { intros n Hi. destruct n as [c|t|t|t]; [| |left; now split|left; now split].
    - destruct (IH c Hi (Hk c Hi)) as [K|K]; [left; split; [easy|]; intros x Ex; now injection Ex as <-|right; right; now exists c].
    - destruct (rereadable_or text_special t good_text) as [K|K]; [left; split; [|easy]; intros x Ex; now injection Ex as <-|right; left; now exists t]. }
  - left. constructor; try easy.
    + intros k v Hi. split; [now apply (Ha k v)|]. now apply (H1 (k, v)).
    + intros t Hi. split; [now apply Htx|]. now apply (H2 (NText t)).
    + intros c Hi. now apply (H2 (NElem c)).
  - right. destruct U as [(t & -> & U)|(c & -> & [(t & H & U)|(v & H & U)])].
    + left. exists t. split; [now apply ht_here|exact U].
    + left. exists t. split; [now apply ht_below with c|exact U].
    + right. exists v. split; [now apply hv_below with c|exact U].
Qed.
Lemma encodable_text e t : has_text e t -> encodable e -> rereadable text_special t.
Proof. induction 1 as [e t Hi|e c t Hi H IH]; intro W; inversion W as [? Hn Ha Ht Htx Hc Hcd Hk]; subst; [now apply Htx|auto]. Qed.
Lemma encodable_value e v : has_value e v -> encodable e -> rereadable all_special v.
Proof. induction 1 as [e k v Hi|e c v Hi H IH]; intro W; inversion W as [? Hn Ha Ht Htx Hc Hcd Hk]; subst; [now apply (Ha k v)|auto]. Qed.
Lemma encodable_not e : encodable e -> undecodable e -> False.
Proof.
  intros W [(t & H & U)|(v & H & U)].
  - apply (not_both text_special t good_text); [now apply encodable_text with e|exact U].
  - apply (not_both all_special v good_all); [now apply encodable_value with e|exact U].
Qed.
Theorem panics_exactly d ind : storable_doc d -> (parse_str (doc_to_string_with_indent d ind) = Panic <-> undecodable (root_element d)).
Proof.
  intro S. split; intro H.
  - destruct (encodable_or (root_element d)) as [W|U]; [now destruct S as (_ & _ & _ & S & _)| |exact U].
    assert (encodable_doc d) as E by (destruct S as (S1 & S2 & S3 & _ & S5); now repeat (split; [easy|])).
    rewrite (doc_read_back d ind E) in H. discriminate.
  - destruct (doc_outcome d ind S) as [P|E]; [exact P|]. exfalso. apply encodable_not with (root_element d); [now destruct E as (_ & _ & _ & E & _)|exact H].
Qed.

(** * The tree that is read *)

Definition again (set : list char) (t t' : str) : Prop := unescape (flat_map (escape_char set) t) = Ok t'.
Lemma src_last_value k m : map_ok m -> last_value k (attrs_src m) = option_map esc_attr (aget k m).
Proof.
  intro H. assert (forall l, map_ok l -> last_value k (map attr_src l) = option_map esc_attr (aget k l)) as K.
  { induction l as [|[k' v] l IH]; intro N; [easy|]. unfold map_ok in N. cbn [akeys map fst] in N. inversion N as [|? ? N1 N2]; subst.
    cbn [map last_value attr_src a_key a_raw fst snd]. rewrite IH by exact N2. unfold aget. cbn [mget]. fold (aget k l). destruct (str_eqb k k') eqn:E.
    - apply str_eqb_eq in E. subst k'. rewrite (proj2 (aget_none k l) N1). cbn. now rewrite str_eqb_refl.
    - destruct (aget k l); cbn; [easy|]. destruct (str_eqb k' k) eqn:E'; [|easy]. apply str_eqb_eq in E'. subst. now rewrite str_eqb_refl in E. }
  unfold attrs_src. rewrite K.
  - f_equal. apply aget_same; [easy|apply sort_by_perm].
  - unfold map_ok, akeys in *. eapply Permutation_NoDup; [apply Permutation_map, Permutation_sym, sort_by_perm|easy].
Qed.
Lemma nil_means l : text_means [] l -> l = [].
Proof. intro H. inversion H as [t B|t v B|t v B]; subst; [easy|exfalso; apply B, ws_nil..]. Qed.
Lemma text_back s l : s <> [] -> ~ blank s -> text_means (esc_text s) l -> exists v, l = [NText v] /\ again text_special s v.
Proof.
  intros N B H. pose proof (esc_text_not_ws s N B) as W. apply is_blank_false in W. inversion H as [t B'|t v B' U Bl|t v B' U Bl]; subst.
  - contradiction.
  - exfalso. pose proof (proj1 (proj1 (again_exact text_special good_text s) v) U) as R.
    apply (rereads_escaped text_special) with (r := v) in R; [|easy]. apply B. split; [easy|]. destruct Bl as [_ Bl].
    clear - R Bl. induction R as [|c t r R IH|c t r Hc R IH]; [constructor|inversion Bl; subst; constructor; [easy|now apply IH]|].
    exfalso. destruct (special text_special good_text c Hc) as (nm & _ & E & _). rewrite E in Bl. inversion Bl as [|? ? X]; subst. discriminate X.
  - now exists v.
Qed.
Lemma rewords : forall e, elem_ok e -> encodable e -> forall e', item_means (item_src e) (NElem e') ->
  reworded (again text_special) (again all_special) e e'.
Proof.
  induction e as [e IH] using elem_ind'. intros Ho W e' M. inversion W as [? Hn Ha Ht Htx Hc Hcd Hk]; subst.
  apply elem_ok_inv in Ho. destruct Ho as (Hm & _ & Hoc).
  assert (A : head_means (qualified e) (attrs_src (e_attributes e)) e' ->
    e_name e' = e_name e /\ e_prefix e' = e_prefix e /\
    (forall k, match get_attr e k with None => get_attr e' k = None | Some v => exists v', get_attr e' k = Some v' /\ again all_special v v' end)).
  { intros [Hn' Hv]. destruct (named_fun _ _ _ _ _ Hn Hn') as [Ep En]. split; [easy|]. split; [easy|]. intro k. specialize (Hv k).
    rewrite src_last_value in Hv by easy. unfold get_attr at 1. destruct (aget k (e_attributes e)) as [v|]; cbn [option_map] in Hv; [|exact Hv].
    destruct Hv as (v' & U & G). now exists v'. }
  rewrite item_src_eq in M. destruct (e_children e) as [|n0 ch] eqn:E.
  - inversion M as [nm l w x HM HC| | |]; subst. destruct (A HM) as (A1 & A2 & A3). constructor; try easy. rewrite E, HC. constructor.
  - rewrite <- E in *. clear E n0 ch. remember (body_src [] (e_children e)) as b0 eqn:E0.
    inversion M as [|nm l w b w' x HM HB| |]; subst nm l w b w' x b0. destruct (A HM) as (A1 & A2 & A3). constructor; try easy. clear M HM A A1 A2 A3.
    assert (K : forall l, (forall c, In (NElem c) l -> In (NElem c) (e_children e)) -> (forall t, In (NText t) l -> t <> []) -> text_normal l -> forall l',
      (body_means (body_src [] l) l' -> reworded_nodes (again text_special) (again all_special) l l') /\
      (~ starts_with_text l -> forall s, s <> [] -> ~ blank s -> body_means (body_src (esc_text s) l) l' ->
        reworded_nodes (again text_special) (again all_special) (NText s :: l) l')).
    { induction l as [|n l IHl]; intros L1 L2 [L3 L4] l'.
      - cbn [body_src]. split.
        + intro B. inversion B as [t x T|]; subst. apply nil_means in T. subst l'. constructor.
        + intros _ s N1 N2 B. inversion B as [t x T|]; subst. destruct (text_back s l' N1 N2 T) as (v & -> & Av). constructor; [exact Av|constructor].
      - assert (IHl' := IHl (fun c Hi => L1 c (or_intror Hi)) (fun t Hi => L2 t (or_intror Hi)) (conj (no_adjacent_tail _ _ L3) (fun s Hi => L4 s (or_intror Hi)))).
        assert (IHn : forall i l2, (forall n', item_means i n' -> forall m, reworded_nodes (again text_special) (again all_special) l m ->
            reworded_nodes (again text_special) (again all_special) (n :: l) (n' :: m)) ->
          (body_means (BItem [] i (body_src [] l)) l2 -> reworded_nodes (again text_special) (again all_special) (n :: l) l2) /\
          (forall s, s <> [] -> ~ blank s -> body_means (BItem (esc_text s) i (body_src [] l)) l2 -> reworded_nodes (again text_special) (again all_special) (NText s :: n :: l) l2)).
        { intros i l2 Hi. split.
          - intro B. inversion B as [|t x i' n' b' m T I' B']; subst. apply nil_means in T. subst x. cbn [app]. apply Hi; [easy|]. now apply IHl'.
          - intros s N1 N2 B. inversion B as [|t x i' n' b' m T I' B']; subst. destruct (text_back s x N1 N2 T) as (v & -> & Av). cbn [app].
            constructor; [exact Av|]. apply Hi; [easy|]. now apply IHl'. }
        destruct n as [c|s|s|s]; cbn [body_src].
        + destruct (IHn (item_src c) l') as [I1 I2].
          { intros n' I' m Rm. assert (exists c', n' = NElem c') as [c' ->] by (rewrite item_src_eq in I'; destruct (e_children c); inversion I'; eauto).
            constructor; [|exact Rm]. apply IH; [apply L1; now left|apply Hoc, L1; now left|apply Hk, L1; now left|exact I']. }
          split; [exact I1|]. intros _ s N1 N2. now apply I2.
        + split.
          * apply IHl'; [|apply L2; now left|apply L4; now left]. intros (s' & r & ->). now apply (L3 [] s s' r).
          * intro N. exfalso. apply N. now exists s, l.
        + destruct (IHn (CComment s) l') as [I1 I2]; [intros n' I' m Rm; inversion I'; subst; now constructor|].
          split; [exact I1|]. intros _ s' N1 N2. now apply I2.
        + destruct (IHn (CCData s) l') as [I1 I2]; [intros n' I' m Rm; inversion I'; subst; now constructor|].
          split; [exact I1|]. intros _ s' N1 N2. now apply I2. }
    apply (K (e_children e)); [easy|intros t Hi; now apply Htx|easy|exact HB].
Qed.
Lemma back_reworded d : encodable_doc d -> reworded (again text_special) (again all_special) (root_element d) (root_element (back d)).
Proof.
  intros (Ho & _ & _ & W & _). apply rewords; [easy|easy|]. pose proof (proj1 (proj1 items_meant _ (item_src_wf _ W) None)) as M.
  unfold back, document_of, root_of, root_element. cbn [d_root x_root doc_src]. fold (root_element d).
  rewrite item_src_eq in *. destruct (e_children (root_element d)); exact M.
Qed.
Lemma reworded_in f g l l' : reworded_nodes f g l l' ->
  (forall t', In (NText t') l' -> exists t, In (NText t) l /\ f t t') /\
  (forall c', In (NElem c') l' -> exists c, In (NElem c) l /\ reworded f g c c') /\
  (forall t, In (NText t) l -> exists t', In (NText t') l' /\ f t t') /\
  (forall c, In (NElem c) l -> exists c', In (NElem c') l' /\ reworded f g c c').
Proof.
  induction 1 as [|e e' l l' H _ (I1 & I2 & I3 & I4)|t t' l l' H _ (I1 & I2 & I3 & I4)|c l l' _ (I1 & I2 & I3 & I4)|c l l' _ (I1 & I2 & I3 & I4)]; [easy| | | |];
    (split; [|split; [|split]]); intros x [E|Hi]; try discriminate;
    try (destruct (I1 x Hi) as (y & Hy & Fy); exists y; split; [now right|exact Fy]);
    try (destruct (I2 x Hi) as (y & Hy & Fy); exists y; split; [now right|exact Fy]);
    try (destruct (I3 x Hi) as (y & Hy & Fy); exists y; split; [now right|exact Fy]);
    try (destruct (I4 x Hi) as (y & Hy & Fy); exists y; split; [now right|exact Fy]);
    injection E as <-; eexists; (split; [now left|exact H]).
Qed.
Lemma again_again set t r : good_set set -> again set t r -> rereadable set r.
Proof.
  intros G H. apply (again_exact set G) in H. destruct (rereads_again set G _ _ _ H r eq_refl) as (r' & R & _).
  exists r'. apply (again_exact set G). now rewrite (rereads_width set G t r H).
Qed.
Lemma reworded_encodable : forall e e', tidy e' -> elem_ok e' -> encodable e ->
  reworded (again text_special) (again all_special) e e' -> encodable e'.
Proof.
  induction e as [e IH] using elem_ind'. intros e' T O W R. inversion R as [? ? En Ep Ea Rn]; inversion T as [? T1 T2 T3 T4]; subst.
  inversion W as [? Hn Ha Ht Htx Hc Hcd Hk]; subst. apply elem_ok_inv in O. destruct O as (Om & _ & Oc).
  destruct (reworded_in _ _ _ _ Rn) as (I1 & I2 & _ & _). constructor; try easy.
  - unfold qualified in *. now rewrite En, Ep.
  - intros k v' Hi. apply (in_aget) in Hi; [|easy]. specialize (Ea k). unfold get_attr in Ea.
    destruct (aget k (e_attributes e)) as [v|] eqn:E; [|congruence]. destruct Ea as (v2 & E2 & A). assert (v2 = v') as -> by congruence.
    apply aget_in in E. split; [now apply (Ha k v)|]. now apply again_again with v; [apply good_all|].
  - intros t Hi. split; [exact (T2 _ Hi)|]. destruct (I1 t Hi) as (t0 & _ & A). now apply again_again with t0; [apply good_text|].
  - intros t Hi. exact (T2 _ Hi).
  - intros c Hi. destruct (I2 c Hi) as (c0 & Hi0 & Rc). apply (IH c0 Hi0); auto.
Qed.
Lemma back_encodable d : encodable_doc d -> encodable_doc (back d).
Proof.
  intro W. pose proof (back_reworded d W) as R. pose proof (doc_read_back d [] W) as P.
  destruct (C48_parsed_valid _ _ P) as [V N]. pose proof (accepts_leaves _ _ (parsed_accepts _ _ P)) as L.
  destruct W as (Ho & Hd & Hdecl & W & Hr). pose proof (elem_valid_ok _ V) as O.
  assert (Ed : declaration (back d) = declaration d).
  { unfold back, document_of, doc_src, declaration. cbn [d_declaration x_decl]. now destruct (d_declaration d). }
  split; [exact O|]. split; [reflexivity|]. split; [rewrite Ed; exact Hdecl|]. split.
  - apply (reworded_encodable (root_element d)); [now apply tidy_intro|exact O|exact W|exact R].
  - intros p Ep. inversion R as [? ? _ Ep' Ea _]; subst. rewrite Ep' in Ep. specialize (Hr p Ep). specialize (Ea (lit "xmlns:" ++ p)).
    destruct (get_attr (root_element d) (lit "xmlns:" ++ p)) as [v|]; [|easy]. destruct Ea as (v' & -> & _). discriminate.
Qed.

(** * Many cycles *)

Lemma reworded_refl (f g : str -> str -> Prop) : (forall t, f t t) -> (forall t, g t t) -> forall e, reworded f g e e.
Proof.
  intros Hf Hg. induction e as [e IH] using elem_ind'. constructor; [easy|easy| |].
  - intro k. destruct (get_attr e k) as [v|]; [|easy]. now exists v.
  - induction (e_children e) as [|[c|t|t|t] l IHl]; constructor; try easy; try (apply IHl; intros x Hx; apply IH; now right).
    apply IH. now left.
Qed.
Lemma reworded_compose (f1 g1 f2 g2 f g : str -> str -> Prop) :
  (forall a b c, f1 a b -> f2 b c -> f a c) -> (forall a b c, g1 a b -> g2 b c -> g a c) ->
  forall a b c, reworded f1 g1 a b -> reworded f2 g2 b c -> reworded f g a c.
Proof.
  intros Hf Hg a b c R. revert c.
  apply (reworded_mut f1 g1 (fun a b => forall c, reworded f2 g2 b c -> reworded f g a c)
    (fun l m => forall r, reworded_nodes f2 g2 m r -> reworded_nodes f g l r)) with (e0 := b); [..|exact R].
  - intros e e' En Ep Ea _ IH c Rc. inversion Rc as [? ? En' Ep' Ea' Rn]; subst. constructor; [congruence|congruence| |now apply IH].
    intro k. specialize (Ea k). specialize (Ea' k). destruct (get_attr e k) as [v|].
    + destruct Ea as (v' & E & Gv). rewrite E in Ea'. destruct Ea' as (v2 & E2 & G2). exists v2. split; [easy|]. now apply (Hg v v').
    + now rewrite Ea in Ea'.
  - intros r H. inversion H. constructor.
  - intros e e' l l' _ I1 _ I2 r H. inversion H; subst. constructor; [now apply I1|now apply I2].
  - intros t t' l l' F _ I2 r H. inversion H; subst. constructor; [now apply (Hf t t')|now apply I2].
  - intros x l l' _ I2 r H. inversion H; subst. constructor. now apply I2.
  - intros x l l' _ I2 r H. inversion H; subst. constructor. now apply I2.
Qed.
Definition after (set : list char) (n : nat) (t t' : str) : Prop :=
  times (fun t => unescape (flat_map (escape_char set) t)) n t = Ok t'.
Theorem stored_reworded : forall inds d, encodable_doc d -> exists d', stored inds d = Ok d' /\ encodable_doc d' /\
  declaration d' = declaration d /\ doctype_defs d' = doctype_defs d /\
  reworded (after text_special (List.length inds)) (after all_special (List.length inds)) (root_element d) (root_element d').
Proof.
  induction inds as [|ind inds IH]; intros d W.
  - exists d. split; [easy|]. split; [easy|]. split; [easy|]. split; [easy|]. now apply reworded_refl.
  - cbn [stored]. rewrite (doc_read_back d ind W). cbn [bind]. destruct (IH (back d) (back_encodable d W)) as (d' & E & W' & Ed & Et & R).
    exists d'. split; [exact E|]. split; [exact W'|]. split; [|split].
    + rewrite Ed. unfold back, document_of, doc_src, declaration. cbn [d_declaration x_decl]. now destruct (d_declaration d).
    + rewrite Et. destruct W as (_ & -> & _). reflexivity.
    + eapply reworded_compose; [| |exact (back_reworded d W)|exact R]; unfold again, after; cbn [times List.length]; intros a b c -> H; exact H.
Qed.
(** The document stays the same if the texts and values do. *)
Lemma repeated_fixed set t : unescape (flat_map (escape_char set) t) = Ok t -> forall n, after set n t t.
Proof. intros H n. induction n as [|n IH]; [easy|]. unfold after in *. cbn [times]. now rewrite H. Qed.
Theorem parsed_storable s d pr el : parse_str s = Ok d -> one_root s pr el -> doctype_defs d = [] -> well_named (root_element d) -> storable_doc d.
Proof.
  intros H O D W. destruct (C48_parsed_valid _ _ H) as [V N]. pose proof (parsed_accepts _ _ H) as A.
  pose proof (accepts_leaves _ _ A) as L. split; [now apply elem_valid_ok|]. split; [easy|]. split; [|split].
  - intros x Ex. exact (accepted_decl _ _ _ A Ex).
  - apply tidy_storable; [easy|now apply tidy_intro].
  - intros p Ep. exact (C39_root_declared s d pr el p H O Ep).
Qed.

(** * Three fates *)

Lemma reworded_text (f g : str -> str -> Prop) e t : has_text e t -> forall e', reworded f g e e' -> exists t', has_text e' t' /\ f t t'.
Proof.
  induction 1 as [e t Hi|e c t Hi H IH]; intros e' R; inversion R as [? ? _ _ _ Rn]; subst; destruct (reworded_in _ _ _ _ Rn) as (_ & _ & I3 & I4).
  - destruct (I3 t Hi) as (t' & Hi' & F). exists t'. split; [now constructor|exact F].
  - destruct (I4 c Hi) as (c' & Hi' & Rc). destruct (IH c' Rc) as (t' & H' & F). exists t'. split; [now apply ht_below with c'|exact F].
Qed.
Lemma reworded_value (f g : str -> str -> Prop) e v : has_value e v -> elem_ok e -> forall e', reworded f g e e' -> exists v', has_value e' v' /\ g v v'.
Proof.
  induction 1 as [e k v Hi|e c v Hi H IH]; intros O e' R; inversion R as [? ? _ _ Ea Rn]; subst; apply elem_ok_inv in O; destruct O as (Om & _ & Oc).
  - specialize (Ea k). unfold get_attr in Ea. rewrite (in_aget _ _ _ Om Hi) in Ea. destruct Ea as (v' & E & G). apply aget_in in E.
    exists v'. split; [now apply hv_here with k|exact G].
  - destruct (reworded_in _ _ _ _ Rn) as (_ & _ & _ & I4). destruct (I4 c Hi) as (c' & Hi' & Rc).
    destruct (IH (Oc c Hi) c' Rc) as (v' & H' & F). exists v'. split; [now apply hv_below with c'|exact F].
Qed.
Definition growing (set : list char) (t : str) : Prop := forall n, exists r, after set n t r /\ blen t + 3 * n <= blen r.
Definition some_growing (e : elem) : Prop :=
  (exists t, has_text e t /\ growing text_special t) \/ (exists v, has_value e v /\ growing all_special v).
Lemma three_texts set t : good_set set -> SpecCycle.spaced set t \/ rereads set (width t) t None \/ growing set t.
Proof.
  intro G. destruct (repeated_cases set G t) as [H|[H|H]].
  - left. apply (survives_spaced set G). specialize (H 1). cbn [times bind] in H. now destruct (unescape (flat_map (escape_char set) t)).
  - right. left. apply (again_exact set G). specialize (H 0). cbn [times bind] in H. now destruct (unescape (flat_map (escape_char set) t)).
  - right. now right.
Qed.
Lemma three_elems : forall e, encodable e -> all_spaced e \/ some_growing e.
Proof.
  induction e as [e IH] using elem_ind'. intro W. inversion W as [? Hn Ha Ht Htx Hc Hcd Hk]; subst.
  destruct (all_or (fun kv => SpecCycle.spaced all_special (snd kv)) (fun kv => growing all_special (snd kv)) (e_attributes e)) as [H1|([k v] & Hi & U)].
  { intros [k v] Hi. cbn [snd]. destruct (three_texts all_special v good_all) as [K|[K|K]]; [now left| |now right].
    exfalso. apply (not_both all_special v good_all); [now apply (Ha k v)|exact K]. }
  2: { right. right. exists v. split; [now apply hv_here with k|exact U]. }
  destruct (all_or (fun n => (forall t, n = NText t -> SpecCycle.spaced text_special t) /\ (forall c, n = NElem c -> all_spaced c))
    (fun n => (exists t, n = NText t /\ growing text_special t) \/ (exists c, n = NElem c /\ some_growing c)) (e_children e)) as [H2|(n & Hi & U)].
  { intros n Hi. destruct n as [c|t|t|t]; [| |left; now split|left; now split].
    - destruct (IH c Hi (Hk c Hi)) as [K|K]; [left; split; [easy|]; intros x Ex; now injection Ex as <-|right; right; now exists c].
    - destruct (three_texts text_special t good_text) as [K|[K|K]]; [left; split; [|easy]; intros x Ex; now injection Ex as <-| |right; left; now exists t].
      exfalso. apply (not_both text_special t good_text); [now apply Htx|exact K]. }
  - left. split.
    + intros t H. inversion H as [? ? Hi|? c ? Hi Hb]; subst; [now apply (H2 (NText t))|]. apply (proj1 (proj2 (H2 (NElem c) Hi) c eq_refl) t Hb).
    + intros v H. inversion H as [? k ? Hi|? c ? Hi Hb]; subst; [now apply (H1 (k, v))|]. apply (proj2 (proj2 (H2 (NElem c) Hi) c eq_refl) v Hb).
  - right. destruct U as [(t & -> & U)|(c & -> & [(t & H & U)|(v & H & U)])].
    + left. exists t. split; [now apply ht_here|exact U].
    + left. exists t. split; [now apply ht_below with c|exact U].
    + right. exists v. split; [now apply hv_below with c|exact U].
Qed.
Lemma spaced_fixed f g e e' : all_spaced e -> elem_ok e -> reworded f g e e' ->
  (forall t t', SpecCycle.spaced text_special t -> f t t' -> t' = t) -> (forall t t', SpecCycle.spaced all_special t -> g t t' -> t' = t) ->
  reworded eq eq e e'.
Proof.
  intros A O R Hf Hg. revert A O.
  apply (reworded_mut f g (fun e e' => all_spaced e -> elem_ok e -> reworded eq eq e e')
    (fun l l' => (forall t, In (NText t) l -> SpecCycle.spaced text_special t) -> (forall c, In (NElem c) l -> all_spaced c /\ elem_ok c) -> reworded_nodes eq eq l l')) with (e0 := e'); [..|exact R].
  - intros x x' En Ep Ea _ IH [A1 A2] O. apply elem_ok_inv in O. destruct O as (Om & _ & Oc). constructor; try easy.
    + intro k. specialize (Ea k). unfold get_attr in *. destruct (aget k (e_attributes x)) as [v|] eqn:E; [|easy]. destruct Ea as (v' & E' & G). exists v'. split; [easy|].
      symmetry. apply Hg; [|exact G]. apply A2. apply aget_in in E. now apply hv_here with k.
    + apply IH.
      * intros t Hi. apply A1. now apply ht_here.
      * intros c Hi. split; [|now apply Oc]. split; [intros t H; apply A1; now apply ht_below with c|intros v H; apply A2; now apply hv_below with c].
  - constructor.
  - intros c c' l l' _ I1 _ I2 B1 B2. constructor; [apply I1; now apply B2; left|]. apply I2; [intros t Hi; apply B1; now right|intros x Hi; apply B2; now right].
  - intros t t' l l' F _ I2 B1 B2. assert (t' = t) as -> by (apply Hf; [apply B1; now left|exact F]). constructor; [easy|].
    apply I2; [intros x Hi; apply B1; now right|intros x Hi; apply B2; now right].
  - intros x l l' _ I2 B1 B2. constructor. apply I2; [intros y Hi; apply B1; now right|intros y Hi; apply B2; now right].
  - intros x l l' _ I2 B1 B2. constructor. apply I2; [intros y Hi; apply B1; now right|intros y Hi; apply B2; now right].
Qed.
Lemma after_fixed set n t t' : good_set set -> SpecCycle.spaced set t -> after set n t t' -> t' = t.
Proof.
  intros G S A. apply (survives_spaced set G) in S. pose proof (repeated_fixed set t S n) as F. unfold after in *. congruence.
Qed.
Lemma encodable_doc_of d : storable_doc d -> encodable (root_element d) -> encodable_doc d.
Proof. intros (S1 & S2 & S3 & _ & S5) W. now repeat (split; [easy|]). Qed.
Lemma spaced_encodable : forall e, storable e -> all_spaced e -> encodable e.
Proof.
  intros e S [A1 A2]. destruct (encodable_or e S) as [W|[(t & H & U)|(v & H & U)]]; [exact W| |]; exfalso.
  - apply (not_both text_special t good_text); [|exact U]. exists t. apply (survives_spaced _ good_text). now apply A1.
  - apply (not_both all_special v good_all); [|exact U]. exists v. apply (survives_spaced _ good_all). now apply A2.
Qed.
Theorem stays d : storable_doc d -> all_spaced (root_element d) -> forall inds, exists d', stored inds d = Ok d' /\
  declaration d' = declaration d /\ doctype_defs d' = doctype_defs d /\ reworded eq eq (root_element d) (root_element d').
Proof.
  intros S A inds. assert (W : encodable_doc d) by (apply encodable_doc_of; [easy|apply spaced_encodable; [apply S|easy]]).
  destruct (stored_reworded inds d W) as (d' & E & _ & E1 & E2 & R). exists d'. split; [exact E|]. split; [exact E1|]. split; [exact E2|].
  apply (spaced_fixed _ _ _ _ A (proj1 S) R); intros t t'; apply after_fixed; [apply good_text|apply good_all].
Qed.
Theorem fates d : storable_doc d -> all_spaced (root_element d) \/ undecodable (root_element d) \/
  encodable (root_element d) /\ some_growing (root_element d).
Proof.
  intro S. destruct (encodable_or (root_element d)) as [W|U]; [apply S| |right; now left].
  destruct (three_elems _ W) as [A|G]; [now left|right; now right].
Qed.
(** A document that is read back as an equal one does not change any more. *)
Theorem writable_stored d : writable_doc d -> exists d', (forall ind inds, stored (ind :: inds) d = Ok d') /\ doc_eqb d' d = true.
Proof.
  intro W. exists (back d). assert (E : forall ind, parse_str (doc_to_string_with_indent d ind) = Ok (back d)) by (intro ind; now apply doc_read_back, writable_doc_encodable).
  split.
  - intros ind inds. cbn [stored]. rewrite E. cbn [bind]. clear ind. induction inds as [|ind inds IH]; [easy|]. cbn [stored].
    rewrite (doc_same_serialization _ _ ind (back_same d W)), E. exact IH.
  - apply doc_eqb_same; [|now destruct W|now apply back_same]. apply elem_valid_ok. now apply (C48_parsed_valid _ _ (E [])).
Qed.

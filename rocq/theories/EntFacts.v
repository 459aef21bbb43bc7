(** Proofs for SpecEntity.v: documents with references as text are read like the
    documents in which these are written with "&amp;". *)
From Coq Require Import List NArith Arith Bool Ascii String Lia.
From Verif Require Import Base BaseFacts Escape Dom Parse Spec EscapeFacts SpecDom DomFacts SpecLex SpecParse LexFacts ParseFacts TagFacts DocFacts AcceptFacts PrologFacts
  SpecEsc UnescFacts SpecDoc PrintFacts PrintDoc TripFacts SpecErr StepFacts ReadFacts LoopFacts SpecMean MeanFacts P_Parse CycleDoc SpecXml XmlFacts SpecConf ConfText ConfLex ConfTag ConfFacts ConfDoc
  SpecEntity EntText EntTag.
Import ListNotations.

Lemma named_app a b : named (a ++ b) -> named a /\ named b.
Proof. intro N. split; intros nm I; apply N, in_or_app; tauto. Qed.
Lemma literal_parts sc nm attrs w : tag_ok sc nm (map literal_attribute attrs) w -> is_name nm /\ Forall attribute_fit attrs /\ spaces w.
Proof. intro O. apply tag_ok_parts in O. destruct O as (Hn & Ha & Hw). apply attributes_fit in Ha. tauto. Qed.
Lemma literal_was_read :
  (forall m sc below sc0, named (markup_pieces m) -> markup_ok sc (literal_markup m) -> fair_markup below sc0 (literal_markup m) -> was_read m) /\
  (forall b sc below sc0, named (content_pieces b) -> content_ok sc (literal_content b) -> fair_content below sc0 (literal_content b) -> was_read_in b).
Proof.
  apply markup_ind2.
  - intros nm attrs w sc below sc0 N O F. destruct (literal_tag_start _ _ _ _ _ w _ O N (or_intror eq_refl) F) as (p & n & _ & _ & _ & Fo & _ & R).
    exists nm. split; [easy|]. now apply R.
  - intros nm attrs w b IH w' sc below sc0 N (O & Ob & Hw') (F & Fb). apply named_app in N. destruct N as [Na Nb].
    destruct (literal_tag_start _ _ _ _ _ w _ O Na (or_introl eq_refl) F) as (p & n & Q & _ & _ & Fo & _ & R). apply qname_name in Q.
    split; [|now apply (IH _ _ _ Nb Ob Fb)]. exists nm. split; [split; [easy|now apply R]|now apply end_closes].
  - intros c sc below sc0 N O F. now destruct F.
  - easy.
  - intros p sc below sc0 N O F. destruct F.
  - easy.
  - intros t m IHm b IHb sc below sc0 N (Ot & Om & Ob) (Ft & Fm & Fb). apply named_app in N. destruct N as [_ N]. apply named_app in N. destruct N as [Nm Nb].
    split; [now apply IHm with sc below sc0|now apply IHb with sc below sc0].
Qed.
Lemma literal_steps :
  (forall m sc below sc0 names txt r, named (markup_pieces m) -> markup_ok sc (literal_markup m) -> fair_markup below sc0 (literal_markup m) -> names <> [] -> no_tag txt -> text_fine names txt ->
     steps (Inside names, txt ++ markup_text m ++ r) (Inside names, r)) /\
  (forall b sc below sc0 names r, named (content_pieces b) -> content_ok sc (literal_content b) -> fair_content below sc0 (literal_content b) -> names <> [] ->
     steps (Inside names, content_text b ++ r) (Inside names, ctail b ++ r) /\ text_fine names (ctail b) /\ no_tag (ctail b)).
Proof.
  apply markup_ind2.
  - intros nm attrs w sc below sc0 names txt r Na O F D N X.
    destruct (literal_tag_start _ _ _ _ _ w _ O Na (or_intror eq_refl) F) as (p & n & Q & _ & _ & Fo & (B1 & B2 & _) & R).
    apply literal_parts in O. destruct O as (Hn & Ha & Hw). rewrite empty_text.
    eapply one_tag; [easy|apply fit_at; tauto|easy|]. apply (tf_single _ _ nm); try easy; [|apply start_self]. now apply R.
  - intros nm attrs w b IH w' sc below sc0 names txt r Nn (O & Ob & Hw') (F & Fb) D N X. apply named_app in Nn. destruct Nn as [Na Nbb].
    destruct (literal_tag_start _ _ _ _ _ w _ O Na (or_introl eq_refl) F) as (p & n & Q & _ & N0 & Fo & (B1 & B2 & _) & R).
    apply literal_parts in O. destruct O as (Hn & Ha & Hw). rewrite elem_text.
    assert (nm :: names <> []) as D' by discriminate.
    destruct (IH _ _ _ (nm :: names) (end_text nm w' ++ r) Nbb Ob Fb D') as (Sb & Xb & Nb).
    eapply steps_trans; [eapply one_tag; [easy|apply fit_at; tauto|easy|]|].
    + apply (tf_open _ _ nm); try easy; [now apply R|now apply fit_open].
    + eapply steps_trans; [exact Sb|]. eapply one_tag; [easy|now apply end_at|easy|].
      apply (tf_close _ _ nm); [easy|apply end_begins|now apply end_formed|now apply end_closes].
  - intros c sc below sc0 names txt r _ O F D N X. exact (proj1 fair_steps (MComment c) sc below sc0 names txt r O F D N X).
  - intros c sc below sc0 names txt r _ O F D N X. exact (proj1 fair_steps (MCData c) sc below sc0 names txt r O F D N X).
  - intros p sc below sc0 names txt r _ O F. destruct F.
  - intros t sc below sc0 names r N O F D. cbn [literal_content content_ok fair_content content_text ctail content_pieces] in *. split; [constructor|].
    split; [|now apply literal_no_tag].
    apply item_fine with (map ILeaf (text_says (literal_pieces t))); [easy|]. apply literal_text; [easy|now apply good_text|easy].
  - intros t m IHm b IHb sc below sc0 names r N (Ot & Om & Ob) (Ft & Fm & Fb) D. cbn [content_text ctail]. rewrite <- !app_assoc.
    apply named_app in N. destruct N as [Nt N]. apply named_app in N. destruct N as [Nm Nbb].
    destruct (IHb sc below sc0 names r Nbb Ob Fb D) as (Sb & Xb & Nb). split; [|easy]. eapply steps_trans; [|exact Sb].
    apply IHm with sc below sc0; try easy; [now apply literal_no_tag|].
    apply item_fine with (map ILeaf (text_says (literal_pieces t))); [easy|]. apply literal_text; [easy|now apply good_text|easy].
Qed.
Lemma literal_items :
  (forall m sc below sc0 txt a, named (markup_pieces m) -> markup_ok sc (literal_markup m) -> fair_markup below sc0 (literal_markup m) -> text_item txt a ->
     items (mtoks txt m) (a ++ mitems (literal_markup m))) /\
  (forall b sc below sc0, named (content_pieces b) -> content_ok sc (literal_content b) -> fair_content below sc0 (literal_content b) ->
     exists c a, items (ctoks b) c /\ text_item (ctail b) a /\ citems (literal_content b) = c ++ a).
Proof.
  assert (One : forall txt t a b, text_item txt a -> tag_item t b -> items [(txt, t)] (a ++ b)).
  { intros txt t a b A B. rewrite <- (app_nil_r b). constructor; [easy|easy|constructor]. }
  apply markup_ind2.
  - intros nm attrs w sc below sc0 txt a N O F A.
    destruct (literal_tag_start _ _ _ _ _ w _ O N (or_intror eq_refl) F) as (p & n & Q & _ & _ & _ & S & _).
    apply One; [easy|]. apply gi_single; [easy|apply start_self].
  - intros nm attrs w b IH w' sc below sc0 txt a Nn (O & Ob & Hw') (F & Fb) A. apply named_app in Nn. destruct Nn as [Na Nbb].
    destruct (literal_tag_start _ _ _ _ _ w _ O Na (or_introl eq_refl) F) as (p & n & Q & _ & _ & _ & S & _).
    destruct (IH _ _ _ Nbb Ob Fb) as (c & a' & I & A' & E). apply literal_parts in O. destruct O as (Hn & Ha & Hw). cbn [mtoks literal_markup mitems]. rewrite E.
    apply (it_tok txt _ _ a [IOpen nm (written_attributes (map literal_attribute attrs))] ((c ++ a') ++ [IClose])); [easy|apply gi_open; [easy|now apply fit_open]|].
    rewrite <- app_assoc. apply items_app; [easy|]. apply One; [easy|now apply end_item].
  - intros c sc below sc0 txt a _ O F A. apply One; [easy|apply gi_comment].
  - intros c sc below sc0 txt a _ O F A. apply One; [easy|apply gi_cdata].
  - intros p sc below sc0 txt a _ O F. destruct F.
  - intros t sc below sc0 N O F. exists [], (map ILeaf (text_says (literal_pieces t))). split; [constructor|]. split; [|easy]. apply literal_text; [easy|now apply good_text|easy].
  - intros t m IHm b IHb sc below sc0 N (Ot & Om & Ob) (Ft & Fm & Fb). apply named_app in N. destruct N as [Nt N]. apply named_app in N. destruct N as [Nm Nbb].
    destruct (IHb _ _ _ Nbb Ob Fb) as (c & a & I & A & E).
    exists ((map ILeaf (text_says (literal_pieces t)) ++ mitems (literal_markup m)) ++ c), a. split; [|split; [easy|cbn [literal_content citems]; now rewrite E, <- !app_assoc]].
    cbn [ctoks]. apply items_app; [|easy]. apply IHm with sc below sc0; try easy. apply literal_text; [easy|now apply good_text|easy].
Qed.
Lemma literal_lexed :
  (forall m sc txt r, markup_ok sc (literal_markup m) -> was_read m -> no_tag txt -> lexed (txt ++ markup_text m ++ r) (mtoks txt m) r) /\
  (forall b sc r, content_ok sc (literal_content b) -> was_read_in b -> lexed (content_text b ++ r) (ctoks b) (ctail b ++ r) /\ no_tag (ctail b)).
Proof.
  apply markup_ind2.
  - intros nm attrs w sc txt r O R N. apply literal_parts in O. destruct O as (Hn & Ha & Hw).
    rewrite empty_text. apply lexed_one; [easy|]. apply fit_at; tauto.
  - intros nm attrs w b IH w' sc txt r O R N. cbn [literal_markup markup_ok] in O. destruct O as (O & Ob & Hw'). apply literal_parts in O. destruct O as (Hn & Ha & Hw).
    cbn [was_read] in R. destruct R as [_ R]. rewrite elem_text. cbn [mtoks]. eapply lx_tag; [easy|apply fit_at; tauto|].
    destruct (IH _ (end_text nm w' ++ r) Ob R) as [L Nb].
    apply lexed_app with (ctail b ++ end_text nm w' ++ r); [exact L|]. apply lexed_one; [exact Nb|now apply end_at].
  - intros c sc txt r O R N. apply lexed_one; [easy|]. apply comment_wf_at; [easy|apply R..].
  - intros c sc txt r O R N. apply lexed_one; [easy|]. now apply cdata_wf_at.
  - intros p sc txt r O R N. destruct R.
  - intros t sc r O R. split; [constructor|now apply literal_no_tag].
  - intros t m IHm b IHb sc r O R. cbn [literal_content content_ok content_text ctail ctoks was_read_in] in *. destruct O as (Ot & Om & Ob).
    destruct (IHb sc r Ob (proj2 R)) as [L Nb]. split; [|easy]. rewrite <- !app_assoc. apply lexed_app with (content_text b ++ r); [|exact L].
    apply IHm with sc; [easy|easy|now apply literal_no_tag].
Qed.
Lemma literal_tags :
  (forall m sc txt, markup_ok sc (literal_markup m) -> was_read m ->
     SpecXml.is_element m /\ element_tags (map snd (mtoks txt m)) \/ exists t, map snd (mtoks txt m) = [t] /\ begins (lit "<!") t) /\
  (forall b sc, content_ok sc (literal_content b) -> was_read_in b -> content_tags (map snd (ctoks b))).
Proof.
  apply markup_ind2.
  - intros nm attrs w sc txt O [n [_ R]]. left. split; [easy|]. apply literal_parts in O. destruct O as (Hn & Ha & Hw).
    destruct (start_not_special nm attrs w (lit "/>") Hn) as (B1 & B2 & _). cbn [mtoks map snd].
    apply et_single with n; [now apply element_reads_opening in R|apply start_self].
  - intros nm attrs w b IH w' sc txt O [(n & [_ R] & C) Rb]. left. split; [easy|]. cbn [literal_markup markup_ok] in O. destruct O as (O & Ob & Hw').
    apply literal_parts in O. destruct O as (Hn & Ha & Hw). cbn [mtoks map snd]. rewrite map_app. cbn [map snd].
    apply et_pair with n; [|now apply fit_open|now apply (IH _ Ob)|now apply closes_closing].
    destruct (start_not_special nm attrs w (lit ">") Hn) as (B1 & B2 & _). now apply element_reads_opening in R.
  - intros c sc txt O R. right. eexists. split; [reflexivity|now eexists].
  - intros c sc txt O R. right. eexists. split; [reflexivity|now eexists].
  - intros p sc txt O R. destruct R.
  - intros t sc O R. constructor.
  - intros t m IHm b IHb sc O R. cbn [literal_content content_ok ctoks was_read_in] in *. destruct O as (Ot & Om & Ob). destruct R as [Rm Rb]. rewrite map_app.
    destruct (IHm sc (pieces_text t) Om Rm) as [[_ E]|(t' & -> & B)].
    + apply ct_elem; [easy|now apply IHb with sc].
    + cbn [app]. apply ct_markup; [easy|now apply IHb with sc].
Qed.
Lemma literal_root_starts txt m sc : markup_ok sc (literal_markup m) -> SpecXml.is_element m -> starts_with_element (mtoks txt m).
Proof.
  intros O E. destruct m as [nm attrs w|nm attrs w b w'|c|c|p]; try contradiction; cbn [mtoks literal_markup markup_ok] in *.
  - apply tag_ok_parts in O. destruct O as (Hn & _). eexists _, _, _. split; [reflexivity|].
    destruct (start_not_special nm attrs w (lit "/>") Hn) as (B1 & _ & B3). intros [B|[x B]]; [easy|]. apply B3. rewrite B. now eexists.
  - destruct O as [O _]. apply tag_ok_parts in O. destruct O as (Hn & _). eexists _, _, _. split; [reflexivity|].
    destruct (start_not_special nm attrs w (lit ">") Hn) as (B1 & _ & B3). intros [B|[x B]]; [easy|]. apply B3. rewrite B. now eexists.
Qed.
Lemma literal_is_element m : SpecXml.is_element (literal_markup m) <-> SpecXml.is_element m.
Proof. now destruct m. Qed.
Lemma literal_one_root x sc : xml_ok (literal x) -> plain_comments x -> fair_prolog (xd_prolog x) -> markup_ok sc (literal_markup (xd_root x)) -> was_read (xd_root x) -> xd_epilog x = [] ->
  one_root (xml_text x) (dtoks (xd_decl x) ++ mistoks (xd_prolog x)) (mtoks (xd_gap x) (xd_root x)).
Proof.
  intros (O1 & O2 & _ & O3 & O4 & _ & _ & _ & _ & O6) P F Om R E. cbn [literal xd_decl xd_prolog xd_gap xd_root xd_end] in *. rewrite literal_is_element in O4.
  split; [|split; [|split]].
  - exists (xd_end x). split; [|now apply spaces_no_tag]. rewrite xml_text_parts, E. cbn [miscs_text flat_map app].
    eapply lexed_app; [eapply lexed_app|].
    + now apply decl_steps.
    + apply (fair_prolog_steps _ _ (dtoks (xd_decl x))); [easy|exact P|]. now apply dtoks_plain.
    + apply (proj1 literal_lexed _ sc); [easy|easy|]. now apply spaces_no_tag.
  - apply Forall_app. split.
    + destruct (xd_decl x) as [d|]; constructor; [right; apply decl_begins|constructor].
    + eapply Forall_impl; [|apply mistoks_like, fair_no_pi, F]. now intros y [H _].
  - destruct (proj1 literal_tags _ sc (xd_gap x) Om R) as [[_ T]|(t & Et & B)]; [exact T|]. exfalso.
    destruct (literal_root_starts (xd_gap x) _ _ Om O4) as (txt & t' & rest & Er & N). rewrite Er in Et. cbn [map snd] in Et. injection Et as -> _. apply N. now left.
  - now apply literal_root_starts with sc.
Qed.
Lemma literal_root_steps sc toks gap m e : named (markup_pieces m) -> markup_ok sc (literal_markup m) -> SpecXml.is_element m -> fair_markup false nothing_declared (literal_markup m) ->
  spaces gap -> no_tag e -> final (Before toks, gap ++ markup_text m ++ e).
Proof.
  intros N O El F Sg Ne. destruct m as [nm attrs w|nm attrs w b w'|c|c|p]; try contradiction.
  - destruct (literal_tag_start _ _ _ _ _ w _ O N (or_intror eq_refl) F) as (p & n & Q & Fp & _ & Fo & (B1 & B2 & _) & R).
    cbn [literal_markup markup_ok] in O. apply literal_parts in O. destruct O as (Hn & Ha & Hw). rewrite empty_text. exists e. split; [easy|]. left.
    eapply ss_step; [|constructor]. destruct (start_not_special nm attrs w (lit "/>") Hn) as (_ & _ & B3).
    apply (sp_single toks _ gap (start_text nm attrs w (lit "/>")) (start_text nm attrs w (lit "/>") ++ e) e nm).
    + split; [easy|]. split; [now apply spaces_no_tag|]. apply fit_at; tauto.
    + now apply spaces_ws.
    + intros [B|[x B]]; [easy|]. apply B3. rewrite B. now eexists.
    + easy.
    + exact Fo.
    + apply R. intros _ q ->. rewrite <- literal_names. now apply root_prefix.
    + apply start_self.
  - cbn [literal_markup markup_ok fair_markup markup_pieces] in N, O, F. destruct O as (O & Ob & Hw'). destruct F as [F Fb]. apply named_app in N. destruct N as [Na Nb].
    destruct (literal_tag_start _ _ _ _ _ w _ O Na (or_introl eq_refl) F) as (p & n & Q & Fp & N5 & Fo & (B1 & B2 & _) & R).
    apply literal_parts in O. destruct O as (Hn & Ha & Hw). rewrite elem_text. exists e. split; [easy|]. right.
    destruct (start_not_special nm attrs w (lit ">") Hn) as (_ & _ & B3).
    eapply ss_step; [apply (sp_root toks _ gap (start_text nm attrs w (lit ">")) (start_text nm attrs w (lit ">") ++ content_text b ++ end_text nm w' ++ e) (content_text b ++ end_text nm w' ++ e) nm)|].
    + split; [easy|]. split; [now apply spaces_no_tag|]. apply fit_at; tauto.
    + now apply spaces_ws.
    + intros [B|[x B]]; [easy|]. apply B3. rewrite B. now eexists.
    + easy.
    + exact Fo.
    + apply R. intros _ q ->. rewrite <- literal_names. now apply root_prefix.
    + now apply fit_open.
    + destruct (proj2 literal_steps b _ _ _ [nm] (end_text nm w' ++ e) Nb Ob Fb) as (S & Tf & Nt); [easy|].
      apply (steps_trans _ _ _ S). apply one_tag with (end_text nm w'); [easy|now apply end_at|easy|].
      apply (tf_close _ _ nm); [easy|apply end_begins|now apply end_formed|now apply end_closes].
Qed.
Theorem entities_kept x : named (markup_pieces (xd_root x)) -> xml_ok (literal x) -> plain_comments x -> fair_xml (literal x) ->
  exists d, parse_str (xml_text x) = Ok d /\ xml_says (literal x) d.
Proof.
  intros N O P (Fp & W & Fr & Ee). pose proof O as (O1 & O2 & _ & O3 & O4 & O5 & O6 & _ & _ & O9).
  cbn [literal xd_decl xd_prolog xd_gap xd_root xd_epilog xd_end] in *. rewrite literal_is_element in O4.
  assert (F : final (Before [], xml_text x)).
  { rewrite xml_text_parts, Ee. cbn [miscs_text flat_map app].
    destruct (literal_root_steps all_declared (dtoks (xd_decl x) ++ mistoks (xd_prolog x)) (xd_gap x) (xd_root x) (xd_end x) N O5 O4 Fr O3 (spaces_no_tag _ O9)) as (tail & Nt & S).
    exists tail. split; [easy|]. pose proof (proj1 (decl_steps (xd_decl x) (miscs_text (xd_prolog x) ++ xd_gap x ++ markup_text (xd_root x) ++ xd_end x) O1)) as S1.
    destruct (fair_prolog_steps (xd_gap x ++ markup_text (xd_root x) ++ xd_end x) (xd_prolog x) (dtoks (xd_decl x)) O2 P) as [S2 _]; [now apply dtoks_plain|].
    destruct S as [S|S]; [left|right]; exact (steps_trans _ _ _ S1 (steps_trans _ _ _ S2 S)). }
  apply final_read, parse_accepts in F. destruct F as [d H]. exists d. split; [exact H|].
  pose proof (proj1 literal_was_read _ _ _ _ N O5 Fr) as R.
  destruct (accepts_stands _ _ _ _ (parsed_accepts _ _ H) (literal_one_root _ _ O P Fp O5 R Ee)) as (Dd & Dt & is & I & En).
  split; [|split]; cbn [literal xd_decl xd_prolog xd_root].
  - apply (declared_fun _ _ _ Dd). apply conf_declared. now apply fair_no_pi.
  - apply (dtds_in_fun _ _ Dt). apply conf_dtds. now apply fair_no_pi.
  - rewrite W. rewrite W in O6. cbn [literal xd_root] in *. pose proof (proj1 literal_items _ _ _ _ (xd_gap x) [] N O6 Fr ltac:(apply xi_white; now apply spaces_ws)) as I'. cbn [app] in I'.
    rewrite (items_fun _ _ I _ I') in En.
    destruct (proj1 fair_says _ no_declarations false nothing_declared [] [NElem (d_root d)] [] O6 Fr scoped_root extends_root) as (l & ns' & E & Sy & Hn).
    { apply ni_elem; [exact En|constructor]. }
    apply nodes_nil in Hn. subst ns'. rewrite app_nil_r in E. now rewrite E.
Qed.

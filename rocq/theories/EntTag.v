(** Proofs for SpecEntity.v: tags whose values have references as text. *)
From Coq Require Import List NArith Arith Bool Ascii String Lia.
From Verif Require Import Base BaseFacts Escape Dom Spec EscapeFacts SpecDom DomFacts SpecLex SpecParse LexFacts ParseFacts DocFacts
  SpecEsc UnescFacts SpecDoc PrintFacts PrintDoc TripFacts SpecErr ReadFacts SpecMean MeanFacts CycleDoc SpecXml XmlFacts SpecConf ConfText ConfLex ConfTag ConfFacts
  SpecEntity EntText.
Import ListNotations.

(** * The form of tags *)

Lemma split_avoid (c : char) P : forall X Z R, ~ In c P -> P ++ R = X ++ c :: Z -> exists X', X = P ++ X' /\ R = X' ++ c :: Z.
Proof.
  induction P as [|x P IH]; intros X Z R N E; [now exists X|]. destruct X as [|y X]; cbn [app] in E; injection E as -> E; [exfalso; apply N; now left|].
  destruct (IH X Z R) as (X' & -> & ->); [intro I; apply N; now right|easy|]. now exists X'.
Qed.
Lemma cut_amp (v : str) q R Z X : ~ In q (lit "&amp;") -> v ++ q :: R = X ++ lit "&amp;" ++ Z ->
  (exists v2, v = X ++ lit "&amp;" ++ v2 /\ Z = v2 ++ q :: R) \/ (exists X', X = v ++ q :: X' /\ R = X' ++ lit "&amp;" ++ Z).
Proof.
  intros N E. destruct (app_eq_app _ _ _ _ E) as (d & [[E1 E2]|[E1 E2]]).
  - left. cbn [app lit] in E2. cbn in N. cbn in E2.
    destruct d as [|d0 [|d1 [|d2 [|d3 [|d4 d]]]]]; cbn in E2; injection E2; intros; subst; try (exfalso; apply N; tauto). now exists d.
  - destruct d as [|d0 d].
    + exfalso. cbn in E2. injection E2 as -> _. apply N. now left.
    + right. cbn [app] in E2. injection E2 as <- E2. now exists d.
Qed.
Definition amp_free (s : str) : Prop := ~ In amp s.
Lemma amp_free_app a b : amp_free a -> amp_free b -> amp_free (a ++ b).
Proof. intros A B I. apply in_app_or in I. destruct I; [now apply A|now apply B]. Qed.
Lemma listed_no_amp s : listed_name s -> amp_free s.
Proof.
  intros (c & r & -> & H & Hr) I.
  assert (K : listed_char amp).
  { destruct I as [->|I]; [|rewrite Forall_forall in Hr; now apply Hr]. destruct H as [H|H]; [left|now right]. now left. }
  destruct K as [[[K _]|K]|K]; [..|discriminate K]; rewrite Exists_exists in K; destruct K as ([u v] & J & L); unfold between_, amp in L; cbn [fst snd] in L; cbn in J;
    repeat (destruct J as [E|J]; [injection E as <- <-; lia|]); destruct J.
Qed.
Lemma ws_no_amp s : ws s -> amp_free s.
Proof. intros H I. unfold ws in H. rewrite Forall_forall in H. apply H in I. discriminate I. Qed.
Lemma form_attrs l : Forall written_attr l -> forall X Z R, List.concat l ++ R = X ++ lit "&amp;" ++ Z ->
  (exists l', Forall written_attr l' /\ List.concat l' ++ R = X ++ lit "&" ++ Z) \/ (exists X', R = X' ++ lit "&amp;" ++ Z).
Proof.
  induction 1 as [|a l (w & k & q & v & -> & Nw & W & K & Q) Hl IH]; intros X Z R E; [right; now exists X|].
  cbn [List.concat] in E. rewrite <- !app_assoc in E. rewrite !(app_assoc w), !(app_assoc (w ++ k)), !(app_assoc ((w ++ k) ++ lit "=")) in E.
  change (lit "&amp;" ++ Z) with (amp :: lit "amp;" ++ Z) in E. apply split_avoid in E.
  2:{ assert (is_quote q = true) as Q' by exact Q. repeat apply amp_free_app; [now apply ws_no_amp|now apply listed_no_amp|unfold amp_free; cbn; intuition discriminate|].
      intros [->|[]]. discriminate Q'. }
  destruct E as (X' & -> & E). cbn [app] in E. change (amp :: lit "amp;" ++ Z) with (lit "&amp;" ++ Z) in E. apply cut_amp in E.
  2:{ intro I. cbn in I. repeat (destruct I as [<-|I]; [discriminate Q|]). destruct I. }
  destruct E as [(v2 & -> & ->)|(X2 & -> & E)].
  - left. exists ((w ++ k ++ lit "=" ++ [q] ++ (X' ++ lit "&" ++ v2) ++ [q]) :: l). split; [|cbn [List.concat]; rewrite <- !app_assoc; cbn [app]; now rewrite <- ?app_assoc].
    constructor; [|easy]. now exists w, k, q, (X' ++ lit "&" ++ v2).
  - destruct (IH _ _ _ E) as [(l' & Fl & El)|(X3 & E3)].
    + left. exists ((w ++ k ++ lit "=" ++ [q] ++ v ++ [q]) :: l'). split; [constructor; [now exists w, k, q, v|easy]|].
      cbn [List.concat]. rewrite <- !app_assoc, El. cbn [app]. rewrite <- ?app_assoc. reflexivity.
    + right. now exists X3.
Qed.
Lemma form_less X Z : tag_form (X ++ lit "&amp;" ++ Z) -> tag_form (X ++ lit "&" ++ Z).
Proof.
  intros (o1 & nm & l & w & o2 & E & H1 & Hn & Hl & Hw & H2).
  assert (Fo : forall o, o = [] \/ o = lit "/" -> amp_free o) by (intros o [-> | ->]; unfold amp_free; cbn; intuition discriminate).
  replace (lit "<" ++ o1 ++ nm ++ List.concat l ++ w ++ o2 ++ lit ">") with ((lit "<" ++ o1 ++ nm) ++ List.concat l ++ w ++ o2 ++ lit ">") in E by now rewrite <- !app_assoc.
  symmetry in E. change (lit "&amp;" ++ Z) with (amp :: lit "amp;" ++ Z) in E. apply split_avoid in E.
  2:{ repeat apply amp_free_app; [unfold amp_free; cbn; intuition discriminate|now apply Fo|now apply listed_no_amp]. }
  destruct E as (X' & -> & E). change (amp :: lit "amp;" ++ Z) with (lit "&amp;" ++ Z) in E.
  destruct (form_attrs _ Hl _ _ _ E) as [(l' & Fl & El)|(X2 & E2)].
  - exists o1, nm, l', w, o2. split; [|easy]. rewrite <- !app_assoc. now rewrite <- El.
  - exfalso. assert (amp_free (w ++ o2 ++ lit ">")) as F.
    { repeat apply amp_free_app; [now apply ws_no_amp|now apply Fo|unfold amp_free; cbn; intuition discriminate]. }
    apply F. rewrite E2. apply in_or_app. right. now left.
Qed.
Lemma form_ends u : tag_form u -> exists u0 u1, u = lt_ :: u0 /\ u = u1 ++ [gt_].
Proof.
  intros (o1 & nm & l & w & o2 & -> & _). exists (o1 ++ nm ++ List.concat l ++ w ++ o2 ++ lit ">"), (lit "<" ++ o1 ++ nm ++ List.concat l ++ w ++ o2).
  split; [easy|]. now rewrite <- !app_assoc.
Qed.
Lemma formed_less X Z : formed (X ++ lit "&amp;" ++ Z) -> formed (X ++ lit "&" ++ Z).
Proof.
  intros (a & u & b & E & F). destruct (form_ends u F) as (u0 & u1 & E0 & E1). rewrite E0 in E. cbn [app] in E. symmetry in E. apply cut_amp in E.
  2:{ cbn. intuition discriminate. }
  destruct E as [(a2 & -> & ->)|(X' & -> & E)].
  - exists (X ++ lit "&" ++ a2), u, b. split; [|easy]. rewrite E0, <- !app_assoc. reflexivity.
  - assert (E' : u1 ++ gt_ :: b = (lt_ :: X') ++ lit "&amp;" ++ Z).
    { cbn [app]. rewrite <- E. change (lt_ :: u0 ++ b) with ((lt_ :: u0) ++ b). rewrite <- E0, E1, <- app_assoc. reflexivity. }
    apply cut_amp in E'; [|cbn; intuition discriminate]. destruct E' as [(v2 & -> & ->)|(X2 & E2 & ->)].
    + exists a, ((lt_ :: X') ++ lit "&" ++ v2 ++ [gt_]), b. split; [cbn [app]; now rewrite <- !app_assoc|].
      apply form_less. rewrite E1 in F. rewrite <- !app_assoc in F. exact F.
    + exists a, u, (X2 ++ lit "&" ++ Z). split; [|easy]. replace ((a ++ lt_ :: X') ++ lit "&" ++ Z) with (a ++ (lt_ :: X') ++ lit "&" ++ Z) by now rewrite <- app_assoc.
      rewrite E2, E1. rewrite <- !app_assoc. reflexivity.
Qed.
(** [less s t]: in [s], some '&' stand for the "&amp;" of [t]. *)
Inductive less : str -> str -> Prop :=
| le_same s : less s s
| le_amp s X Z : less s (X ++ lit "&" ++ Z) -> less s (X ++ lit "&amp;" ++ Z).
Lemma less_formed s t : less s t -> formed t -> formed s.
Proof. induction 1 as [s|s X Z H IH]; [easy|]. intro F. now apply IH, formed_less. Qed.
Lemma less_around A B s t : less s t -> less (A ++ s ++ B) (A ++ t ++ B).
Proof.
  induction 1 as [s|s X Z H IH]; [constructor|]. replace (A ++ (X ++ lit "&amp;" ++ Z) ++ B) with ((A ++ X) ++ lit "&amp;" ++ Z ++ B) by now rewrite <- !app_assoc.
  apply le_amp. replace ((A ++ X) ++ lit "&" ++ Z ++ B) with (A ++ (X ++ lit "&" ++ Z) ++ B) by now rewrite <- !app_assoc. exact IH.
Qed.
Lemma less_trans s t : less s t -> forall u, less t u -> less s u.
Proof. intros H u K. induction K as [t|t X Z K IH]; [easy|]. apply le_amp. now apply IH. Qed.
Lemma less_app s t s' t' : less s t -> less s' t' -> less (s ++ s') (t ++ t').
Proof.
  intros H K. apply less_trans with (t ++ s').
  - exact (less_around [] s' _ _ H).
  - pose proof (less_around t [] _ _ K) as L. now rewrite !app_nil_r in L.
Qed.
Lemma less_pieces l : less (pieces_text l) (pieces_text (literal_pieces l)).
Proof.
  induction l as [|p l IH]; [constructor|]. cbn [literal_pieces flat_map]. rewrite text_app. change (pieces_text (p :: l)) with (piece_text p ++ pieces_text l).
  apply less_app; [|exact IH]. unfold literal_piece. destruct (own p) eqn:O; [|cbn [pieces_text flat_map]; rewrite app_nil_r; constructor].
  destruct (own_ent _ O) as [nm ->]. rewrite tail_text. change (pieces_text (Ent (lit "amp") :: map Chr (nm ++ [semi]))) with (lit "&amp;" ++ pieces_text (map Chr (nm ++ [semi]))).
  rewrite text_chars. apply (le_amp _ [] (nm ++ [semi])). constructor.
Qed.
Lemma less_attribute a : less (attribute_text a) (attribute_text (literal_attribute a)).
Proof.
  unfold attribute_text, literal_attribute. cbn [at_space at_name at_eq1 at_eq2 at_quote at_value]. rewrite !(app_assoc (at_space a)), !(app_assoc (_ ++ at_name a)), !(app_assoc (_ ++ at_eq1 a)), !(app_assoc (_ ++ lit "=")), !(app_assoc (_ ++ at_eq2 a)).
  apply less_around, less_pieces.
Qed.
Lemma less_attributes l : less (flat_map attribute_text l) (flat_map attribute_text (map literal_attribute l)).
Proof. induction l as [|a l IH]; [constructor|]. cbn [map flat_map]. apply less_app; [apply less_attribute|exact IH]. Qed.
Lemma less_start nm l w e : less (start_text nm l w e) (start_text nm (map literal_attribute l) w e).
Proof. unfold start_text. rewrite !(app_assoc (lit "<")). apply less_around, less_attributes. Qed.

(** * Tags *)

Definition attribute_fit (a : attribute) : Prop :=
  at_space a <> [] /\ spaces (at_space a) /\ (exists p n, qname (at_name a) p n) /\ spaces (at_eq1 a) /\ spaces (at_eq2 a) /\
  quote_ok (at_quote a) /\ ~ In (at_quote a) (pieces_text (at_value a)).
Lemma attribute_fits a : attribute_ok (literal_attribute a) -> attribute_fit a.
Proof.
  intros (H1 & H2 & H3 & H4 & H5 & H6 & H7). cbn [literal_attribute at_space at_name at_eq1 at_eq2 at_quote at_value] in *. repeat split; try easy.
  intro I. apply literal_chars in I. now apply value_quote in H7.
Qed.
Lemma attributes_fit l : Forall attribute_ok (map literal_attribute l) -> Forall attribute_fit l.
Proof.
  intro H. rewrite Forall_forall in *. intros a I. apply attribute_fits, H. now apply in_map.
Qed.
Lemma fit_quiet a : attribute_fit a -> quiet (attribute_text a).
Proof.
  intros (_ & H1 & (p & n & Q) & H2 & H3 & Hq & Hv). unfold attribute_text.
  assert (A : forall s, spaces s -> quiet s) by (intros s S; now apply calm_quiet, spaces_calm).
  apply quiet_app; [now apply A|]. apply quiet_app; [apply calm_quiet, qname_calm; now exists p, n|].
  apply quiet_app; [now apply A|]. apply quiet_app; [apply calm_quiet; intros c [<-|[]]; cbn; lia|].
  apply quiet_app; [now apply A|]. now apply quoted_quiet.
Qed.
Lemma fits_quiet l : Forall attribute_fit l -> quiet (flat_map attribute_text l).
Proof. induction 1 as [|a l H Hl IH]; [now apply calm_quiet; intros c []|]. cbn [flat_map]. apply quiet_app; [now apply fit_quiet|easy]. Qed.
Lemma fit_at nm attrs w e rest : is_name nm -> Forall attribute_fit attrs -> spaces w -> e = lit ">" \/ e = lit "/>" ->
  tag_at (start_text nm attrs w e ++ rest) (start_text nm attrs w e) rest.
Proof.
  intros Hn Ha Hw He.
  assert (K : forall o, o = [] \/ o = lit "/" -> tag_at ((lit "<" ++ (nm ++ flat_map attribute_text attrs ++ w ++ o) ++ lit ">") ++ rest)
    (lit "<" ++ (nm ++ flat_map attribute_text attrs ++ w ++ o) ++ lit ">") rest).
  { intros o Ho. assert (quiet (nm ++ flat_map attribute_text attrs ++ w ++ o)) as (Q & _ & G).
    { repeat apply quiet_app; [now apply calm_quiet, name_calm|now apply fits_quiet|now apply calm_quiet, spaces_calm|].
      apply calm_quiet. destruct Ho as [-> | ->]; [now intros c []|]. intros c [<-|[]]. cbn. lia. }
    rewrite <- app_assoc, <- (app_assoc _ (lit ">") rest). apply elem_tag_at; [exact Q|exact G|].
    destruct (name_head _ Hn) as (c & r & -> & H1 & H2 & _). now split. }
  unfold start_text. destruct He as [-> | ->].
  - specialize (K [] (or_introl eq_refl)). rewrite app_nil_r in K. rewrite <- !app_assoc in *. exact K.
  - specialize (K (lit "/") (or_intror eq_refl)). rewrite <- !app_assoc in *. exact K.
Qed.
Lemma fit_open nm attrs w : is_name nm -> Forall attribute_fit attrs -> spaces w -> ~ self_closing (start_text nm attrs w (lit ">")).
Proof.
  intros Hn Ha Hw.
  intros [x E]. unfold start_text in E. rewrite !app_assoc in E. change (lit "/>") with ([47%N] ++ lit ">") in E.
  rewrite (app_assoc x) in E. apply app_inv_tail in E. rewrite <- !app_assoc in E.
  assert (K : forall u v : str, u ++ v = x ++ [47%N] -> v = [] \/ exists v0, v = v0 ++ [47%N]).
  { intros u v Ev. destruct v as [|v0 v]; [now left|]. right. destruct (exists_last (l := v0 :: v)) as (v1 & y & Ey); [discriminate|].
    rewrite Ey in *. rewrite app_assoc in Ev. apply app_inj_tail in Ev. destruct Ev as [_ ->]. now exists v1. }
  destruct (K (lit "<" ++ nm ++ flat_map attribute_text attrs) w) as [-> | [v0 ->]]; [now rewrite <- !app_assoc| |].
  - rewrite app_nil_r in E. destruct attrs as [|a attrs].
    + cbn [flat_map] in E. rewrite app_nil_r in E. destruct (K (lit "<") nm E) as [-> | [v0 ->]].
      * now destruct Hn as (c & r & En & _).
      * apply (name_chars_no _ 47%N Hn); [cbn; tauto|]. apply in_or_app. right. now left.
    + destruct (exists_last (l := a :: attrs)) as (l & z & El); [discriminate|]. rewrite El in *. apply Forall_app in Ha. destruct Ha as [_ Ha].
      inversion Ha as [|z' l' (_ & _ & _ & _ & _ & Hq & _) _]; subst. rewrite flat_map_app in E. cbn [flat_map] in E. unfold attribute_text in E at 2.
      rewrite app_nil_r in E. rewrite !app_assoc in E. apply app_inj_tail in E. destruct E as [_ E]. destruct Hq as [Hq|Hq]; rewrite Hq in E; discriminate E.
  - unfold spaces in Hw. rewrite Forall_app in Hw. destruct Hw as [_ Hw]. inversion Hw as [|? ? X _]; subst.
    cbn in X. repeat (destruct X as [X|X]; [discriminate X|]). destruct X.
Qed.
Lemma fit_shape a : attribute_fit a -> easy_name (at_name a) -> attr_shape any_str (xattr a).
Proof.
  intros (H1 & H2 & (p & n & Q) & H3 & H4 & H5 & H6) E. split; [easy|]. split; [now apply spaces_ws|].
  split; [apply easy_plain; [now apply qname_name in Q|easy]|]. split; [now apply spaces_ws|]. split; [now apply spaces_ws|].
  split; [easy|]. split; [easy|easy].
Qed.
Lemma fit_parts nm attrs w e : is_name nm -> ~ In 5760%N nm -> Forall attribute_fit attrs -> Forall (fun a => easy_name (at_name a)) attrs ->
  spaces w -> e = lit ">" \/ e = lit "/>" -> tag_parts (start_text nm attrs w e) nm (map kv_text attrs).
Proof.
  intros Hn N Ha E Hw He.
  assert (exists o, (o = [] \/ o = lit "/") /\ e = o ++ lit ">") as (o & Ho & ->).
  { destruct He as [-> | ->]; [exists []|exists (lit "/")]; (split; [tauto|easy]). }
  assert (Forall (attr_shape any_str) (map xattr attrs)) as Hs.
  { rewrite Forall_forall in *. intros x I. apply in_map_iff in I. destruct I as (a & <- & I). apply fit_shape; auto. }
  pose proof (head_parts nm (map xattr attrs) w o (is_name_xml _ Hn N) Hs (spaces_ws _ Hw) Ho) as P.
  unfold head_print in P. rewrite xattrs_print, map_map, <- !app_assoc in P. exact P.
Qed.
Lemma fit_reads a k v : attribute_fit a -> attr_reads (kv_text a) (k, v) <-> k = at_name a /\ unescapes (pieces_text (at_value a)) (Some v).
Proof.
  intros (_ & _ & (p & n & Q) & _ & _ & Hq & _). apply qname_name in Q. pose proof (name_no_eq _ Q) as N. split.
  - intros (v' & u & E & Hk & Hv & U). cbn [fst snd] in *. unfold kv_text in E. apply split_eq in E; [|easy..]. destruct E as [E1 E2]. split; [easy|].
    assert (in_quotes v' (pieces_text (at_value a))) as Hv' by (rewrite <- E2; exists (at_quote a); split; [now destruct Hq as [-> | ->]|easy]).
    now rewrite (in_quotes_fun _ _ _ Hv' Hv).
  - intros [-> U]. exists ([at_quote a] ++ pieces_text (at_value a) ++ [at_quote a]), (pieces_text (at_value a)). cbn [fst snd].
    split; [easy|]. split; [easy|]. split; [|easy]. exists (at_quote a). split; [now destruct Hq as [-> | ->]|easy].
Qed.
Definition attrs_named (l : list attribute) : Prop := named (flat_map at_value l).
Lemma literal_names l : map at_name (map literal_attribute l) = map at_name l.
Proof. rewrite map_map. reflexivity. Qed.
Lemma literal_start nm p n attrs w e : qname nm p n -> easy_name n -> (forall q, p = Some q -> ~ In 5760%N q) -> attrs_named attrs ->
  Forall attribute_ok (map literal_attribute attrs) -> Forall fair_attribute (map literal_attribute attrs) -> spaces w -> e = lit ">" \/ e = lit "/>" ->
  start_tag (start_text nm attrs w e) nm (written_attributes (map literal_attribute attrs)) /\
  forall P : Prop, (P -> forall q, p = Some q -> In (lit "xmlns:" ++ q) (map at_name attrs)) -> element_reads P (start_text nm attrs w e) nm.
Proof.
  intros Q E H Na Ha Hf Hw He. pose proof (qname_name _ _ _ Q) as Hn. pose proof (attributes_fit _ Ha) as Ft.
  assert (Forall (fun a => easy_name (at_name a)) attrs) as Hk.
  { rewrite Forall_forall in *. intros a I. apply (in_map literal_attribute) in I. apply Hf in I. apply I. }
  pose proof (fit_parts nm attrs w e Hn (qname_no_1680 _ _ _ Q E H) Ft Hk Hw He) as P.
  assert (F : Forall2 attr_reads (map kv_text attrs) (written_attributes (map literal_attribute attrs))).
  { clear P. induction attrs as [|a attrs IH]; [constructor|]. cbn [map] in *. inversion Ha as [|? ? Ha1 Ha2]; inversion Hf as [|? ? Hf1 Hf2]; inversion Hk; inversion Ft; subst.
    constructor; [|apply IH; try easy; intros x I; apply Na; cbn [flat_map]; apply in_or_app; now right].
    apply fit_reads; [easy|]. split; [easy|]. destruct Ha1 as (_ & _ & _ & _ & _ & _ & V). cbn [literal_attribute at_value at_quote] in *.
    apply literal_value; [intros x I; apply Na; cbn [flat_map]; apply in_or_app; now left|now apply good_value in V|apply Hf1]. }
  destruct (start_not_special nm attrs w e Hn) as (B1 & B2 & _).
  split; [split; [easy|]; split; [easy|]; now exists (map kv_text attrs)|].
  intros Out HO. exists (map kv_text attrs), (written_attributes (map literal_attribute attrs)), n. split; [easy|]. split; [easy|]. split; [|split; [|split]].
  - intros O q nm' En Hq. unfold written_attributes. rewrite !map_map. cbn [fst literal_attribute at_name]. apply (HO O). destruct Q as [n [_ Hc]|q' n [_ Hc] [_ _]].
    + exfalso. apply Hc. rewrite En. apply in_or_app. right. now left.
    + apply split_colon in En; [|easy|easy]. now destruct En as [-> _].
  - now apply qname_local in Q.
  - destruct Q as [n [N1 _]|q n _ [N1 _]]; now apply valid_easy.
  - apply Forall_forall. intros x I. unfold written_attributes in I. rewrite map_map in I. apply in_map_iff in I. destruct I as (a & <- & I). cbn [fst literal_attribute at_name].
    rewrite Forall_forall in *. apply valid_easy; [|now apply Hk]. destruct (Ft a I) as (_ & _ & (p' & n' & Q') & _). now apply qname_name in Q'.
Qed.
Lemma literal_tag_start below sc0 sc nm attrs w e : tag_ok sc nm (map literal_attribute attrs) w -> attrs_named attrs -> e = lit ">" \/ e = lit "/>" ->
  fair_tag below sc0 (start_text nm (map literal_attribute attrs) w e) nm (map literal_attribute attrs) ->
  exists p n, qname nm p n /\ fair_prefix below sc0 (map literal_attribute attrs) p /\ ~ In 5760%N nm /\ formed (start_text nm attrs w e) /\
    start_tag (start_text nm attrs w e) nm (written_attributes (map literal_attribute attrs)) /\
    forall P : Prop, (P -> forall q, p = Some q -> In (lit "xmlns:" ++ q) (map at_name attrs)) -> element_reads P (start_text nm attrs w e) nm.
Proof.
  intros ((p & n & Q & _) & (Ha & _) & Hw) Na He (F & Fa & Fp). exists p, n. split; [easy|]. destruct (Fp p n Q) as [E K].
  assert (H : forall q, p = Some q -> ~ In 5760%N q) by (intros q ->; apply K).
  split; [destruct p; [apply K|exact K]|]. split; [now apply (qname_no_1680 nm p n)|]. split; [now apply less_formed with (1 := less_start nm attrs w e)|].
  now apply (literal_start nm p n).
Qed.

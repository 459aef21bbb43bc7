(** Proofs for SpecForm.v: from tags to trees, and back. *)
From Coq Require Import List NArith ZArith Arith Bool Ascii String Lia.
From Verif Require Import Base BaseFacts Escape Dom Parse Spec EscapeFacts SpecDom DomFacts SpecLex SpecParse LexFacts ParseFacts TagFacts DocFacts AcceptFacts PrologFacts
  SpecEsc UnescFacts SpecDoc PrintFacts PrintDoc TripFacts SpecErr StepFacts ReadFacts LoopFacts SpecMean MeanFacts P_Parse CycleDoc SpecXml XmlFacts XmlUnique SpecConf ConfText ConfLex ConfTag ConfFacts ConfDoc SpecForm.
Import ListNotations.

(** * Names in tags *)

Lemma name_white s c : is_name s -> ~ In 5760%N s -> In c s -> is_whitespace c = false.
Proof.
  intros Hn N I. assert (F : Forall name_char s) by (apply nexts_chars; [now apply first_next|exact N]).
  rewrite Forall_forall in F. now apply name_char_odd, F.
Qed.
Lemma name_next_stop s c : is_name s -> In c s -> ~ name_stop c.
Proof. intros Hn I S. apply stop_not_next in S. apply S. pose proof (first_next _ Hn) as F. rewrite Forall_forall in F. now apply F. Qed.
Lemma opening_name t n nm attrs w e : opening t n -> t = start_text nm attrs w e -> is_name nm -> Forall attribute_ok attrs -> spaces w ->
  e = lit ">" \/ e = lit "/>" -> ~ In 5760%N t -> n = nm.
Proof.
  intros (_ & _ & Ne & So & w1 & r & E & W1 & R) Et Hn Ha Hw He N5.
  assert (Hs : forall c, In c nm -> is_whitespace c = false).
  { intros c I. apply (name_white nm); [exact Hn| |exact I]. intro K. apply N5. rewrite Et. unfold start_text. apply in_or_app. right. apply in_or_app. now left. }
  assert (Ht : tag_end e) by (destruct He as [-> | ->]; eexists _, _; (split; [reflexivity|]); cbn; tauto).
  destruct (attrs_start attrs w e) as (y0 & y & Ey & Sy); [eapply Forall_impl; [|exact Ha]; apply attr_ok_shaped|exact Hw|exact Ht|].
  rewrite Et in E. unfold start_text in E. rewrite Ey in E. cbn [app lit] in E. injection E as E.
  destruct w1 as [|c w1].
  2: { exfalso. destruct Hn as (c0 & r0 & -> & H0 & _). cbn [app] in E. injection E as <- _. inversion W1 as [|? ? Wc _]; subst. rewrite Hs in Wc; [discriminate|now left]. }
  cbn [app] in E. destruct (prefix_split _ _ _ _ E) as [(z & E1 & E2)|(z & E1 & E2)].
  - (* nm = n ++ z *)
    destruct z as [|z0 z]; [now rewrite app_nil_r in E1|]. exfalso. assert (I : In z0 nm) by (rewrite E1; apply in_or_app; right; now left).
    pose proof (name_next_stop _ _ Hn I) as K. cbn [app] in E2.
    destruct R as [[-> _]|[-> | (c & r' & -> & Wc)]]; cbn [app lit] in E2; injection E2 as Ez E2; subst z0.
    + apply K. cbn. tauto.
    + apply K. cbn. tauto.
    + rewrite Hs in Wc; [discriminate|exact I].
  - (* n = nm ++ z *)
    destruct z as [|z0 z]; [now rewrite app_nil_r in E1|]. exfalso. cbn [app] in E2. injection E2 as <- E2.
    destruct attrs as [|a attrs].
    + destruct w as [|w0 w].
      * cbn [flat_map app] in Ey. destruct He as [-> | ->]; cbn in Ey; injection Ey as <- <-.
        -- destruct z; [|discriminate E2]. apply (f_equal (@List.length _)) in E2. cbn in E2. rewrite app_length in E2. cbn in E2. lia.
        -- assert (z = [] /\ r = []) as [-> ->].
           { apply (f_equal (@List.length _)) in E2 as L. cbn in L. rewrite !app_length in L. cbn in L. destruct z; [|cbn in L; lia]. destruct r; [easy|cbn in L; lia]. }
           destruct R as [[_ R]|[R | (c & r' & R & _)]]; try discriminate R. apply R. rewrite Et. apply start_self.
      * cbn [flat_map app] in Ey. injection Ey as <- Ey. inversion Hw as [|? ? S0 _]; subst. unfold solid in So. rewrite unquoted_app in So.
        rewrite (proj1 (calm_unquoted _ (name_calm _ Hn))), (proj2 (calm_unquoted _ (name_calm _ Hn))) in So. apply Forall_app in So. destruct So as [_ So].
        assert (is_whitespace w0 = true) as Ww by (apply (spaces_ws [w0]) ; [now constructor|now left] || (pose proof (spaces_ws (w0 :: w) Hw) as Q; now inversion Q)).
        cbn [unquoted] in So. assert (is_quote w0 = false) as Q by (cbn in S0; destruct S0 as [<-|[<-|[<-|[<-|[]]]]]; reflexivity). rewrite Q in So. inversion So as [|? ? X _]; subst. congruence.
    + inversion Ha as [|? ? (Sn & Ss & _) _]; subst. destruct (at_space a) as [|w0 w2] eqn:Ea; [easy|]. cbn [flat_map] in Ey. unfold attribute_text in Ey. rewrite Ea in Ey. cbn [app] in Ey. injection Ey as <- Ey.
      unfold solid in So. rewrite unquoted_app in So.
      rewrite (proj1 (calm_unquoted _ (name_calm _ Hn))), (proj2 (calm_unquoted _ (name_calm _ Hn))) in So. apply Forall_app in So. destruct So as [_ So].
      assert (is_whitespace w0 = true) as Ww by (pose proof (spaces_ws (w0 :: w2) Ss) as Q; now inversion Q).
      inversion Ss as [|? ? S0 _]; subst. cbn [unquoted] in So. assert (is_quote w0 = false) as Q by (cbn in S0; destruct S0 as [<-|[<-|[<-|[<-|[]]]]]; reflexivity). rewrite Q in So. inversion So as [|? ? X _]; subst. congruence.
Qed.
Lemma closing_name t n nm w : closing t n -> t = end_text nm w -> is_name n -> is_name nm -> spaces w -> ~ In 5760%N n -> ~ In 5760%N t -> n = nm.
Proof.
  intros (w1 & w2 & o & E & W1 & W2 & O) Et Hn Hm Hw N1 N5.
  assert (Hs : forall c, In c nm -> is_whitespace c = false).
  { intros c I. apply (name_white nm); [exact Hm| |exact I]. intro K. apply N5. rewrite Et. unfold end_text. apply in_or_app. right. apply in_or_app. now left. }
  rewrite Et in E. unfold end_text in E. apply app_inv_head in E.
  destruct w1 as [|c w1].
  2: { exfalso. destruct Hm as (c0 & r0 & -> & H0 & _). cbn [app] in E. injection E as <- _. inversion W1 as [|? ? Wc _]; subst. rewrite Hs in Wc; [discriminate|now left]. }
  cbn [app] in E. rewrite !app_assoc in E. apply app_inv_tail in E.
  assert (o = []) as ->.
  { destruct O as [O|O]; [exact O|]. exfalso. subst o. assert (I : In 47%N (nm ++ w)) by (rewrite E; apply in_or_app; right; now left).
    apply in_app_or in I. destruct I as [I|I]; [apply (name_next_stop _ _ Hm I); cbn; tauto|].
    unfold spaces in Hw. rewrite Forall_forall in Hw. apply Hw in I. cbn in I. repeat (destruct I as [I|I]; [discriminate I|]). easy. }
  rewrite app_nil_r in E. destruct (prefix_split _ _ _ _ E) as [(z & E1 & E2)|(z & E1 & E2)].
  - destruct z as [|z0 z]; [now rewrite app_nil_r in E1|]. exfalso. assert (I : In z0 nm) by (rewrite E1; apply in_or_app; right; now left).
    rewrite E2 in W2. inversion W2 as [|? ? Wc _]; subst. rewrite Hs in Wc; [discriminate|exact I].
  - destruct z as [|z0 z]; [now rewrite app_nil_r in E1|]. exfalso. assert (I : In z0 n) by (rewrite E1; apply in_or_app; right; now left).
    apply spaces_ws in Hw. rewrite E2 in Hw. inversion Hw as [|? ? Wc _]; subst. rewrite (name_white _ _ Hn N1 I) in Wc. discriminate.
Qed.

(** * From tags to trees *)

Definition bound (sc : scope) : Prop := forall q, sc (Some q) <> None.
Lemma bound_declare attrs sc : attributes_ok attrs -> bound sc -> bound (declare attrs sc).
Proof.
  intros (_ & _ & V) B q. unfold declare. destruct (the_attribute (declaring (Some q)) attrs) as [a|] eqn:T; [|apply B].
  apply the_attribute_in in T. destruct T as [I E]. cbn [declaring] in E. specialize (V a q I (eq_sym E)) || specialize (V a q I E). destruct (value_said (at_value a)); [easy|discriminate].
Qed.
Lemma bound_tag sc nm attrs w : bound sc -> is_qname nm -> attributes_ok attrs -> spaces w -> tag_ok sc nm attrs w.
Proof.
  intros B (p & n & Q) A W. split; [|now split]. exists p, n. split; [exact Q|]. intros q ->. now apply bound_declare.
Qed.
Definition good (x : str * str) : Prop := (xml_chars (fst x) /\ xml_tag (snd x)) /\ ~ In 5760%N (snd x).
Lemma start_only t : ~ begins (lit "<!") t -> ~ begins (lit "</") t -> xml_tag t -> xml_start t.
Proof.
  intros B1 B2 [H|(nm & w & -> & _)|c -> _|c -> _]; [exact H| | |]; exfalso; [apply B2|apply B1|apply B1]; now eexists.
Qed.
Lemma end_only t : begins (lit "</") t -> xml_tag t -> xml_end t.
Proof.
  intros [x B] [(nm & attrs & w & e & -> & Q & _)|H|c -> _|c -> _]; [exfalso|exact H|discriminate B..].
  apply qname_head in Q. destruct (start_not_special nm attrs w e Q) as (_ & B2 & _). apply B2. now exists x.
Qed.
Lemma bang_only t : begins (lit "<!") t -> xml_tag t -> (exists c, t = comment_text c /\ comment_ok c) \/ exists c, t = lit "<![CDATA[" ++ c ++ lit "]]>" /\ cdata_ok c.
Proof.
  intros [x B] [(nm & attrs & w & e & -> & Q & _)|(nm & w & -> & _)|c -> O|c -> O]; [exfalso|discriminate B|left; now exists c|right; now exists c].
  apply qname_head in Q. destruct (start_not_special nm attrs w e Q) as (B1 & _). apply B1. now exists x.
Qed.
Lemma closing_begins t n : closing t n -> begins (lit "</") t.
Proof. intros (w1 & w2 & o & -> & _). now eexists. Qed.
Lemma built :
  (forall l, element_tags l -> forall sc txt t toks, bound sc -> l = map snd ((txt, t) :: toks) -> xml_tag t -> ~ In 5760%N t -> Forall good toks ->
     exists m, SpecXml.is_element m /\ markup_ok sc m /\ mtoks txt m = (txt, t) :: toks) /\
  (forall l, content_tags l -> forall sc toks last, bound sc -> l = map snd toks -> Forall good toks -> xml_chars last ->
     exists b, content_ok sc b /\ ctoks b = toks /\ ctail b = last).
Proof.
  apply tags_ind2.
  - intros t n O S sc txt t' toks B E X N F. cbn [map snd] in E. injection E as <- E. destruct toks; [|discriminate E].
    destruct (start_only t) as (nm & attrs & w & e & Et & Q & A & W & He); [apply O|apply O|exact X|].
    exists (MEmpty nm attrs w). split; [exact I|]. split; [now apply bound_tag|]. cbn [mtoks]. f_equal. f_equal.
    destruct He as [-> | ->]; [|now rewrite Et]. exfalso. rewrite Et in S. revert S. apply start_open; [now apply qname_head|apply A|exact W].
  - intros t n body c O S Hb IH C sc txt t' toks B E X N F. cbn [map snd] in E. injection E as <- E.
    symmetry in E. apply map_eq_app in E. destruct E as (tb & tc & -> & Eb & Ec). destruct tc as [|[last c'] [|? ?]]; try discriminate Ec. cbn [map snd] in Ec. injection Ec as ->.
    apply Forall_app in F. destruct F as [Fb Fc]. inversion Fc as [|? ? [[Xl Xc] Nc] _]; subst. cbn [fst snd] in *.
    destruct (start_only t) as (nm & attrs & w & e & Et & Q & A & W & He); [apply O|apply O|exact X|].
    destruct (end_only c) as (nm' & w' & Ec & Q' & W'); [now apply closing_begins in C|exact Xc|].
    assert (e = lit ">") as ->.
    { destruct He as [He|He]; [exact He|]. exfalso. apply S. rewrite Et, He. apply start_self. }
    assert (n = nm) as -> by (apply (opening_name t n nm attrs w (lit ">")); try assumption; [now apply qname_head|apply A]).
    assert (nm = nm') as <-.
    { apply (closing_name c nm nm' w'); try assumption; [now apply qname_head..|]. intro K. apply N. rewrite Et. apply in_or_app. right. apply in_or_app. now left. }
    destruct (IH (declare attrs sc) tb last) as (b & Ob & Tb & Lb); [now apply bound_declare|easy|exact Fb|exact Xl|].
    exists (MElem nm attrs w b w'). split; [exact I|]. split; [split; [now apply bound_tag|now split]|]. cbn [mtoks]. rewrite Tb, Lb. f_equal; [now rewrite Et|]. now rewrite Ec.
  - intros sc toks last B E F (l & El & Ol). symmetry in E. apply map_eq_nil in E as ->. exists (CText l). now split.
  - intros t l Bt Hl IH sc toks last B E F X. destruct toks as [|[txt t'] toks]; [discriminate E|]. cbn [map snd] in E. injection E as <- E. inversion F as [|? ? [[(lc & Ec & Oc) Xt] _] Fr]; subst. cbn [fst snd] in *. subst txt.
    destruct (IH sc toks last B eq_refl Fr X) as (b & Ob & Tb & Lb).
    destruct (bang_only t Bt Xt) as [(c & -> & O)|(c & -> & O)].
    + exists (CMore lc (MComment c) b). split; [now split|]. cbn [ctoks mtoks ctail]. now rewrite Tb.
    + exists (CMore lc (MCData c) b). split; [now split|]. cbn [ctoks mtoks ctail]. now rewrite Tb.
  - intros l1 l2 H1 IH1 H2 IH2 sc toks last B E F X. symmetry in E. apply map_eq_app in E. destruct E as (t1 & t2 & -> & E1 & E2). apply Forall_app in F. destruct F as [F1 F2].
    destruct (IH2 sc t2 last B (eq_sym E2) F2 X) as (b & Ob & Tb & Lb).
    destruct t1 as [|[txt t] t1]; [exfalso; rewrite <- E1 in H1; inversion H1|]. inversion F1 as [|? ? [[(lc & Ec & Oc) Xt] Nt] Fr]; subst. cbn [fst snd] in *. subst txt.
    destruct (IH1 sc (pieces_text lc) t t1 B eq_refl Xt Nt Fr) as (m & _ & Om & Tm).
    exists (CMore lc m b). split; [now split|]. cbn [ctoks ctail]. now rewrite Tm.
Qed.
Lemma mtoks_flat : (forall m txt, flatten (mtoks txt m) = txt ++ markup_text m) /\ (forall b, flatten (ctoks b) ++ ctail b = content_text b).
Proof.
  assert (FA : forall a b, flatten (a ++ b) = flatten a ++ flatten b) by (intros a b; unfold flatten; apply flat_map_app).
  apply markup_ind2; intros; cbn [mtoks ctoks ctail markup_text content_text]; rewrite ?flatten_cons, ?FA; cbn [flatten flat_map fst snd]; rewrite ?app_nil_r; try easy.
  - rewrite (app_assoc (flatten _)), H. unfold start_text, end_text. now rewrite <- !app_assoc.
  - now rewrite H, <- !app_assoc, H0.
Qed.

(** * From trees to tags *)

Definition well (x : str * str) : Prop := xml_chars (fst x) /\ xml_tag (snd x).
Lemma qname_of_tag sc nm attrs w : tag_ok sc nm attrs w -> is_qname nm.
Proof. intros ((p & n & Q & _) & _). now exists p, n. Qed.
Lemma shaped :
  (forall m sc, markup_ok sc m -> was_read m -> exists t rest, (forall txt, mtoks txt m = (txt, t) :: rest) /\ xml_tag t /\ Forall well rest) /\
  (forall b sc, content_ok sc b -> was_read_in b -> Forall well (ctoks b) /\ xml_chars (ctail b)).
Proof.
  apply markup_ind2.
  - intros nm attrs w sc O R. eexists _, _. split; [intro; reflexivity|]. split; [|constructor]. apply xt_start. exists nm, attrs, w, (lit "/>").
    split; [reflexivity|]. split; [now apply (qname_of_tag sc _ attrs w)|]. split; [apply O|]. split; [apply O|now right].
  - intros nm attrs w b IH w' sc (O & Ob & W) (_ & R). eexists _, _. split; [intro; reflexivity|]. destruct (IH (declare attrs sc) Ob R) as [Fb Lb]. split.
    + apply xt_start. exists nm, attrs, w, (lit ">"). split; [reflexivity|]. split; [now apply (qname_of_tag sc _ attrs w)|]. split; [apply O|]. split; [apply O|now left].
    + apply Forall_app. split; [exact Fb|]. constructor; [|constructor]. split; [exact Lb|]. apply xt_end. exists nm, w'. split; [reflexivity|]. split; [now apply (qname_of_tag sc _ attrs w)|exact W].
  - intros c sc O R. eexists _, _. split; [intro; reflexivity|]. split; [now apply xt_comment with c|constructor].
  - intros c sc O R. eexists _, _. split; [intro; reflexivity|]. split; [now apply xt_cdata with c|constructor].
  - intros p sc O [].
  - intros t sc O R. split; [constructor|]. now exists t.
  - intros t m IHm b IHb sc (Ot & Om & Ob) [Rm Rb]. destruct (IHm sc Om Rm) as (t' & rest & E & X & F). destruct (IHb sc Ob Rb) as [Fb Lb].
    cbn [ctoks ctail]. rewrite E. split; [|exact Lb]. constructor; [split; [now exists t|exact X]|]. apply Forall_app. now split.
Qed.
Lemma prolog_flat o l : flatten (prolog_tags o l) = dtext o ++ miscs_text l.
Proof.
  unfold prolog_tags, flatten. rewrite flat_map_app. f_equal.
  - destruct o; cbn [flat_map dtext fst snd app]; rewrite ?app_nil_r; reflexivity.
  - induction l as [|[w m] l IH]; [reflexivity|]. cbn [map flat_map fst snd]. rewrite IH. cbn [miscs_text flat_map fst snd]. now rewrite <- !app_assoc.
Qed.
Lemma goes_prolog toks s pr c : goes toks s pr c -> exists more r, pr = toks ++ more /\ s = flatten more ++ r /\ goes pr r pr c.
Proof.
  induction 1 as [toks s pr c txt t r rest Hn W F G (more & r' & -> & -> & G')|toks s txt t r rest n Hn P1 P2 P3 P4 P5|toks s txt t r rest n Hn P1 P2 P3 P4 P5].
  - exists ((txt, t) :: more), r'. split; [now rewrite <- app_assoc|]. split; [|exact G']. destruct Hn as (-> & N & T). apply tag_at_nonempty in T. destruct T as [T _]. rewrite T, flatten_cons. now rewrite <- !app_assoc.
  - exists [], s. split; [now rewrite app_nil_r|]. split; [reflexivity|]. now apply go_single with txt t r n.
  - exists [], s. split; [now rewrite app_nil_r|]. split; [reflexivity|]. now apply go_root with txt t r.
Qed.
Lemma prolog_fun (a b : list (str * str)) x y : Forall (fun x => prolog_like (snd x)) a -> Forall (fun x => prolog_like (snd x)) b -> starts_with_element x -> starts_with_element y ->
  a ++ x = b ++ y -> a = b /\ x = y.
Proof.
  intros Fa Fb (t1 & g1 & r1 & -> & N1) (t2 & g2 & r2 & -> & N2). revert b Fb. induction Fa as [|p a Pp Fa IH]; intros b Fb E.
  - destruct Fb as [|q b Pq Fb]; [easy|]. cbn [app] in E. injection E as <- _. contradiction.
  - destruct Fb as [|q b Pq Fb]; cbn [app] in E; [injection E as -> _; contradiction|]. injection E as <- E. destruct (IH b Fb E) as [-> ->]. easy.
Qed.
Lemma accepted_goes s d pr el tail : parse_str s = Ok d -> splits s (pr ++ el) tail -> Forall (fun x => prolog_like (snd x)) pr -> starts_with_element el ->
  exists c, goes [] s pr c /\ final c.
Proof.
  intros H Sp Fp SE.
  assert (F : final (Before [], s)) by (apply read_final, parse_accepts; now exists d).
  destruct (final_goes _ _ F) as (pr' & c & G & Fc). pose proof (goes_lexed _ _ _ _ G) as (more & txt & t & E & L & Pm & Nt). cbn [app] in E. subst more.
  assert (exists tail toks, no_tag tail /\ lexed (snd c) toks tail) as (tail' & toks & Ntl & Lc).
  { destruct Fc as (tail' & N & [S|S]); apply steps_lexed in S; destruct S as [toks S]; now exists tail', toks. }
  assert (Sp' : splits s (pr' ++ (txt, t) :: toks) tail').
  { split; [|easy]. replace (pr' ++ (txt, t) :: toks) with ((pr' ++ [(txt, t)]) ++ toks) by now rewrite <- app_assoc. now apply lexed_app with (snd c). }
  destruct (C35_splits_unique _ _ _ _ _ Sp Sp') as [E _].
  destruct (prolog_fun pr pr' el ((txt, t) :: toks) Fp Pm SE) as [-> _]; [now exists txt, t, toks|exact E|]. now exists c.
Qed.

(** * The theorem *)

Lemma form_read s d x el tail : parse_str s = Ok d -> well_formed x -> Forall (fun x => prolog_like (snd x)) (prolog_tags (xd_decl x) (xd_prolog x)) ->
  splits s (prolog_tags (xd_decl x) (xd_prolog x) ++ el) tail -> starts_with_element el -> xml_text x = s ->
  was_read (xd_root x) /\ el = mtoks (xd_gap x) (xd_root x) /\ tail = xd_end x.
Proof.
  intros H (O1 & O2 & O3 & O4 & O5 & O6 & O7 & O8 & O9) Fp Sp SE Es.
  destruct (accepted_goes _ _ _ _ _ H Sp Fp SE) as (c & G & Fc). destruct (goes_prolog _ _ _ _ G) as (more & r & E & Es' & G'). cbn [app] in E. subst more.
  rewrite <- Es, xml_text_parts, prolog_flat, <- app_assoc in Es'. apply app_inv_head, app_inv_head in Es'. subst r.
  destruct (told_root all_declared _ _ _ _ _ _ _ G' Fc O4 O5 O6 O7 O8 O9) as (_ & R & Ee). split; [exact R|].
  pose proof (proj1 read_lexed _ _ (xd_gap x) (xd_end x) O6 R (spaces_no_tag _ O4)) as Lx.
  destruct Sp as [Lp Nt]. apply DocFacts.lexed_split in Lp. destruct Lp as (mid & Lp & Le).
  assert (mid = xd_gap x ++ markup_text (xd_root x) ++ xd_end x) as ->.
  { apply lexed_flatten in Lp. rewrite <- Es, xml_text_parts, prolog_flat, <- app_assoc, Ee in Lp. apply app_inv_head, app_inv_head in Lp. now symmetry. }
  exact (C35_splits_unique _ _ _ _ _ (conj Le Nt) (conj Lx (spaces_no_tag _ O9))).
Qed.
Theorem form_exact s d o l el tail : parse_str s = Ok d -> prolog_ok o l -> Forall (fun x => prolog_like (snd x)) (prolog_tags o l) ->
  splits s (prolog_tags o l ++ el) tail -> starts_with_element el -> ~ In 5760%N s ->
  ((exists x, well_formed x /\ xd_decl x = o /\ xd_prolog x = l /\ xml_text x = s) <-> element_tags (map snd el) /\ xml_tags el /\ spaces tail).
Proof.
  intros H (Po & Pl & Pd) Fp Sp SE N5. split.
  - intros (x & (O1 & O2 & O3 & O4 & O5 & O6 & O7 & O8 & O9) & Eo & El & Es).
    subst o l. assert (W : well_formed x) by now unfold well_formed.
    destruct (form_read s d x el tail H W Fp Sp SE Es) as (R & -> & ->).
    destruct (proj1 shaped _ _ O6 R) as (t & rest & Em & Xt & Fr). split; [|split; [|exact O9]].
    + destruct (proj1 read_tags _ _ (xd_gap x) O6 R) as [[_ K]|(t' & K & B)]; [exact K|]. exfalso. destruct SE as (g & t2 & r2 & E2 & NP). rewrite E2 in K. cbn [map snd] in K. injection K as -> _. apply NP. now left.
    + exists (xd_gap x), t, rest. now rewrite Em.
  - intros (Et & (gap & t & rest & -> & Sg & Xt & Fr) & St). destruct Sp as [Lp Nt]. pose proof (lexed_flatten _ _ _ Lp) as Es.
    assert (Nall : ~ In 5760%N t /\ Forall (fun x => ~ In 5760%N (snd x)) rest).
    { assert (K : forall y, In y ((gap, t) :: rest) -> ~ In 5760%N (snd y)).
      { intros y I J. apply N5. rewrite Es. apply in_or_app. left. unfold flatten. apply in_flat_map. exists y. split; [apply in_or_app; now right|]. apply in_or_app. now right. }
      split; [apply (K (gap, t)); now left|]. apply Forall_forall. intros y I. apply K. now right. }
    destruct Nall as [N1 N2].
    destruct (proj1 built _ Et all_declared gap t rest) as (m & Im & Om & Tm); [easy|reflexivity|exact Xt|exact N1| |].
    { apply Forall_forall. intros y I. rewrite Forall_forall in Fr, N2. split; [now apply Fr|now apply N2]. }
    exists (XDocument o l gap m [] tail). split; [|split; [reflexivity|split; [reflexivity|]]].
    + unfold well_formed. cbn [xd_decl xd_prolog xd_gap xd_root xd_epilog xd_end]. split; [exact Po|]. split; [exact Pl|]. split; [exact Pd|]. split; [exact Sg|]. split; [exact Im|]. split; [exact Om|]. split; [constructor|]. now split.
    + rewrite xml_text_parts. cbn [xd_decl xd_prolog xd_gap xd_root xd_epilog xd_end miscs_text flat_map app]. rewrite Es.
      unfold flatten at 1. rewrite flat_map_app. fold (flatten (prolog_tags o l)) (flatten ((gap, t) :: rest)). rewrite prolog_flat, <- Tm, (proj1 mtoks_flat). now rewrite <- !app_assoc.
Qed.
Lemma bang_tag s t rest : tag_at s t rest -> begins (lit "<!") s -> begins (lit "<!") t.
Proof.
  intros T [x Ex]. pose proof (tag_at_nonempty _ _ _ T) as [E _].
  assert (I : In 62%N t).
  { destruct T as [_ (_ & [y ->] & _)|_ (_ & (b & -> & _) & _)|_ (_ & [y ->] & _)|_ _ _ (_ & (b & -> & _) & _)|_ _ _ (_ & (b & -> & _) & _)]; repeat (apply in_or_app; right); cbn; tauto. }
  rewrite Ex in E. destruct (prefix_split _ _ _ _ E) as [(z & E1 & E2)|(z & E1 & E2)]; [|now exists z].
  exfalso. assert (J : In 62%N (lit "<!")) by (rewrite E1; apply in_or_app; now left). cbn in J. repeat (destruct J as [J|J]; [discriminate J|]). easy.
Qed.
Lemma no_prolog x c : well_formed x -> goes [] (xml_text x) [] c -> final c -> xd_decl x = None /\ xd_prolog x = [].
Proof.
  intros (O1 & O2 & _) G Fc. rewrite xml_text_parts in G. destruct (xd_decl x) as [d|].
  - exfalso. apply decl_goes in G; [|exact O1]. destruct (goes_lexed _ _ _ _ G) as (more & _ & _ & E & _). discriminate E.
  - split; [reflexivity|]. destruct (xd_prolog x) as [|[w m] l]; [reflexivity|]. exfalso. cbn [dtext app miscs_text flat_map fst snd] in G. rewrite <- !app_assoc in G.
    inversion O2 as [|? ? [Sw Om] Ol]; subst. cbn [fst snd] in *. assert (Nw : no_tag w) by now apply spaces_no_tag.
    assert (B : begins (lit "<") (misc_text m)) by (destruct m; now eexists). destruct B as [mt B].
    destruct (goes_some _ _ _ _ _ G Nw) as (t & rest & T & K); [rewrite B; now eexists|].
    assert (Q : prolog_like t).
    { destruct K as [K|(Fo & n & R)]; [exact K|]. destruct m as [c0|p|d].
      - left. apply (bang_tag _ _ _ T). now eexists.
      - exfalso. now apply (pi_not_read _ _ _ _ _ _ Om T Fo R).
      - left. apply (bang_tag _ _ _ T). now eexists. }
    destruct (goes_tag _ _ _ _ _ _ _ G Nw T Q) as (_ & _ & G1). destruct (goes_lexed _ _ _ _ G1) as (more & _ & _ & E & _). discriminate E.
Qed.
Theorem form_plain s d el tail : parse_str s = Ok d -> splits s el tail -> starts_with_element el -> ~ In 5760%N s ->
  ((exists x, well_formed x /\ xml_text x = s) <-> element_tags (map snd el) /\ xml_tags el /\ spaces tail).
Proof.
  intros H Sp SE N. rewrite <- (form_exact s d None [] el tail H); [|split; [easy|split; [constructor|cbn; lia]]|constructor|exact Sp|exact SE|exact N]. split.
  - intros (x & W & E). exists x. destruct (accepted_goes s d [] el tail H Sp (Forall_nil _) SE) as (c & G & Fc). rewrite <- E in G.
    destruct (no_prolog x c W G Fc) as [E1 E2]. easy.
  - intros (x & W & _ & _ & E). now exists x.
Qed.

(** * One root *)

Definition depth (t : str) : Z :=
  if starts_with (lit "<!") t then 0%Z else if starts_with (lit "</") t then (-1)%Z else if ends_with (lit "/>") t then 0%Z else 1%Z.
Definition depths (l : list str) : Z := fold_right (fun t z => (depth t + z)%Z) 0%Z l.
Lemma depths_app a b : depths (a ++ b) = (depths a + depths b)%Z.
Proof. induction a as [|t a IH]; [reflexivity|]. cbn [depths fold_right app]. fold (depths (a ++ b)) (depths a). rewrite IH. lia. Qed.
Lemma depth_open t n : opening t n -> ~ self_closing t -> depth t = 1%Z.
Proof.
  intros (B1 & B2 & _) S. unfold depth. destruct (starts_with (lit "<!") t) eqn:E1; [exfalso; apply B1; now apply begins_spec|].
  destruct (starts_with (lit "</") t) eqn:E2; [exfalso; apply B2; now apply begins_spec|]. destruct (ends_with (lit "/>") t) eqn:E3; [|reflexivity].
  exfalso. apply S. now apply ends_spec.
Qed.
Lemma depth_single t n : opening t n -> self_closing t -> depth t = 0%Z.
Proof.
  intros (B1 & B2 & _) S. unfold depth. destruct (starts_with (lit "<!") t) eqn:E1; [reflexivity|].
  destruct (starts_with (lit "</") t) eqn:E2; [exfalso; apply B2; now apply begins_spec|]. apply ends_spec in S. now rewrite S.
Qed.
Lemma depth_close t n : closing t n -> depth t = (-1)%Z.
Proof. intros (w1 & w2 & o & -> & _). reflexivity. Qed.
Lemma depth_bang t : begins (lit "<!") t -> depth t = 0%Z.
Proof. intros [x ->]. reflexivity. Qed.
Lemma depths_tags :
  (forall l, element_tags l -> depths l = 0%Z /\ forall a b, l = a ++ b -> a <> [] -> b <> [] -> (1 <= depths a)%Z) /\
  (forall l, content_tags l -> depths l = 0%Z /\ forall a b, l = a ++ b -> (0 <= depths a)%Z).
Proof.
  apply tags_ind2.
  - intros t n O S. split; [cbn; rewrite (depth_single t n); easy|]. intros [|x [|y a]] [|z b] E Na Nb; try easy; destruct a; discriminate E.
  - intros t n body c O S Hb [Db Pb] C. pose proof (depth_open t n O S) as D1. pose proof (depth_close c n C) as D2. split.
    + change (t :: body ++ [c]) with ([t] ++ body ++ [c]). rewrite !depths_app, Db. cbn. rewrite D1, D2. lia.
    + intros [|x a] b E Na Nb; [easy|]. cbn [app] in E. injection E as <- E. cbn [depths fold_right]. fold (depths a). rewrite D1.
      destruct (exists_last Nb) as (b' & z & ->). rewrite app_assoc in E. apply app_inj_tail in E. destruct E as [E _]. specialize (Pb a b' E). lia.
  - split; [reflexivity|]. intros a b E. symmetry in E. apply app_eq_nil in E. destruct E as [-> _]. cbn. lia.
  - intros t l B Hl [Dl Pl]. apply depth_bang in B. split.
    + cbn [depths fold_right]. fold (depths l). rewrite Dl, B. reflexivity.
    + intros [|x a] b E; [cbn; lia|]. cbn [app] in E. injection E as <- E. cbn [depths fold_right]. fold (depths a). specialize (Pl a b E). lia.
  - intros l1 l2 H1 [D1 P1] H2 [D2 P2]. split; [rewrite depths_app; lia|]. intros a b E.
    destruct (app_eq_app _ _ _ _ E) as (z & [[E1 E2]|[E1 E2]]).
    + destruct a as [|x a]; [cbn; lia|]. destruct z as [|y z]; [rewrite app_nil_r in E1; subst l1; lia|]. specialize (P1 (x :: a) (y :: z) E1). lapply P1; [|easy]. intro K. lapply K; [lia|easy].
    + subst a. rewrite depths_app, D1. specialize (P2 z b E2). lia.
Qed.
Lemma one_not_more l : element_tags l -> ~ another_root l.
Proof.
  intros H (l1 & l2 & E & H1 & H2). destruct (proj1 depths_tags l H) as [_ P]. destruct (proj1 depths_tags l1 H1) as [D1 _].
  assert (N1 : l1 <> []) by (inversion H1; easy). assert (N2 : l2 <> []) by (inversion H2 as [? K|? ? K _]; inversion K; easy).
  specialize (P l1 l2 E N1 N2). lia.
Qed.
Lemma accepted_one s d pr el tail : parse_str s = Ok d -> splits s (pr ++ el) tail -> Forall (fun x => prolog_like (snd x)) pr -> starts_with_element el ->
  element_tags (map snd el) <-> ~ another_root (map snd el).
Proof.
  intros H Sp Fp SE. split; [apply one_not_more|]. intro N. destruct (C35_balanced s d H) as (pr' & el' & tail' & Sp' & Fp' & R & SE').
  destruct (C35_splits_unique _ _ _ _ _ Sp Sp') as [E _]. destruct (prolog_fun _ _ _ _ Fp Fp' SE SE' E) as [_ <-].
  inversion R as [? K|l1 l2 K1 K2 El]; subst; [exact K|]. exfalso. apply N. now exists l1, l2.
Qed.
Theorem form_local s d o l el tail : parse_str s = Ok d -> prolog_ok o l -> Forall (fun x => prolog_like (snd x)) (prolog_tags o l) ->
  splits s (prolog_tags o l ++ el) tail -> starts_with_element el -> ~ In 5760%N s ->
  ((exists x, well_formed x /\ xd_decl x = o /\ xd_prolog x = l /\ xml_text x = s) <-> ~ another_root (map snd el) /\ xml_tags el /\ spaces tail).
Proof. intros H P F Sp SE N. rewrite <- (accepted_one s d (prolog_tags o l) el tail H Sp F SE). now apply (form_exact s d). Qed.
Theorem form_plain_local s d el tail : parse_str s = Ok d -> splits s el tail -> starts_with_element el -> ~ In 5760%N s ->
  ((exists x, well_formed x /\ xml_text x = s) <-> ~ another_root (map snd el) /\ xml_tags el /\ spaces tail).
Proof. intros H Sp SE N. rewrite <- (accepted_one s d [] el tail H Sp (Forall_nil _) SE). now apply (form_plain s d). Qed.

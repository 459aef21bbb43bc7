(** What accepted inputs look like. *)
From Coq Require Import List NArith Arith Bool Ascii String Lia.
From Verif Require Import Base BaseFacts Escape Dom Spec EscapeFacts SpecDom DomFacts SpecApi ApiFacts
  ParseTree SpecTree ParseTreeFacts Parse SpecLex SpecParse LexFacts ParseFacts DocFacts TagFacts.
Import ListNotations.

(** * Tags and the calls they cause *)

Lemma adopt_opt_tag_name top e : tag_name (adopt_opt top e) = tag_name e.
Proof.
  destruct top as [t|]; [|reflexivity]. cbn. unfold inherited, apply_xmlns_context, set_namespace_context, default_namespace.
  destruct e as [nm ch at_ [x|] [p|] ctx]; cbn; try reflexivity.
  destruct (e_prefix t); [reflexivity|]. now destruct (e_xmlns t).
Qed.
Lemma element_of_head top b e : trimmed b -> element_of top b = Ok e ->
  exists r, b = tag_name e ++ r /\ tag_name e <> [] /\ solid None (tag_name e) /\
    (r = [] \/ exists x r', r = x :: r' /\ is_whitespace x = true).
Proof.
  intros [Ht _] H. apply element_of_spec in H.
  destruct H as (nm & comps & l & prefix & local & W & Rl & Q & _ & _ & _ & ->).
  rewrite adopt_opt_tag_name. change (tag_name (bare local prefix (set_all l []) (explicit_ns top (set_all l []) prefix)))
    with (tag_name_of prefix local). rewrite (qname_tag _ _ _ Q).
  destruct (words_head _ _ _ W Ht) as (r & -> & Hn & Hs & Hr). exists r.
  split; [easy|]. split; [easy|]. split; [easy|]. destruct Hr as [[-> _]|(x & r' & -> & Hx & _)]; [now left|].
  right. now exists x, r'.
Qed.

Lemma open_opening top t b e : delimited t -> ~ begins (lit "<!") t -> ~ begins (lit "</") t ->
  strip_tag t = Ok b -> element_of top b = Ok e -> opening t (tag_name e).
Proof.
  intros D N1 N2 S E. destruct (strip_open t D N2) as (w1 & b' & w2 & o & S' & Et & H1 & H2 & T & Ho).
  rewrite S in S'. injection S' as <-.
  destruct (element_of_head _ _ _ T E) as (r & Eb & Hn & Hs & Hr).
  split; [easy|]. split; [easy|]. split; [easy|]. split; [easy|].
  exists w1, (r ++ w2 ++ o). split.
  { rewrite Et, Eb at 1. now rewrite <- !app_assoc. }
  split; [easy|]. destruct Hr as [->|(x & r' & -> & Hx)].
  - destruct H2 as [|x w2 Hx H2].
    + destruct Ho as [[-> Ho]|[-> Ho]]; [right; now left|now left].
    + right. right. exists x, (w2 ++ o). easy.
  - right. right. exists x, (r' ++ w2 ++ o). easy.
Qed.
Lemma close_closing t b : delimited t -> begins (lit "</") t -> strip_tag t = Ok b -> closing t b.
Proof.
  intros D N S. destruct (strip_close t D N) as (w1 & b' & w2 & o & S' & Et & H1 & H2 & _ & Ho).
  rewrite S in S'. injection S' as <-. exists w1, w2, o. split; [easy|]. split; [easy|]. split; [easy|].
  destruct Ho; [now right|now left].
Qed.
Lemma opening_closing t n n' : opening t n -> closing t n' -> False.
Proof.
  intros (_ & N & _) (w1 & w2 & o & -> & _). apply N. now exists (w1 ++ n' ++ w2 ++ o ++ lit ">").
Qed.
Lemma closing_not_markup t n : closing t n -> ~ begins (lit "<!") t.
Proof. intros (w1 & w2 & o & -> & _) [r E]. discriminate. Qed.

(** Effect of a tag, seen from its text. *)
Inductive tag_effect (top : option elem) (t : str) : pt_op -> Prop :=
| te_markup n : begins (lit "<!") t -> (forall e, n <> NElem e) -> (forall s, n <> NText s) ->
    tag_says t (match n with NComment c => [EComment c] | NCData c => [ECData c] | _ => [] end) ->
    node_valid n -> tag_effect top t (OpAppend n)
| te_single b e : opening t (tag_name e) -> self_closing t -> element_of top b = Ok e -> tag_effect top t (OpAppend (NElem e))
| te_open b e : opening t (tag_name e) -> ~ self_closing t -> element_of top b = Ok e -> tag_effect top t (OpPush e)
| te_close a : closing t (tag_name a) -> top = Some a -> tag_effect top t OpPop.
Lemma tag_op_effect top t op : delimited t -> tag_op top t op -> tag_effect top t op.
Proof.
  intros D H. destruct H as [c Hc|c Hc|t b a N1 N2 S C Ht Hb|t b e N1 N2 S C E Z|t b e N1 N2 S C E Z].
  - apply te_markup; try easy; [now exists (lit "--" ++ c ++ lit "-->")|constructor].
  - apply te_markup; try easy; [now exists (lit "[CDATA[" ++ c ++ lit "]]>")|constructor].
  - subst. apply te_close with a; [now apply close_closing|easy].
  - apply te_single with b; [|easy|easy]. now apply open_opening with top b.
  - apply te_open with b; [|easy|easy]. now apply open_opening with top b.
Qed.

Lemma lexed_delimited s toks tail : lexed s toks tail -> Forall (fun x => delimited (snd x)) toks.
Proof.
  induction 1 as [s|txt s t rest toks tail Hn T L IH]; constructor; [|easy].
  cbn. now apply tag_delimited with s rest.
Qed.

(** * Balanced tags *)

Definition stack (m : machine) : list str :=
  match m with MOpen e _ outer => tag_name e :: map (fun x => tag_name (fst x)) outer | _ => [] end.
Fixpoint completes (st : list str) (l : list str) : Prop :=
  match st with
  | [] => l = [] \/ roots_tags l
  | n :: st' => exists body c l', l = body ++ c :: l' /\ content_tags body /\ closing c n /\ completes st' l'
  end.
Lemma content_app a b : content_tags a -> content_tags b -> content_tags (a ++ b).
Proof.
  intro H. induction H as [|t l B H IH|l1 l2 E H IH]; intro Hb; [easy| |].
  - cbn. apply ct_markup; [easy|now apply IH].
  - rewrite <- app_assoc. apply ct_elem; [easy|now apply IH].
Qed.

Lemma completes_content a st l : st <> [] -> content_tags a -> completes st l -> completes st (a ++ l).
Proof.
  intros Hs Ha. destruct st as [|n st]; [easy|]. intros (body & c & l' & -> & Hb & Hc & Hl).
  exists (a ++ body), c, l'. split; [now rewrite <- app_assoc|]. split; [now apply content_app|easy].
Qed.
Lemma text_step_stack m txt m' : text_step m txt m' -> stack m' = stack m.
Proof.
  intros [H|op m1 H D]; [easy|]. inversion H as [|t v B U]; subst. destruct m; [discriminate| |discriminate].
  cbn in D. now injection D as <-.
Qed.
Lemma feeds_completes m toks m' : feeds m toks m' -> Forall (fun x => delimited (snd x)) toks -> m <> MNew ->
  stack m' = [] -> completes (stack m) (map snd toks).
Proof.
  induction 1 as [m|m txt t toks m1 m2 m' X G F IH]; intros D Hm Hd.
  - rewrite Hd. now left.
  - apply Forall_cons_iff in D. destruct D as [D1 D2]. cbn [snd] in D1. cbn [map snd].
    rewrite <- (text_step_stack _ _ _ X).
    assert (Hm1 : m1 <> MNew).
    { destruct X as [|op m1 H E]; [easy|]. now apply m_do_not_new in E. }
    clear X Hm m txt. destruct G as [op m2 H E].
    specialize (IH D2 (m_do_not_new _ _ _ E) Hd).
    apply tag_op_effect in H; [|easy].
    destruct H as [n B N1 N2 _ _|b e O Z _|b e O Z _|a C Ht].
    + destruct m1 as [|a ks outer|a ks]; [easy| |discriminate]. cbn in E. injection E as <-.
      apply (completes_content [t]); [easy|apply ct_markup; [easy|constructor]|exact IH].
    + destruct m1 as [|a ks outer|a ks]; [easy| |discriminate]. cbn in E. injection E as <-.
      apply (completes_content [t]); [easy| |exact IH].
      rewrite <- (app_nil_r [t]). apply ct_elem; [now apply et_single with (tag_name e)|constructor].
    + destruct m1 as [|a ks outer|a ks]; [easy| |]; cbn in E; injection E as <-.
      * cbn [stack map fst] in IH. destruct IH as (body & c & l' & -> & Hb & Hc & Hl).
        change (tag_name a :: map (fun x => tag_name (fst x)) outer) with (stack (MOpen a ks outer)) in Hl.
        replace (t :: body ++ c :: l') with ((t :: body ++ [c]) ++ l') by (cbn; now rewrite <- app_assoc).
        apply completes_content; [easy| |exact Hl].
        rewrite <- (app_nil_r (t :: body ++ [c])). apply ct_elem; [now apply et_pair with (tag_name e)|constructor].
      * cbn [stack map fst] in IH. destruct IH as (body & c & l' & -> & Hb & Hc & Hl).
        cbn [stack completes]. right.
        assert (EE : element_tags (t :: body ++ [c])) by now apply et_pair with (tag_name e).
        replace (t :: body ++ c :: l') with ((t :: body ++ [c]) ++ l') by (cbn; now rewrite <- app_assoc).
        destruct Hl as [->|Hl]; [rewrite app_nil_r; now apply ro_one|now apply ro_more].
    + destruct m1 as [|a' ks outer|a' ks]; [easy| |discriminate]. cbn in Ht. injection Ht as ->.
      cbn [stack]. exists [], t, (map snd toks). split; [easy|]. split; [constructor|]. split; [easy|].
      destruct outer as [|[a1 ks1] outer]; cbn in E; injection E as <-; exact IH.
Qed.

Lemma prolog_likes st p n decl dtds toks decl' dtds' : prolog st p n decl dtds toks decl' dtds' ->
  Forall (fun x => prolog_like (snd x)) toks.
Proof.
  induction 1 as [| ? ? ? ? ? ? ? ? ? ? B1 B2 B3 P IH | ? ? ? ? ? ? ? ? ? ? B1 B2 B3 P IH | ? ? ? ? ? ? ? ? ? ? ? B1 B2 B3 P IH | ? ? ? ? ? ? ? ? ? ? B1 B2 B3 B4 P IH];
    constructor; try easy; cbn.
  - now right.
  - left. eapply begins_trans; [|exact B2]. now exists (lit "--").
  - left. eapply begins_trans; [|exact B2]. now exists (lit "DOCTYPE").
  - now left.
Qed.

(** The tokens of an accepted document. *)
Lemma lexed_splits s a rest body tail : lexed s a rest -> splits rest body tail -> splits s (a ++ body) tail.
Proof. intros L [L' N]. split; [now apply lexed_app with rest|easy]. Qed.

Theorem accepts_balanced s d : accepts s d -> exists pr el tail,
  splits s (pr ++ el) tail /\ Forall (fun x => prolog_like (snd x)) pr /\ roots_tags (map snd el) /\ starts_with_element el.
Proof.
  intros [toks txt root rest decl dtds b e body tail m r ks L P B R S E Sp H1 H2 Hm].
  exists toks, ((txt, root) :: body), tail. split.
  { replace (toks ++ (txt, root) :: body) with ((toks ++ [(txt, root)]) ++ body) by now rewrite <- app_assoc.
    now apply lexed_splits with rest. }
  split; [now apply prolog_likes in P|].
  split; [|exists txt, root, body; split; [easy|]; destruct R as (N1 & N2 & _); now intros [?|?]].
  cbn [map snd]. pose proof (lexed_delimited _ _ _ L) as D. apply Forall_app in D. destruct D as [_ D].
  apply Forall_cons_iff in D. destruct D as [D _]. cbn in D. destruct R as (N1 & N2 & N3 & C).
  assert (O : opening root (tag_name e)) by now apply open_opening with None b.
  destruct (ends_with (lit "/>") root) eqn:Ez.
  - apply ends_spec in Ez. destruct (H1 Ez) as [-> _]. cbn. apply ro_one. now apply et_single with (tag_name e).
  - assert (Z : ~ ends (lit "/>") root).
    { intros [y Hy]. now apply (proj1 (ends_with_false _ _) Ez y). }
    specialize (H2 Z). subst m. destruct Sp as [Lb _].
    pose proof (feeds_completes _ _ _ H2 (lexed_delimited _ _ _ Lb) ltac:(discriminate) eq_refl) as Hc.
    cbn [stack map] in Hc. destruct Hc as (bd & c & l' & -> & Hb & Hc & Hl).
    assert (EE : element_tags (root :: bd ++ [c])) by now apply et_pair with (tag_name e).
    replace (root :: bd ++ c :: l') with ((root :: bd ++ [c]) ++ l') by (cbn; now rewrite <- app_assoc).
    destruct Hl as [->|Hl]; [rewrite app_nil_r; now apply ro_one|now apply ro_more].
Qed.

(** * One element *)

Inductive inside : machine -> list (str * str) -> machine -> Prop :=
| in_nil m : inside m [] m
| in_cons e ks outer txt t toks m1 m2 m' : text_step (MOpen e ks outer) txt m1 -> tag_step m1 t m2 ->
    inside m2 toks m' -> inside (MOpen e ks outer) ((txt, t) :: toks) m'.
Lemma inside_app m a m1 b m2 : inside m a m1 -> inside m1 b m2 -> inside m (a ++ b) m2.
Proof. intros H H'. induction H as [m|e ks outer txt t toks ma mb m' X G H IH]; [easy|]. cbn. apply in_cons with ma mb; [easy..|now apply IH]. Qed.
Lemma feeds_app a : forall m b m2, feeds m (a ++ b) m2 -> exists m1, feeds m a m1 /\ feeds m1 b m2.
Proof.
  induction a as [|x a IH]; intros m b m2 H; [exists m; split; [constructor|easy]|].
  cbn in H. inversion H as [|? txt t ? ma mb ? X G F]; subst. destruct (IH _ _ _ F) as (m1 & F1 & F2).
  exists m1. split; [|easy]. now apply fd_cons with ma mb.
Qed.
Lemma text_step_open e ks outer txt m1 : text_step (MOpen e ks outer) txt m1 ->
  exists ks1, m1 = MOpen e ks1 outer.
Proof.
  intros [H|op m' H D]; [now exists ks|]. inversion H; subst. cbn in D. injection D as <-. now eexists.
Qed.

Lemma step_opening m1 t m2 n : delimited t -> opening t n -> ~ self_closing t -> tag_step m1 t m2 ->
  exists e b, opening t (tag_name e) /\ element_of (m_top m1) b = Ok e /\ m_do m1 (OpPush e) = Some m2.
Proof.
  intros D O Z [op m' H E]. apply tag_op_effect in H; [|easy].
  destruct H as [x B N1 N2 _ _|b e O' Z' E'|b e O' Z' E'|a C Ht].
  - now destruct O as (O & _).
  - contradiction.
  - now exists e, b.
  - exfalso. now apply (opening_closing t n (tag_name a)).
Qed.
Lemma step_single m1 t m2 n : delimited t -> opening t n -> self_closing t -> tag_step m1 t m2 ->
  exists e b, opening t (tag_name e) /\ element_of (m_top m1) b = Ok e /\ m_do m1 (OpAppend (NElem e)) = Some m2.
Proof.
  intros D O Z [op m' H E]. apply tag_op_effect in H; [|easy].
  destruct H as [x B N1 N2 _ _|b e O' Z' E'|b e O' Z' E'|a C Ht].
  - now destruct O as (O & _).
  - now exists e, b.
  - contradiction.
  - exfalso. now apply (opening_closing t n (tag_name a)).
Qed.
Lemma step_closing m1 t m2 n : delimited t -> closing t n -> tag_step m1 t m2 ->
  exists a, m_top m1 = Some a /\ closing t (tag_name a) /\ m_do m1 OpPop = Some m2.
Proof.
  intros D C [op m' H E]. apply tag_op_effect in H; [|easy].
  destruct H as [x B N1 N2 _ _|b e O' Z' E'|b e O' Z' E'|a C' Ht].
  - now apply closing_not_markup in C.
  - exfalso. now apply (opening_closing t (tag_name e) n).
  - exfalso. now apply (opening_closing t (tag_name e) n).
  - now exists a.
Qed.
Lemma step_markup m1 t m2 : delimited t -> begins (lit "<!") t -> tag_step m1 t m2 ->
  exists n, (forall e, n <> NElem e) /\ m_do m1 (OpAppend n) = Some m2.
Proof.
  intros D C [op m' H E]. apply tag_op_effect in H; [|easy].
  destruct H as [x B N1 N2 _ _|b e O' Z' E'|b e O' Z' E'|a C' Ht].
  - now exists x.
  - now destruct O' as (O & _).
  - now destruct O' as (O & _).
  - now apply closing_not_markup in C'.
Qed.

Lemma map_snd_app {A B} (toks : list (A * B)) a b : map snd toks = a ++ b ->
  exists ta tb, toks = ta ++ tb /\ map snd ta = a /\ map snd tb = b.
Proof. intro H. apply map_eq_app in H. destruct H as (ta & tb & -> & <- & <-). now exists ta, tb. Qed.

Lemma stays_inside :
  (forall l, element_tags l -> forall toks, map snd toks = l -> Forall (fun x => delimited (snd x)) toks ->
     forall e ks outer m', feeds (MOpen e ks outer) toks m' ->
     exists ks', m' = MOpen e ks' outer /\ inside (MOpen e ks outer) toks m') /\
  (forall l, content_tags l -> forall toks, map snd toks = l -> Forall (fun x => delimited (snd x)) toks ->
     forall e ks outer m', feeds (MOpen e ks outer) toks m' ->
     exists ks', m' = MOpen e ks' outer /\ inside (MOpen e ks outer) toks m').
Proof.
  apply tags_ind2.
  - intros t n O Z toks Et D e ks outer m' F.
    destruct toks as [|[txt t'] [|]]; try discriminate. injection Et as ->.
    apply Forall_cons_iff in D. destruct D as [D _]. cbn in D.
    inversion F as [|? ? ? ? m1 m2 ? X G F2]; subst. inversion F2; subst.
    destruct (text_step_open _ _ _ _ _ X) as [ks1 ->].
    destruct (step_single _ _ _ _ D O Z G) as (e2 & b & _ & _ & E). cbn in E. injection E as <-.
    eexists. split; [reflexivity|]. eapply in_cons; [exact X|exact G|constructor].
  - intros t n body c O Z Hb IH C toks Et D e ks outer m' F.
    destruct toks as [|[txt t'] toks]; [discriminate|]. injection Et as -> Et.
    apply map_snd_app in Et. destruct Et as (tb & tc & -> & Etb & Etc).
    destruct tc as [|[txc c'] [|]]; try discriminate. injection Etc as ->.
    apply Forall_cons_iff in D. destruct D as [D1 D2]. apply Forall_app in D2. destruct D2 as [D2 D3].
    apply Forall_cons_iff in D3. destruct D3 as [D3 _]. cbn in D1, D3.
    inversion F as [|? ? ? ? m1 m2 ? X G F2]; subst.
    destruct (text_step_open _ _ _ _ _ X) as [ks1 ->].
    destruct (step_opening _ _ _ _ D1 O Z G) as (e2 & b & _ & _ & E). cbn in E. injection E as <-.
    apply feeds_app in F2. destruct F2 as (m3 & F2 & F3).
    destruct (IH tb eq_refl D2 _ _ _ _ F2) as (ks3 & -> & I).
    inversion F3 as [|? ? ? ? m4 m5 ? X4 G4 F4]; subst. inversion F4; subst.
    destruct (text_step_open _ _ _ _ _ X4) as [ks4 ->].
    destruct (step_closing _ _ _ _ D3 C G4) as (a & Ea & _ & E). cbn in E. injection E as <-.
    eexists. split; [reflexivity|]. eapply in_cons; [exact X|exact G|].
    eapply inside_app; [exact I|]. eapply in_cons; [exact X4|exact G4|constructor].
  - intros toks Et D e ks outer m' F. destruct toks; [|discriminate]. inversion F; subst.
    exists ks. split; [easy|constructor].
  - intros t l B Hl IH toks Et D e ks outer m' F.
    destruct toks as [|[txt t'] toks]; [discriminate|]. injection Et as -> Et.
    apply Forall_cons_iff in D. destruct D as [D1 D2]. cbn in D1.
    inversion F as [|? ? ? ? m1 m2 ? X G F2]; subst.
    destruct (text_step_open _ _ _ _ _ X) as [ks1 ->].
    destruct (step_markup _ _ _ D1 B G) as (n & _ & E). cbn in E. injection E as <-.
    destruct (IH toks eq_refl D2 _ _ _ _ F2) as (ks' & -> & I).
    exists ks'. split; [easy|]. now eapply in_cons; [exact X|exact G|].
  - intros l1 l2 H1 IH1 H2 IH2 toks Et D e ks outer m' F.
    apply map_snd_app in Et. destruct Et as (ta & tb & -> & Eta & Etb).
    apply Forall_app in D. destruct D as [D1 D2]. apply feeds_app in F. destruct F as (m1 & F1 & F2).
    destruct (IH1 ta Eta D1 _ _ _ _ F1) as (ks1 & -> & I1).
    destruct (IH2 tb Etb D2 _ _ _ _ F2) as (ks2 & -> & I2).
    exists ks2. split; [easy|]. now apply inside_app with (MOpen e ks1 outer).
Qed.

(** The part of the input before the root element is determined. *)
Lemma prolog_cut (pr pr' : list (str * str)) el el' : pr ++ el = pr' ++ el' ->
  Forall (fun x => prolog_like (snd x)) pr -> Forall (fun x => prolog_like (snd x)) pr' ->
  starts_with_element el -> starts_with_element el' -> pr = pr' /\ el = el'.
Proof.
  revert pr'. induction pr as [|x pr IH]; intros pr' E P P' S S'.
  - destruct pr' as [|y pr']; [now split|]. exfalso. destruct S as (txt & t & rest & -> & N).
    injection E as <- _. apply Forall_cons_iff in P'. now destruct P' as [P' _].
  - destruct pr' as [|y pr'].
    + exfalso. destruct S' as (txt & t & rest & -> & N). injection E as -> _.
      apply Forall_cons_iff in P. now destruct P as [P _].
    + injection E as <- E. apply Forall_cons_iff in P, P'. destruct (IH pr') as [-> ->]; easy.
Qed.

(** The root element followed by whatever comes next. *)
Lemma root_run e root tb m el : element_tags (root :: map snd tb) -> ~ self_closing root ->
  Forall (fun x => delimited (snd x)) tb -> feeds (MOpen e [] []) (tb ++ el) m ->
  exists ks, inside (MOpen e [] []) tb (MDone e ks) /\ feeds (MDone e ks) el m.
Proof.
  intros ET Z D F. inversion ET as [t n O Z' Et|t n body c O Z' Hb C Et]; subst; [contradiction|].
  symmetry in H. apply map_snd_app in H. destruct H as (tb' & tc & -> & Etb & Etc).
  destruct tc as [|[txc c'] [|]]; try discriminate. injection Etc as ->.
  apply Forall_app in D. destruct D as [D1 D2]. apply Forall_cons_iff in D2. destruct D2 as [D2 _]. cbn in D2.
  rewrite <- app_assoc in F. apply feeds_app in F. destruct F as (m1 & F1 & F2).
  destruct (proj2 stays_inside _ Hb _ Etb D1 _ _ _ _ F1) as (ks1 & -> & I1).
  cbn [app] in F2. inversion F2 as [|? ? ? ? m4 m5 ? X4 G4 F4]; subst.
  destruct (text_step_open _ _ _ _ _ X4) as [ks4 ->].
  destruct (step_closing _ _ _ _ D2 C G4) as (a & Ea & _ & E). cbn in E. injection E as <-.
  exists ks4. split; [|easy]. eapply inside_app; [exact I1|]. eapply in_cons; [exact X4|exact G4|constructor].
Qed.

Lemma element_tags_single t l : element_tags (t :: l) -> self_closing t -> l = [].
Proof. intros H Z. inversion H; subst; [easy|contradiction]. Qed.
Lemma element_tags_head t l : element_tags (t :: l) -> exists n, opening t n.
Proof. intro H. inversion H; subst; now exists n. Qed.

Lemma accepts_root s d pr el rest tail : accepts s d -> splits s (pr ++ el ++ rest) tail ->
  Forall (fun x => prolog_like (snd x)) pr -> element_tags (map snd el) -> starts_with_element el ->
  exists decl dtds txt root body b e m r ks,
    el = (txt, root) :: body /\ prolog 0 0 0 None [] pr decl dtds /\ ws txt /\ opening root (tag_name e) /\
    strip_tag root = Ok b /\ element_of None b = Ok e /\ m = MDone r ks /\
    d = mkDoc decl dtds (build r (map assemble ks)) /\
    ((self_closing root /\ body = [] /\ rest = [] /\ r = e /\ ks = []) \/
     (~ self_closing root /\ exists ks0, inside (MOpen e [] []) body (MDone e ks0) /\ feeds (MDone e ks0) rest m)).
Proof.
  intros A Sp0 P0 ET SE. destruct A as [toks txt root rest0 decl dtds b e body tail0 m r ks L P B R S E Sp H1 H2 Hm].
  assert (Sp1 : splits s (toks ++ (txt, root) :: body) tail0).
  { replace (toks ++ (txt, root) :: body) with ((toks ++ [(txt, root)]) ++ body) by now rewrite <- app_assoc.
    now apply lexed_splits with rest0. }
  destruct (splits_fun _ _ _ _ _ Sp1 Sp0) as [EQ _].
  destruct SE as (txt1 & root1 & body1 & -> & N).
  assert (SE' : starts_with_element (((txt1, root1) :: body1) ++ rest)) by (now exists txt1, root1, (body1 ++ rest)).
  assert (SE : starts_with_element ((txt, root) :: body)).
  { exists txt, root, body. split; [easy|]. destruct R as (N1 & N2 & _). now intros [?|?]. }
  destruct (prolog_cut _ _ _ _ EQ (prolog_likes _ _ _ _ _ _ _ _ P) P0 SE SE') as [-> EL].
  cbn [app] in EL. injection EL as <- <- ->.
  exists decl, dtds, txt, root, body1, b, e, m, r, ks.
  pose proof (lexed_delimited _ _ _ L) as D. apply Forall_app in D. destruct D as [_ D].
  apply Forall_cons_iff in D. destruct D as [D _]. cbn in D. destruct R as (N1 & N2 & N3 & C).
  assert (O : opening root (tag_name e)) by now apply open_opening with None b.
  split; [easy|]. split; [easy|]. split; [easy|]. split; [easy|]. split; [easy|]. split; [easy|].
  split; [easy|]. split; [easy|]. cbn [map snd] in ET.
  destruct (ends_with (lit "/>") root) eqn:Ez.
  - apply ends_spec in Ez. left. destruct (H1 Ez) as [Eb Em]. apply app_eq_nil in Eb. destruct Eb as [-> ->].
    rewrite Hm in Em. injection Em as -> ->. easy.
  - right. assert (Z : ~ self_closing root).
    { intros [y Hy]. now apply (proj1 (ends_with_false _ _) Ez y). }
    split; [easy|]. specialize (H2 Z). destruct Sp as [Lb _].
    pose proof (lexed_delimited _ _ _ Lb) as Db. apply Forall_app in Db. destruct Db as [Db _].
    destruct (root_run _ _ _ _ _ ET Z Db H2) as (ks0 & I & F). now exists ks0.
Qed.

(** After the root element. *)
Theorem accepts_after_root s d pr el txt t rest tail : accepts s d ->
  splits s (pr ++ el ++ (txt, t) :: rest) tail ->
  Forall (fun x => prolog_like (snd x)) pr -> element_tags (map snd el) -> starts_with_element el ->
  ws txt /\ (exists n, opening t n) /\ ~ self_closing t /\ 2 <= List.length el.
Proof.
  intros A Sp P ET SE.
  destruct (accepts_root _ _ _ _ _ _ A Sp P ET SE) as (decl & dtds & txt0 & root & body & b & e & m & r & ks & -> & _ & _ & _ & _ & _ & _ & _ & H).
  destruct H as [(_ & _ & H & _)|(Z & ks0 & I & F)]; [discriminate|].
  inversion F as [|? ? ? ? m1 m2 ? X G F2]; subst.
  assert (m1 = MDone e ks0 /\ ws txt) as [-> W].
  { destruct X as [X|op m' X D]; inversion X; subst; [easy|discriminate]. }
  split; [easy|].
  destruct Sp as [L _]. apply lexed_delimited in L. apply Forall_app in L. destruct L as [_ L].
  apply Forall_app in L. destruct L as [_ L]. apply Forall_cons_iff in L. destruct L as [D _]. cbn in D.
  destruct G as [op m' H E]. apply tag_op_effect in H; [|easy].
  destruct H as [x Bx N1 N2 _ _|bb e' O' Z' E'|bb e' O' Z' E'|a C' Ht]; try discriminate.
  split; [now exists (tag_name e')|]. split; [easy|].
  destruct body as [|y body]; [|cbn; lia]. exfalso. cbn in ET. inversion ET; subst; [contradiction|].
  destruct body; discriminate.
Qed.

(** A single root element. *)
Theorem accepts_one_root s d pr el : accepts s d -> one_root s pr el ->
  exists decl dtds txt root body b e ks,
    el = (txt, root) :: body /\ prolog 0 0 0 None [] pr decl dtds /\ ws txt /\ opening root (tag_name e) /\
    strip_tag root = Ok b /\ element_of None b = Ok e /\
    d = mkDoc decl dtds (build e (map assemble ks)) /\
    ((self_closing root /\ body = [] /\ ks = []) \/
     (~ self_closing root /\ inside (MOpen e [] []) body (MDone e ks))) /\
    Forall (fun x => delimited (snd x)) body.
Proof.
  intros A (Sp & P & ET & SE). destruct Sp as [tail Sp]. rewrite <- (app_nil_r el) in Sp.
  destruct (accepts_root _ _ _ _ _ _ A Sp P ET SE) as (decl & dtds & txt0 & root & body & b & e & m & r & ks & -> & H1 & H2 & H3 & H4 & H5 & Em & H6 & H).
  assert (D : Forall (fun x => delimited (snd x)) body).
  { destruct Sp as [L _]. rewrite app_nil_r in L. apply lexed_delimited in L. apply Forall_app in L. destruct L as [_ L].
    now apply Forall_cons_iff in L. }
  destruct H as [(Z & -> & _ & -> & ->)|(Z & ks0 & I & F)].
  - exists decl, dtds, txt0, root, [], b, e, []. now repeat (split; [easy|]); split; [left|].
  - assert (EM : MDone e ks0 = MDone r ks) by (rewrite <- Em; now inversion F). injection EM as <- <-. exists decl, dtds, txt0, root, body, b, e, ks0.
    now repeat (split; [easy|]); split; [right|].
Qed.

(** Boolean checks of the conditions of SpecXml, used to show that concrete
    documents meet them, and what a document of SpecXml says, computed. *)
From Coq Require Import List NArith Arith Bool Ascii String Lia Permutation.
From Verif Require Import Base BaseFacts Escape Dom Spec SpecDom DomFacts SerFacts SpecLex SpecParse DocCheck ApiFacts SpecXml XmlFacts.
Import ListNotations.

Definition allb (f : char -> bool) (s : str) : bool := forallb f s.
Lemma allb_ok (f : char -> bool) (P : char -> Prop) s : (forall c, f c = true -> P c) -> allb f s = true -> Forall P s.
Proof. intros H E. unfold allb in E. rewrite forallb_forall in E. apply Forall_forall. intros c Hc. now apply H, E. Qed.
Lemma rangesb_ok l c : in_rangesb l c = true -> in_ranges l c.
Proof. apply in_rangesb_ok. Qed.
Definition charb : char -> bool := in_rangesb [(9, 10); (13, 13); (32, 55295); (57344, 65533); (65536, 1114111)]%N.
Lemma charb_ok c : charb c = true -> xml_char c.
Proof. apply rangesb_ok. Qed.
Definition spaceb (c : char) : bool := inb c [32; 9; 13; 10]%N.
Lemma inb_in c s : inb c s = true -> In c s.
Proof. unfold inb. intro H. apply existsb_exists in H. destruct H as (x & Hx & E). apply N.eqb_eq in E. now subst x. Qed.
Definition spacesb (s : str) : bool := allb spaceb s.
Lemma spacesb_ok s : spacesb s = true -> spaces s.
Proof. apply allb_ok. intros c H. now apply inb_in. Qed.
Definition firstb : char -> bool := in_rangesb start_ranges.
Definition nextb (c : char) : bool := firstb c || in_rangesb [(45, 46); (48, 57); (183, 183); (768, 879); (8255, 8256)]%N c.
Lemma nextb_ok c : nextb c = true -> name_next c.
Proof. unfold nextb. rewrite orb_true_iff. intros [H|H]; [left; now apply (rangesb_ok start_ranges)|right; now apply rangesb_ok]. Qed.
Definition is_nameb (s : str) : bool := match s with [] => false | c :: r => firstb c && allb nextb r end.
Lemma is_nameb_ok s : is_nameb s = true -> is_name s.
Proof.
  destruct s as [|c r]; [easy|]. cbn. rewrite andb_true_iff. intros [H1 H2]. exists c, r. split; [easy|].
  split; [now apply (rangesb_ok start_ranges)|]. apply (allb_ok nextb); [apply nextb_ok|easy].
Qed.
Definition ncnameb (s : str) : bool := is_nameb s && negb (inb 58%N s).
Lemma ncnameb_ok s : ncnameb s = true -> is_ncname s.
Proof. unfold ncnameb. rewrite andb_true_iff, negb_true_iff. intros [H1 H2]. split; [now apply is_nameb_ok|now apply inb_ok]. Qed.
(** The prefix and local part of a QName. *)
Definition qname_of (s : str) : option (option str * str) :=
  match cut s with
  | None => if ncnameb s then Some (None, s) else None
  | Some (a, b) => if ncnameb a && ncnameb b then Some (Some a, b) else None
  end.
Lemma qname_of_ok s p n : qname_of s = Some (p, n) -> qname s p n.
Proof.
  unfold qname_of. destruct (cut s) as [[a b]|] eqn:E.
  - destruct (ncnameb a && ncnameb b) eqn:H; [|easy]. intro X. injection X as <- <-. apply andb_true_iff in H. destruct H as [H1 H2].
    apply cut_ok in E. subst s. constructor; now apply ncnameb_ok.
  - destruct (ncnameb s) eqn:H; [|easy]. intro X. injection X as <- <-. constructor. now apply ncnameb_ok.
Qed.
Definition pieceb (bad : list char) (p : piece) : bool :=
  match p with
  | Chr c => charb c && negb (inb c bad)
  | _ => match refers p with Some c => charb c | None => false end
  end.
Lemma pieceb_ok bad p : pieceb bad p = true -> reference_ok p /\ forall c, p = Chr c -> xml_char c /\ ~ In c bad.
Proof.
  intro H. destruct p as [c|nm|ds|ds]; unfold pieceb in H.
  - apply andb_true_iff in H. destruct H as [H1 H2]. apply negb_true_iff in H2. split; [easy|]. intros c' E. injection E as <-.
    split; [now apply charb_ok|now apply inb_ok].
  - split; [|easy]. unfold reference_ok. destruct (refers _) as [c|]; [|easy]. exists c. split; [easy|now apply charb_ok].
  - split; [|easy]. unfold reference_ok. destruct (refers _) as [c|]; [|easy]. exists c. split; [easy|now apply charb_ok].
  - split; [|easy]. unfold reference_ok. destruct (refers _) as [c|]; [|easy]. exists c. split; [easy|now apply charb_ok].
Qed.
Lemma piecesb_ok bad l : forallb (pieceb bad) l = true ->
  Forall (fun p => reference_ok p /\ forall c, p = Chr c -> xml_char c /\ ~ In c bad) l.
Proof. intro H. rewrite forallb_forall in H. apply Forall_forall. intros p Hp. now apply pieceb_ok, H. Qed.
Definition chardatab (l : list piece) : bool := forallb (pieceb [60; 38]%N) l && negb (occursb (lit "]]>") (pieces_text l)).
Lemma chardatab_ok l : chardatab l = true -> chardata_ok l.
Proof. unfold chardatab. rewrite andb_true_iff, negb_true_iff. intros [H1 H2]. split; [now apply piecesb_ok|now apply occursb_ok]. Qed.
Definition quoteb (q : char) : bool := is_quote q.
Lemma quoteb_ok q : quoteb q = true -> quote_ok q.
Proof. unfold quoteb, is_quote, quote_ok. rewrite orb_true_iff, !N.eqb_eq. easy. Qed.
Definition nonempty (s : str) : bool := match s with [] => false | _ => true end.
Lemma nonempty_ok s : nonempty s = true -> s <> [].
Proof. now destruct s. Qed.
Definition attributeb (a : attribute) : bool :=
  nonempty (at_space a) && spacesb (at_space a) && match qname_of (at_name a) with Some _ => true | None => false end &&
  spacesb (at_eq1 a) && spacesb (at_eq2 a) && quoteb (at_quote a) && forallb (pieceb [60; 38; at_quote a]%N) (at_value a).
Lemma attributeb_ok a : attributeb a = true -> attribute_ok a.
Proof.
  unfold attributeb. rewrite !andb_true_iff. intros ((((((H1 & H2) & H3) & H4) & H5) & H6) & H7).
  split; [now apply nonempty_ok|]. split; [now apply spacesb_ok|]. split.
  { destruct (qname_of (at_name a)) as [[p n]|] eqn:E; [|easy]. exists p, n. now apply qname_of_ok. }
  split; [now apply spacesb_ok|]. split; [now apply spacesb_ok|]. split; [now apply quoteb_ok|]. now apply piecesb_ok.
Qed.
Fixpoint distinctb (l : list str) : bool :=
  match l with [] => true | k :: r => negb (existsb (str_eqb k) r) && distinctb r end.
Lemma distinctb_ok l : distinctb l = true -> NoDup l.
Proof.
  induction l as [|k r IH]; [constructor|]. cbn. rewrite andb_true_iff, negb_true_iff. intros [H1 H2]. constructor; [|now apply IH].
  intro I. enough (existsb (str_eqb k) r = true) by congruence. apply existsb_exists. exists k. now rewrite str_eqb_refl.
Qed.
Definition attributesb (l : list attribute) : bool :=
  forallb attributeb l && distinctb (map at_name l) &&
  forallb (fun a => negb (starts_with (lit "xmlns:") (at_name a)) || nonempty (value_said (at_value a))) l.
Lemma attributesb_ok l : attributesb l = true -> attributes_ok l.
Proof.
  unfold attributesb. rewrite !andb_true_iff, !forallb_forall. intros [[H1 H2] H3]. split; [|split].
  - apply Forall_forall. intros a Ha. now apply attributeb_ok, H1.
  - now apply distinctb_ok.
  - intros a p I E. apply H3 in I. rewrite E in I. rewrite begins_starts in I by now exists p. now apply nonempty_ok.
Qed.
Definition commentb' (c : str) : bool :=
  allb charb c && negb (occursb (lit "--") c) && negb (match rev c with d :: _ => (d =? 45)%N | [] => false end).
Lemma commentb'_ok c : commentb' c = true -> comment_ok c.
Proof.
  unfold commentb'. rewrite !andb_true_iff, !negb_true_iff. intros [[H1 H2] H3]. split; [now apply (allb_ok charb); [apply charb_ok|]|].
  split; [now apply occursb_ok|]. intros [a ->]. rewrite rev_app_distr in H3. discriminate H3.
Qed.
Definition cdatab' (c : str) : bool := allb charb c && negb (occursb (lit "]]>") c).
Lemma cdatab'_ok c : cdatab' c = true -> cdata_ok c.
Proof.
  unfold cdatab'. rewrite !andb_true_iff, !negb_true_iff. intros [H1 H2]. split; [now apply (allb_ok charb); [apply charb_ok|]|].
  now apply occursb_ok.
Qed.
Definition is_xml (t : str) : bool :=
  match t with [x; m; l] => inb x [120; 88]%N && inb m [109; 77]%N && inb l [108; 76]%N | _ => false end.
Definition pib (p : pi) : bool :=
  is_nameb (pi_target p) && negb (is_xml (pi_target p)) &&
  match pi_data p with [] => true | c :: r => spaceb c && allb charb r end && negb (occursb (lit "?>") (pi_data p)).
Lemma in_inb c s : In c s -> inb c s = true.
Proof. intro H. apply existsb_exists. exists c. now rewrite N.eqb_refl. Qed.
Lemma pib_ok p : pib p = true -> pi_ok p.
Proof.
  unfold pib. rewrite !andb_true_iff, !negb_true_iff. intros [[[H1 H2] H3] H4]. split; [now apply is_nameb_ok|]. split; [|split].
  - intros (x & m & l & E & I1 & I2 & I3). rewrite E in H2. cbn [is_xml] in H2. rewrite !in_inb in H2 by easy. discriminate.
  - destruct (pi_data p) as [|c r]; [now left|]. right. exists c, r. apply andb_true_iff in H3. destruct H3 as [H3 H5].
    split; [easy|]. split; [now apply inb_in|]. now apply (allb_ok charb); [apply charb_ok|].
  - now apply occursb_ok.
Qed.
Definition tagb (sc : scope) (nm : str) (attrs : list attribute) (w : str) : bool :=
  match qname_of nm with
  | Some (Some q, _) => match declare attrs sc (Some q) with Some _ => true | None => false end
  | Some (None, _) => true
  | None => false
  end && attributesb attrs && spacesb w.
Lemma tagb_ok sc nm attrs w : tagb sc nm attrs w = true -> tag_ok sc nm attrs w.
Proof.
  unfold tagb. rewrite !andb_true_iff. intros [[H1 H2] H3]. split; [|split; [now apply attributesb_ok|now apply spacesb_ok]].
  destruct (qname_of nm) as [[p n]|] eqn:E; [|easy]. exists p, n. split; [now apply qname_of_ok|]. intros q ->.
  now destruct (declare attrs sc (Some q)).
Qed.
Fixpoint markupb (sc : scope) (m : markup) : bool :=
  match m with
  | MEmpty nm attrs w => tagb sc nm attrs w
  | MElem nm attrs w b w' => tagb sc nm attrs w && contentb (declare attrs sc) b && spacesb w'
  | MComment c => commentb' c
  | MCData c => cdatab' c
  | MPI p => pib p
  end
with contentb (sc : scope) (b : content) : bool :=
  match b with
  | CText t => chardatab t
  | CMore t m b => chardatab t && markupb sc m && contentb sc b
  end.
Lemma markupb_ok : (forall m sc, markupb sc m = true -> markup_ok sc m) /\ (forall b sc, contentb sc b = true -> content_ok sc b).
Proof.
  apply markup_ind2; cbn [markupb contentb markup_ok content_ok].
  - intros nm l w sc. apply tagb_ok.
  - intros nm l w b IH w' sc. rewrite !andb_true_iff. intros [[H1 H2] H3]. split; [now apply tagb_ok|]. split; [now apply IH|now apply spacesb_ok].
  - intros c sc. apply commentb'_ok.
  - intros c sc. apply cdatab'_ok.
  - intros p sc. apply pib_ok.
  - intros t sc. apply chardatab_ok.
  - intros t m IHm b IHb sc. rewrite !andb_true_iff. intros [[H1 H2] H3]. split; [now apply chardatab_ok|]. split; [now apply IHm|now apply IHb].
Qed.
Lemma starts_with_begins p : forall s, starts_with p s = true -> begins p s.
Proof.
  induction p as [|c p IH]; intros s H; [now exists s|]. destruct s as [|d s]; [easy|]. cbn [starts_with] in H.
  apply andb_true_iff in H. destruct H as [H1 H2]. apply N.eqb_eq in H1. destruct (IH _ H2) as [r ->]. exists r. now subst d.
Qed.
Definition pseudob (f : str -> bool) (p : pseudo) : bool :=
  nonempty (ps_space p) && spacesb (ps_space p) && spacesb (ps_eq1 p) && spacesb (ps_eq2 p) && quoteb (ps_quote p) && f (ps_value p).
Lemma pseudob_ok f (P : str -> Prop) p : (forall v, f v = true -> P v) -> pseudob f p = true -> pseudo_ok P p.
Proof.
  intro H. unfold pseudob. rewrite !andb_true_iff. intros (((((H1 & H2) & H3) & H4) & H5) & H6).
  split; [now apply nonempty_ok|]. split; [now apply spacesb_ok|]. split; [now apply spacesb_ok|]. split; [now apply spacesb_ok|].
  split; [now apply quoteb_ok|now apply H].
Qed.
Definition encb (v : str) : bool :=
  match v with
  | [] => false
  | c :: r => in_rangesb [(65, 90); (97, 122)]%N c && allb (in_rangesb [(65, 90); (97, 122); (48, 57); (45, 46); (95, 95)]%N) r
  end.
Definition yesnob (v : str) : bool := str_eqb v (lit "yes") || str_eqb v (lit "no").
Definition xmldeclb (d : xmldecl) : bool :=
  pseudob (fun v => starts_with (lit "1.") v && nonempty (skipn 2 v) && allb (in_rangesb [(48, 57)]%N) (skipn 2 v)) (xd_version d) &&
  match xd_encoding d with Some p => pseudob encb p | None => true end &&
  match xd_standalone d with Some p => pseudob yesnob p | None => true end && spacesb (xd_space d).
Lemma xmldeclb_ok d : xmldeclb d = true -> xmldecl_ok d.
Proof.
  unfold xmldeclb. rewrite !andb_true_iff. intros [[[H1 H2] H3] H4]. split; [|split; [|split]].
  - apply (pseudob_ok _ version_num) in H1; [easy|]. intro v. rewrite !andb_true_iff. intros [[A B] C].
    exists (skipn 2 v). split; [|split; [now apply nonempty_ok|apply (allb_ok (in_rangesb [(48, 57)]%N)); [apply rangesb_ok|easy]]].
    apply starts_with_begins in A. destruct A as [r ->]. reflexivity.
  - intros p E. rewrite E in H2. apply (pseudob_ok _ enc_name) in H2; [easy|]. intros [|c r]; [easy|]. cbn. rewrite andb_true_iff. intros [A B].
    exists c, r. split; [easy|]. split; [now apply rangesb_ok|]. apply (allb_ok (in_rangesb [(65, 90); (97, 122); (48, 57); (45, 46); (95, 95)]%N)); [apply rangesb_ok|easy].
  - intros p E. rewrite E in H3. apply (pseudob_ok _ yes_no) in H3; [easy|]. intros v. unfold yesnob. rewrite orb_true_iff, !str_eqb_eq. easy.
  - now apply spacesb_ok.
Qed.
Definition space1b (w : str) : bool := nonempty w && spacesb w.
Lemma space1b_ok w : space1b w = true -> space_ok w.
Proof. unfold space1b. rewrite andb_true_iff. intros [H1 H2]. split; [now apply nonempty_ok|now apply spacesb_ok]. Qed.
Definition qnameb (s : str) : bool := match qname_of s with Some _ => true | None => false end.
Lemma qnameb_ok s : qnameb s = true -> is_qname s.
Proof. unfold qnameb. destruct (qname_of s) as [[p n]|] eqn:E; [|easy]. intros _. exists p, n. now apply qname_of_ok. Qed.
Definition pubidb (c : char) : bool := inb c [32; 13; 10]%N || in_rangesb [(97, 122); (65, 90); (48, 57)]%N c || inb c (lit "-'()+,./:=?;!*#@$_%").
Lemma pubidb_ok c : pubidb c = true -> pubid_char c.
Proof.
  unfold pubidb. rewrite !orb_true_iff. intros [[H|H]|H]; [left; now apply inb_in|right; left; now apply rangesb_ok|right; right; now apply inb_in].
Qed.
Definition externalb (e : external) : bool :=
  space1b (ex_space e) &&
  match ex_public e with None => true | Some (w, q, l) => space1b w && quoteb q && allb pubidb l && negb (inb q l) end &&
  space1b (ex_space' e) && quoteb (ex_quote e) && allb charb (ex_system e) && negb (inb (ex_quote e) (ex_system e)).
Lemma externalb_ok e : externalb e = true -> external_ok e.
Proof.
  unfold externalb. rewrite !andb_true_iff, negb_true_iff. intros (((((H1 & H2) & H3) & H4) & H5) & H6).
  split; [now apply space1b_ok|]. split.
  { intros w q l E. rewrite E in H2. rewrite !andb_true_iff, negb_true_iff in H2. destruct H2 as (((K1 & K2) & K3) & K4).
    split; [now apply space1b_ok|]. split; [now apply quoteb_ok|]. split; [apply (allb_ok pubidb); [apply pubidb_ok|easy]|now apply inb_ok]. }
  split; [now apply space1b_ok|]. split; [now apply quoteb_ok|]. split; [apply (allb_ok charb); [apply charb_ok|easy]|now apply inb_ok].
Qed.
Definition signb (s : str) : bool := existsb (str_eqb s) [[]; lit "?"; lit "*"; lit "+"].
Lemma signb_ok s : signb s = true -> sign_ok s.
Proof. unfold signb, sign_ok. rewrite existsb_exists. intros (x & I & E). apply str_eqb_eq in E. now subst x. Qed.
Fixpoint cpb (c : cp) : bool :=
  match c with
  | CpName nm sign => qnameb nm && signb sign
  | CpGroup sep w l sign =>
      spacesb w && cpsb l && signb sign &&
      ((sep =? 44)%N || ((sep =? 124)%N && match l with CpMore _ _ _ _ => true | _ => false end))
  end
with cpsb (l : cps) : bool :=
  match l with
  | CpLast c w => cpb c && spacesb w
  | CpMore c w w' l => cpb c && spacesb w && spacesb w' && cpsb l
  end.
Lemma cpsb_ok : (forall c, cpb c = true -> cp_ok c) /\ (forall l, cpsb l = true -> cps_ok l).
Proof.
  apply cp_ind2; cbn [cpb cpsb cp_ok cps_ok].
  - intros nm sign. rewrite andb_true_iff. intros [H1 H2]. split; [now apply qnameb_ok|now apply signb_ok].
  - intros sep w l IH sign. rewrite !andb_true_iff. intros (((H1 & H2) & H3) & H4). split; [now apply spacesb_ok|]. split; [now apply IH|].
    split; [now apply signb_ok|]. apply orb_true_iff in H4. destruct H4 as [H4|H4].
    + left. apply N.eqb_eq in H4. now subst sep.
    + right. apply andb_true_iff in H4. destruct H4 as [H4 H5]. apply N.eqb_eq in H4. subst sep. split; [easy|]. destruct l as [|c v v' k]; [easy|].
      now exists c, v, v', k.
  - intros c IH w. rewrite andb_true_iff. intros [H1 H2]. split; [now apply IH|now apply spacesb_ok].
  - intros c IHc w w' l IHl. rewrite !andb_true_iff. intros (((H1 & H2) & H3) & H4).
    split; [now apply IHc|]. split; [now apply spacesb_ok|]. split; [now apply spacesb_ok|now apply IHl].
Qed.
Definition specb (c : contentspec) : bool :=
  match c with
  | CsEmpty | CsAny => true
  | CsMixed w l w' star =>
      spacesb w && forallb (fun a => spacesb (fst (fst a)) && spacesb (snd (fst a)) && qnameb (snd a)) l && spacesb w' &&
      (str_eqb star (lit "*") || (str_eqb star [] && match l with [] => true | _ => false end))
  | CsChildren c => cpb c && match c with CpGroup _ _ _ _ => true | _ => false end
  end.
Lemma specb_ok c : specb c = true -> spec_ok c.
Proof.
  destruct c as [| |w l w' star|c]; cbn [specb spec_ok]; [easy|easy| |].
  - rewrite !andb_true_iff, forallb_forall. intros (((H1 & H2) & H3) & H4). split; [now apply spacesb_ok|]. split; [|split; [now apply spacesb_ok|]].
    + apply Forall_forall. intros a I. apply H2 in I. rewrite !andb_true_iff in I. destruct I as [[I1 I2] I3].
      split; [now apply spacesb_ok|]. split; [now apply spacesb_ok|now apply qnameb_ok].
    + apply orb_true_iff in H4. rewrite andb_true_iff, !str_eqb_eq in H4. destruct H4 as [H4|[H4 H5]]; [now left|right]. split; [easy|now destruct l].
  - rewrite andb_true_iff. intros [H1 H2]. split; [now apply cpsb_ok|]. destruct c as [|sep w l sign]; [easy|]. now exists sep, w, l, sign.
Qed.
Definition typeb (t : atttype) : bool :=
  match t with
  | AtKeyword kw => existsb (str_eqb kw) keywords
  | AtEnum n w t l w' =>
      match n with Some v => space1b v | None => true end && spacesb w &&
      forallb (fun s => match n with None => nonempty s && allb nextb s | Some _ => ncnameb s end) (t :: map snd l) &&
      forallb (fun a => spacesb (fst (fst a)) && spacesb (snd (fst a))) l && spacesb w'
  end.
Lemma typeb_ok t : typeb t = true -> type_ok t.
Proof.
  destruct t as [kw|n w t l w']; cbn [typeb type_ok].
  - rewrite existsb_exists. intros (x & I & E). apply str_eqb_eq in E. now subst x.
  - rewrite !andb_true_iff, !forallb_forall. intros ((((H1 & H2) & H3) & H4) & H5). split; [intros v ->; now apply space1b_ok|].
    split; [now apply spacesb_ok|]. split; [|split; [|now apply spacesb_ok]].
    + apply Forall_forall. intros s I. apply H3 in I. destruct n; [now apply ncnameb_ok|]. apply andb_true_iff in I. destruct I as [I1 I2].
      split; [now apply nonempty_ok|]. apply (allb_ok nextb); [apply nextb_ok|easy].
    + apply Forall_forall. intros a I. apply H4 in I. apply andb_true_iff in I. destruct I. split; now apply spacesb_ok.
Qed.
Definition defaultb (d : attdefault) : bool :=
  match d with
  | DfRequired | DfImplied => true
  | DfValue f q v => match f with Some w => space1b w | None => true end && quoteb q && forallb (pieceb [60; 38; q]%N) v
  end.
Lemma defaultb_ok d : defaultb d = true -> default_ok d.
Proof.
  destruct d as [| |f q v]; cbn [defaultb default_ok]; [easy..|]. rewrite !andb_true_iff. intros ((H1 & H2) & H3).
  split; [intros w ->; now apply space1b_ok|]. split; [now apply quoteb_ok|now apply piecesb_ok].
Qed.
Definition attdefb (a : attdef) : bool :=
  space1b (ad_space a) && qnameb (ad_name a) && space1b (ad_space1 a) && typeb (ad_type a) && space1b (ad_space2 a) && defaultb (ad_default a).
Lemma attdefb_ok a : attdefb a = true -> attdef_ok a.
Proof.
  unfold attdefb. rewrite !andb_true_iff. intros (((((H1 & H2) & H3) & H4) & H5) & H6).
  split; [now apply space1b_ok|]. split; [now apply qnameb_ok|]. split; [now apply space1b_ok|]. split; [now apply typeb_ok|]. split; [now apply space1b_ok|now apply defaultb_ok].
Qed.
Definition entity_valueb (q : char) (l : list piece) : bool :=
  forallb (fun p => match p with Ent nm => ncnameb nm | _ => pieceb [37; 38; q]%N p end) l.
Lemma entity_valueb_ok q l : entity_valueb q l = true -> entity_value_ok q l.
Proof.
  unfold entity_valueb. rewrite forallb_forall. intro H. apply Forall_forall. intros p I. apply H in I. destruct p as [c|nm|ds|ds].
  - apply pieceb_ok in I. now apply I.
  - now apply ncnameb_ok.
  - now apply pieceb_ok in I.
  - now apply pieceb_ok in I.
Qed.
Definition entitydefb (d : entitydef) : bool :=
  match d with
  | EdValue w q v => space1b w && quoteb q && entity_valueb q v
  | EdExternal e nd => externalb e && match nd with Some (w, w', n) => space1b w && space1b w' && ncnameb n | None => true end
  end.
Lemma entitydefb_ok d : entitydefb d = true -> entitydef_ok d.
Proof.
  destruct d as [w q v|e nd]; cbn [entitydefb entitydef_ok]; rewrite !andb_true_iff.
  - intros ((H1 & H2) & H3). split; [now apply space1b_ok|]. split; [now apply quoteb_ok|now apply entity_valueb_ok].
  - intros (H1 & H2). split; [now apply externalb_ok|]. intros w w' n ->. rewrite !andb_true_iff in H2. destruct H2 as ((K1 & K2) & K3).
    split; [now apply space1b_ok|]. split; [now apply space1b_ok|now apply ncnameb_ok].
Qed.
Definition notationb (i : notationid) : bool :=
  match i with
  | NtExternal e => externalb e
  | NtPublic w w' q l => space1b w && space1b w' && quoteb q && allb pubidb l && negb (inb q l)
  end.
Lemma notationb_ok i : notationb i = true -> notation_ok i.
Proof.
  destruct i as [e|w w' q l]; cbn [notationb notation_ok]; [apply externalb_ok|]. rewrite !andb_true_iff, negb_true_iff. intros ((((H1 & H2) & H3) & H4) & H5).
  split; [now apply space1b_ok|]. split; [now apply space1b_ok|]. split; [now apply quoteb_ok|]. split; [apply (allb_ok pubidb); [apply pubidb_ok|easy]|now apply inb_ok].
Qed.
Definition markupdeclb (m : markupdecl) : bool :=
  match m with
  | DtElement w nm w' cs w'' => space1b w && qnameb nm && space1b w' && specb cs && spacesb w''
  | DtAttlist w nm l w' => space1b w && qnameb nm && forallb attdefb l && spacesb w'
  | DtEntity w nm d w' => space1b w && ncnameb nm && entitydefb d && spacesb w'
  | DtParameter w1 w2 nm d w' =>
      space1b w1 && space1b w2 && ncnameb nm && entitydefb d && match d with EdExternal _ (Some _) => false | _ => true end && spacesb w'
  | DtNotation w nm i w' => space1b w && ncnameb nm && notationb i && spacesb w'
  | DtPI p => pib p
  | DtComment c => commentb' c
  end.
Lemma markupdeclb_ok m : markupdeclb m = true -> markupdecl_ok m.
Proof.
  destruct m as [w nm w' cs w''|w nm l w'|w nm d w'|w1 w2 nm d w'|w nm i w'|p|c]; cbn [markupdeclb markupdecl_ok]; [| | | | |apply pib_ok|apply commentb'_ok];
    rewrite !andb_true_iff.
  - intros ((((H1 & H2) & H3) & H4) & H5).
    split; [now apply space1b_ok|]. split; [now apply qnameb_ok|]. split; [now apply space1b_ok|]. split; [now apply specb_ok|now apply spacesb_ok].
  - rewrite forallb_forall. intros (((H1 & H2) & H3) & H4). split; [now apply space1b_ok|]. split; [now apply qnameb_ok|].
    split; [|now apply spacesb_ok]. apply Forall_forall. intros a I. now apply attdefb_ok, H3.
  - intros (((H1 & H2) & H3) & H4). split; [now apply space1b_ok|]. split; [now apply ncnameb_ok|]. split; [now apply entitydefb_ok|now apply spacesb_ok].
  - intros (((((H1 & H2) & H3) & H4) & H5) & H6). split; [now apply space1b_ok|]. split; [now apply space1b_ok|]. split; [now apply ncnameb_ok|].
    split; [now apply entitydefb_ok|]. split; [|now apply spacesb_ok]. intros e nd ->. now destruct nd.
  - intros (((H1 & H2) & H3) & H4). split; [now apply space1b_ok|]. split; [now apply ncnameb_ok|]. split; [now apply notationb_ok|now apply spacesb_ok].
Qed.
Definition xdoctypeb (d : doctype) : bool :=
  space1b (dt_space d) && qnameb (dt_name d) && match dt_external d with Some e => externalb e | None => true end && spacesb (dt_space' d) &&
  match dt_subset d with
  | Some (l, w, w') => forallb (fun p => spacesb (fst p) && markupdeclb (snd p)) l && spacesb w && spacesb w'
  | None => true
  end.
Lemma xdoctypeb_ok d : xdoctypeb d = true -> doctype_ok d.
Proof.
  unfold xdoctypeb. rewrite !andb_true_iff. intros ((((H1 & H2) & H3) & H4) & H5). split; [now apply space1b_ok|]. split; [now apply qnameb_ok|].
  split; [intros e E; rewrite E in H3; now apply externalb_ok|]. split; [now apply spacesb_ok|].
  intros l w w' E. rewrite E in H5. rewrite !andb_true_iff, forallb_forall in H5. destruct H5 as ((K1 & K2) & K3).
  split; [|split; now apply spacesb_ok]. apply Forall_forall. intros p I. apply K1 in I. apply andb_true_iff in I. destruct I as [I1 I2].
  split; [now apply spacesb_ok|now apply markupdeclb_ok].
Qed.
Definition miscsb (l : list (str * misc)) : bool :=
  forallb (fun p => spacesb (fst p) && match snd p with MiscComment c => commentb' c | MiscPI p => pib p | MiscDoctype d => xdoctypeb d end) l.
Lemma miscsb_ok l : miscsb l = true -> miscs_ok l.
Proof.
  unfold miscsb. rewrite forallb_forall. intro H. apply Forall_forall. intros [w m] I. apply H in I. cbn [fst snd] in *.
  apply andb_true_iff in I. destruct I as [I1 I2]. split; [now apply spacesb_ok|]. destruct m; [now apply commentb'_ok|now apply pib_ok|now apply xdoctypeb_ok].
Qed.
Definition xml_okb (x : xdocument) : bool :=
  match xd_decl x with Some d => xmldeclb d | None => true end && miscsb (xd_prolog x) && (List.length (doctype_decls (xd_prolog x)) <=? 1) && spacesb (xd_gap x) &&
  match xd_root x with MEmpty _ _ _ | MElem _ _ _ _ _ => true | _ => false end &&
  markupb all_declared (xd_root x) && markupb no_declarations (whole_root x) && miscsb (xd_epilog x) && match doctype_decls (xd_epilog x) with [] => true | _ => false end && spacesb (xd_end x).
Theorem xml_okb_ok x : xml_okb x = true -> xml_ok x.
Proof.
  unfold xml_okb. rewrite !andb_true_iff. intros (((((((((H1 & H2) & H8) & H3) & H4) & H5) & H0) & H6) & H9) & H7).
  split; [intros d E; rewrite E in H1; now apply xmldeclb_ok|]. split; [now apply miscsb_ok|]. split; [now apply Nat.leb_le|]. split; [now apply spacesb_ok|].
  split; [now destruct (xd_root x)|]. split; [now apply markupb_ok|]. split; [now apply markupb_ok|]. split; [now apply miscsb_ok|]. split; [now destruct (doctype_decls (xd_epilog x))|now apply spacesb_ok].
Qed.

(** * The subset *)

Fixpoint take_chars (n : nat) (l : list piece) : bool :=
  match n, l with
  | O, _ => true
  | _, Chr c :: l' => (len_utf8 c <=? n) && take_chars (n - len_utf8 c) l'
  | _, _ => false
  end.
Lemma take_chars_ok : forall l n, take_chars n l = true -> exists u v, l = map Chr u ++ v /\ blen u = n.
Proof.
  induction l as [|p l IH]; intros n H.
  - destruct n; [|discriminate]. now exists [], [].
  - destruct n as [|n]; [now exists [], (p :: l)|]. destruct p as [c|nm|ds|ds]; try discriminate.
    change (take_chars (S n) (Chr c :: l)) with ((len_utf8 c <=? S n) && take_chars (S n - len_utf8 c) l) in H.
    apply andb_true_iff in H. destruct H as [H1 H2]. apply Nat.leb_le in H1. destruct (IH _ H2) as (u & v & -> & E).
    exists (c :: u), v. split; [easy|]. cbn [blen]. lia.
Qed.
Fixpoint apart_from (w : nat) (l : list piece) : bool :=
  match l with
  | [] => true
  | Chr _ :: l' => apart_from w l'
  | Ent _ :: l' => negb (w =? 0) && take_chars (w - 1) l' && apart_from w l'
  | _ => false
  end.
Lemma apart_from_ok w l : apart_from w l = true -> Forall (fun p => ~ numeric p) l /\
  forall a nm b, l = a ++ Ent nm :: b -> exists u v, b = map Chr u ++ v /\ S (blen u) = w.
Proof.
  induction l as [|p l IH].
  - intros _. split; [constructor|]. intros [|? ?]; discriminate.
  - destruct p as [c|nm|ds|ds]; cbn [apart_from]; try easy.
    + intro H. destruct (IH H) as [I1 I2]. split; [now constructor|]. intros [|q a] nm b E; [discriminate|]. injection E as _ E. now apply (I2 a nm b).
    + rewrite !andb_true_iff, negb_true_iff, Nat.eqb_neq. intros [[H1 H2] H3]. destruct (IH H3) as [I1 I2]. split; [now constructor|].
      intros [|q a] nm' b E; [|injection E as _ E; now apply (I2 a nm' b)].
      injection E as _ <-. destruct (take_chars_ok _ _ H2) as (u & v & -> & E). exists u, v. split; [easy|]. lia.
Qed.
Definition apartb (l : list piece) : bool := apart_from (last_bytes (pieces_text l)) l.
Lemma apartb_ok l : apartb l = true -> references_apart l.
Proof. apply apart_from_ok. Qed.
Definition easy_valueb (l : list piece) : bool :=
  apartb l && forallb (fun p => negb (is_chr 9 p || is_chr 10 p || is_chr 13 p)) l.
Lemma is_chr_in n p l : In n l -> p = Chr n -> existsb (fun n => is_chr n p) l = true.
Proof. intros I ->. apply existsb_exists. exists n. split; [easy|]. cbn. apply N.eqb_refl. Qed.
Lemma easy_valueb_ok l : easy_valueb l = true -> easy_value l.
Proof.
  unfold easy_valueb. rewrite andb_true_iff, forallb_forall. intros [H1 H2]. split; [now apply apartb_ok|].
  apply Forall_forall. intros p Hp I. apply H2 in Hp. rewrite negb_true_iff, !orb_false_iff in Hp. destruct Hp as [[A B] C].
  cbn in I. destruct I as [<-|[<-|[<-|[]]]]; cbn in A, B, C; discriminate.
Qed.
Definition easy_textb (l : list piece) : bool :=
  apartb l && forallb (fun p => negb (is_chr 13 p)) l && (spacesb (text_said l) || existsb (fun c => negb (is_whitespace c)) (text_said l)).
Lemma easy_textb_ok l : easy_textb l = true -> easy_text l.
Proof.
  unfold easy_textb. rewrite !andb_true_iff, orb_true_iff, forallb_forall. intros [[H1 H2] H3]. split; [now apply apartb_ok|]. split.
  - intro I. apply H2 in I. discriminate I.
  - destruct H3 as [H3|H3]; [left; now apply spacesb_ok|right]. apply existsb_exists in H3. destruct H3 as (c & I & H3).
    exists c. split; [easy|]. now apply negb_true_iff.
Qed.
Definition easy_nameb (s : str) : bool :=
  negb (inb 5760%N s) && match s with [] => false | c :: _ => in_rangesb [(65, 90); (95, 95); (97, 122)]%N c end.
Lemma easy_nameb_ok s : easy_nameb s = true -> easy_name s.
Proof.
  unfold easy_nameb. rewrite andb_true_iff, negb_true_iff. intros [H1 H2]. split; [now apply inb_ok|].
  destruct s as [|c r]; [easy|]. exists c, r. split; [easy|now apply rangesb_ok].
Qed.
Definition easy_attributeb (a : attribute) : bool :=
  easy_nameb (at_name a) && negb (nonempty (at_eq1 a)) && negb (nonempty (at_eq2 a)) && easy_valueb (at_value a).
Lemma easy_attributeb_ok a : easy_attributeb a = true -> easy_attribute a.
Proof.
  unfold easy_attributeb. rewrite !andb_true_iff, !negb_true_iff. intros [[[H1 H2] H3] H4]. split; [now apply easy_nameb_ok|].
  split; [now destruct (at_eq1 a)|]. split; [now destruct (at_eq2 a)|now apply easy_valueb_ok].
Qed.
Definition easy_tagb (below : bool) (sc : scope) (nm : str) (attrs : list attribute) : bool :=
  forallb easy_attributeb attrs &&
  match the_attribute (lit "xmlns") attrs with Some a => nonempty (value_said (at_value a)) | None => true end &&
  match qname_of nm with
  | Some (p, n) =>
      easy_nameb n &&
      match p with
      | Some q => negb (inb 5760%N q) && negb (str_eqb q (lit "xml"))
      | None => negb below || match the_attribute (lit "xmlns") attrs with Some _ => true | None => match sc None with None => true | _ => false end end
      end
  | None => false
  end.
Lemma easy_tagb_ok below sc nm attrs : easy_tagb below sc nm attrs = true -> easy_tag below sc nm attrs.
Proof.
  unfold easy_tagb. rewrite !andb_true_iff, forallb_forall. intros [[H1 H2] H3]. split; [|split].
  - apply Forall_forall. intros a Ha. now apply easy_attributeb_ok, H1.
  - intros a E. rewrite E in H2. now apply nonempty_ok.
  - destruct (qname_of nm) as [[p0 n0]|] eqn:E; [|easy]. intros p n Q. destruct (qname_fun _ _ _ _ _ Q (qname_of_ok _ _ _ E)) as [<- <-].
    apply andb_true_iff in H3. destruct H3 as [H3 H4]. split; [now apply easy_nameb_ok|]. destruct p as [q|].
    + apply andb_true_iff in H4. rewrite !negb_true_iff in H4. destruct H4 as [H4 H5]. split; [now apply inb_ok|].
      intros ->. discriminate H5.
    + intros -> T. rewrite T in H4. cbn in H4. now destruct (sc None).
Qed.
Definition easy_commentb (c : str) : bool := negb (inb 13%N c) && negb (starts_with (lit ">") c) && negb (starts_with (lit "->") c).
Lemma easy_commentb_ok c : easy_commentb c = true -> easy_comment c.
Proof.
  unfold easy_commentb. rewrite !andb_true_iff, !negb_true_iff. intros [[H1 H2] H3]. split; [now apply inb_ok|].
  split; intro B; apply begins_starts in B; congruence.
Qed.
Fixpoint easyb (below : bool) (sc : scope) (m : markup) : bool :=
  match m with
  | MEmpty nm attrs w => easy_tagb below sc nm attrs
  | MElem nm attrs w b w' => easy_tagb below sc nm attrs && easy_inb (prefixed nm) (declare attrs sc) b
  | MComment c => easy_commentb c
  | MCData c => negb (inb 13%N c)
  | MPI p => false
  end
with easy_inb (below : bool) (sc : scope) (b : content) : bool :=
  match b with
  | CText t => easy_textb t
  | CMore t m b => easy_textb t && easyb below sc m && easy_inb below sc b
  end.
Lemma easyb_ok : (forall m below sc, easyb below sc m = true -> easy_markup below sc m) /\
  (forall b below sc, easy_inb below sc b = true -> easy_content below sc b).
Proof.
  apply markup_ind2; cbn [easyb easy_inb easy_markup easy_content].
  - intros nm l w below sc. apply easy_tagb_ok.
  - intros nm l w b IH w' below sc. rewrite andb_true_iff. intros [H1 H2]. split; [now apply easy_tagb_ok|now apply IH].
  - intros c below sc. apply easy_commentb_ok.
  - intros c below sc. rewrite negb_true_iff. apply inb_ok.
  - easy.
  - intros t below sc. apply easy_textb_ok.
  - intros t m IHm b IHb below sc. rewrite !andb_true_iff. intros [[H1 H2] H3]. split; [now apply easy_textb_ok|]. split; [now apply IHm|now apply IHb].
Qed.
Definition easy_prologb (m : misc) : bool :=
  match m with
  | MiscComment c => negb (starts_with (lit ">") c) && negb (starts_with (lit "->") c) && (blen (comment_text c) <=? 32)
  | MiscPI _ => false
  | MiscDoctype d =>
      match dt_subset d with
      | None => true
      | Some (l, _, _) => forallb (fun p => match snd p with DtPI q => forallb (fun x => negb (inb x (lit "'""<>"))) (pi_data q) | DtComment c => forallb (fun x => negb (inb x (lit "'""<>"))) c | _ => true end) l
      end
  end.
Lemma easy_prologb_ok m : easy_prologb m = true -> easy_prolog m.
Proof.
  destruct m as [c|p|d]; [|easy|].
  2: { cbn [easy_prologb easy_prolog]. intros H l w w' E. rewrite E in H. rewrite forallb_forall in H. apply Forall_forall. intros [v m] I. apply H in I.
       cbn [snd] in *. destruct m; try exact Logic.I; cbn [easy_markupdecl]; rewrite forallb_forall in I; intros x Ix; apply I in Ix;
       apply negb_true_iff in Ix; now apply inb_ok. }
  cbn [easy_prologb easy_prolog]. rewrite !andb_true_iff, !negb_true_iff. intros [[H1 H2] H3].
  split; [intro B; apply begins_starts in B; congruence|]. split; [intro B; apply begins_starts in B; congruence|].
  left. now apply Nat.leb_le.
Qed.
Definition easy_xmlb (x : xdocument) : bool :=
  forallb (fun p => easy_prologb (snd p)) (xd_prolog x) && easyb false no_declarations (xd_root x) &&
  match xd_epilog x with [] => true | _ => false end.
Theorem easy_xmlb_ok x : easy_xmlb x = true -> whole_root x = xd_root x -> easy_xml x.
Proof.
  unfold easy_xmlb. rewrite !andb_true_iff, forallb_forall. intros [[H1 H2] H3] W. split; [|split; [exact W|split]].
  - apply Forall_forall. intros p Hp. now apply easy_prologb_ok, H1.
  - now apply easyb_ok.
  - now destruct (xd_epilog x).
Qed.

(** * What is said *)

(** [reads sc m l]: the nodes that remain after those that [m] gives. *)
Fixpoint drop_text (l : list node) (k : list node) {struct k} : option (list node) :=
  match k, l with
  | [], _ => Some l
  | NText s :: k', NText t :: l' => if str_eqb s t then drop_text l' k' else None
  | _, _ => None
  end.
Definition tag_saysb (sc : scope) (nm : str) (attrs : list attribute) (e : elem) : bool :=
  str_eqb nm (match e_prefix e with Some p => p ++ lit ":" ++ e_name e | None => e_name e end) && ostr_eqb (e_xmlns e) (declare attrs sc (e_prefix e)) &&
  forallb (fun a => match get_attr e (at_name a) with Some v => str_eqb v (value_said (at_value a)) | None => false end) attrs.
Fixpoint reads (sc : scope) (m : markup) (l : list node) : option (list node) :=
  match m, l with
  | MEmpty nm attrs _, NElem e :: l' =>
      if tag_saysb sc nm attrs e && match e_children e with [] => true | _ => false end then Some l' else None
  | MElem nm attrs _ b _, NElem e :: l' =>
      if tag_saysb sc nm attrs e && match reads_in (declare attrs sc) b (e_children e) with Some [] => true | _ => false end then Some l' else None
  | MComment c, NComment s :: l' => if str_eqb s (plain_said c) then Some l' else None
  | MCData c, NCData s :: l' => if str_eqb s (plain_said c) then Some l' else None
  | MPI _, _ => Some l
  | _, _ => None
  end
with reads_in (sc : scope) (b : content) (l : list node) : option (list node) :=
  match b with
  | CText t => drop_text l (text_says t)
  | CMore t m b =>
      match drop_text l (text_says t) with
      | Some l => match reads sc m l with Some l => reads_in sc b l | None => None end
      | None => None
      end
  end.
Lemma tag_saysb_ok sc nm attrs e : tag_says sc nm attrs e -> tag_saysb sc nm attrs e = true.
Proof.
  intros (H1 & H2 & H3). unfold tag_saysb. rewrite !andb_true_iff, str_eqb_eq, ostr_eqb_eq, forallb_forall. split; [split; [|easy]|].
  - inversion H1; congruence.
  - intros a Ha. rewrite (proj2 (H3 (at_name a) (value_said (at_value a)))) by now exists a. apply str_eqb_refl.
Qed.
Lemma drop_text_app t l : drop_text (text_says t ++ l) (text_says t) = Some l.
Proof. unfold text_says. destruct (forallb _ _); [easy|]. cbn [app drop_text]. now rewrite str_eqb_refl. Qed.
Lemma reads_ok : (forall m sc l, says sc m l -> forall r, reads sc m (l ++ r) = Some r) /\
  (forall b sc l, says_in sc b l -> forall r, reads_in sc b (l ++ r) = Some r).
Proof.
  apply markup_ind2.
  - intros nm attrs w sc l S r. inversion S as [? ? ? ? e T E| | | |]; subst. cbn [reads app].
    now rewrite (tag_saysb_ok _ _ _ _ T), E.
  - intros nm attrs w b IH w' sc l S r. inversion S as [|? ? ? ? ? ? e T E| | |]; subst. cbn [reads app].
    rewrite (tag_saysb_ok _ _ _ _ T). specialize (IH _ _ E []). rewrite app_nil_r in IH. now rewrite IH.
  - intros c sc l S r. inversion S; subst. cbn [reads app]. now rewrite str_eqb_refl.
  - intros c sc l S r. inversion S; subst. cbn [reads app]. now rewrite str_eqb_refl.
  - intros p sc l S r. inversion S; subst. now destruct r.
  - intros t sc l S r. inversion S; subst. cbn [reads_in]. now apply drop_text_app.
  - intros t m IHm b IHb sc l S r. inversion S as [|? ? ? ? l1 l2 S1 S2]; subst. cbn [reads_in].
    rewrite <- !app_assoc, drop_text_app, (IHm _ _ S1). now apply IHb.
Qed.
(** A quick way to see that a document does not say what [x] says. *)
Theorem says_not x d : reads no_declarations (whole_root x) [NElem (d_root d)] <> Some [] -> ~ xml_says x d.
Proof. intros H (_ & _ & S). apply H. exact (proj1 reads_ok _ _ _ S []). Qed.

(** * Only one document is meant *)

Lemma nodes_same_app a b c d : nodes_same a b -> nodes_same c d -> nodes_same (a ++ c) (b ++ d).
Proof.
  intro H. revert a b H. fix IH 3. intros a b [|n l1 l2 Hn H|e1 e2 l1 l2 He H] K; cbn [app]; [exact K| |].
  - apply ns_leaf; [exact Hn|now apply IH].
  - apply ns_elem; [exact He|now apply IH].
Qed.
Lemma text_says_same t : nodes_same (text_says t) (text_says t).
Proof. unfold text_says. destruct (forallb _ _); repeat constructor; easy. Qed.
Definition nodes_fine (l : list node) : Prop := forall e, In (NElem e) l -> elem_ok e.
Lemma says_same : (forall m sc l l', says sc m l -> says sc m l' -> nodes_fine l -> nodes_fine l' -> nodes_same l l') /\
  (forall b sc l l', says_in sc b l -> says_in sc b l' -> nodes_fine l -> nodes_fine l' -> nodes_same l l').
Proof.
  assert (P : forall sc nm attrs e e', tag_says sc nm attrs e -> tag_says sc nm attrs e' -> elem_ok e -> elem_ok e' ->
    nodes_same (e_children e) (e_children e') -> elem_same e e').
  { intros sc nm attrs e e' (H1 & H2 & H3) (K1 & K2 & K3) O O' C. destruct (qname_fun _ _ _ _ _ H1 K1) as [Ep En].
    apply elem_ok_inv in O, O'. destruct O as (M & _), O' as (M' & _).
    constructor; [easy|congruence|easy| |easy].
    apply NoDup_Permutation.
    - unfold map_ok, akeys in M. now apply NoDup_map_inv in M.
    - unfold map_ok, akeys in M'. now apply NoDup_map_inv in M'.
    - intros [k v]. transitivity (get_attr e k = Some v).
      + split; [now apply in_aget|now apply aget_in].
      + rewrite H3, <- K3. split; [now apply aget_in|now apply in_aget]. }
  apply markup_ind2.
  - intros nm attrs w sc l l' S S' F F'. inversion S as [? ? ? ? e T E| | | |]; subst. inversion S' as [? ? ? ? e' T' E'| | | |]; subst.
    constructor; [|constructor]. apply (P sc nm attrs); [easy|easy|apply F; now left|apply F'; now left|]. rewrite E, E'. constructor.
  - intros nm attrs w b IH w' sc l l' S S' F F'. inversion S as [|? ? ? ? ? ? e T E| | |]; subst. inversion S' as [|? ? ? ? ? ? e' T' E'| | |]; subst.
    assert (O : elem_ok e) by (apply F; now left). assert (O' : elem_ok e') by (apply F'; now left).
    constructor; [|constructor]. apply (P sc nm attrs); [easy|easy|easy|easy|]. apply (IH _ _ _ E E').
    + intros c Hc. apply elem_ok_inv in O. now apply O.
    + intros c Hc. apply elem_ok_inv in O'. now apply O'.
  - intros c sc l l' S S' _ _. inversion S; inversion S'; subst. repeat constructor; easy.
  - intros c sc l l' S S' _ _. inversion S; inversion S'; subst. repeat constructor; easy.
  - intros p sc l l' S S' _ _. inversion S; inversion S'; subst. constructor.
  - intros t sc l l' S S' _ _. inversion S; inversion S'; subst. apply text_says_same.
  - intros t m IHm b IHb sc l l' S S' F F'. inversion S as [|? ? ? ? l1 l2 S1 S2]; subst. inversion S' as [|? ? ? ? k1 k2 K1 K2]; subst.
    apply nodes_same_app; [apply text_says_same|]. apply nodes_same_app.
    + apply (IHm _ _ _ S1 K1); intros e He; [apply F|apply F']; apply in_or_app; right; apply in_or_app; now left.
    + apply (IHb _ _ _ S2 K2); intros e He; [apply F|apply F']; apply in_or_app; right; apply in_or_app; now right.
Qed.
Theorem xml_says_same x d d' : xml_says x d -> xml_says x d' -> elem_ok (d_root d) -> elem_ok (d_root d') -> doc_eqb d d' = true.
Proof.
  intros (A1 & A2 & A3) (B1 & B2 & B3) O O'. apply doc_eqb_same; [easy..|]. split; [congruence|]. split; [congruence|].
  assert (S : nodes_same [NElem (d_root d)] [NElem (d_root d')]).
  { apply (proj1 says_same _ _ _ _ A3 B3); intros e [E|[]]; injection E as <-; easy. }
  inversion S as [|? ? ? N|]; subst; [|easy]. exfalso. now apply (N (d_root d)).
Qed.

(** * Normalization of values *)

Fixpoint squeezed (s : str) : str :=
  match s with
  | [] => []
  | c :: s' =>
      if (c =? 32)%N then match s' with [] => [] | d :: _ => if (d =? 32)%N then squeezed s' else 32%N :: squeezed s' end else c :: squeezed s'
  end.
Fixpoint dropped (s : str) : str := match s with [] => [] | c :: s' => if (c =? 32)%N then dropped s' else s end.
Lemma join_cons w l : l <> [] -> join (w :: l) = w ++ lit " " ++ join l.
Proof. now destruct l. Qed.
Lemma words_none : forall s w, w <> [] -> words_from w s <> [].
Proof.
  induction s as [|c s IH]; intros w W; cbn [words_from]; [now destruct w|]. destruct (c =? 32)%N; [now destruct w|]. apply IH. now destruct w.
Qed.
Lemma squeezed_join : forall s, (forall w, w <> [] -> join (words_from w s) = w ++ squeezed s) /\
  (match s with d :: _ => (d =? 32)%N = false | [] => False end -> join (words_from [] s) = squeezed s).
Proof.
  induction s as [|c s [IH1 IH2]]; [split; [|easy]|split].
  - intros [|x w] W; [easy|]. cbn. now rewrite app_nil_r.
  - intros w W. cbn [words_from squeezed]. destruct (c =? 32)%N eqn:Ec.
    + destruct w as [|x w]; [easy|]. destruct s as [|d s]; [cbn; now rewrite app_nil_r|]. destruct (d =? 32)%N eqn:Ed.
      * rewrite <- IH1 by easy. cbn [words_from]. now rewrite Ed.
      * rewrite join_cons; [|cbn [words_from]; rewrite Ed; now apply words_none]. rewrite IH2 by easy. reflexivity.
    + rewrite IH1 by (now destruct w). now rewrite <- app_assoc.
  - intro Ec. cbn [words_from squeezed app]. rewrite Ec, IH1 by easy. reflexivity.
Qed.
Lemma words_dropped s : words s = words (dropped s).
Proof. unfold words. induction s as [|c s IH]; [easy|]. cbn [words_from dropped]. destruct (c =? 32)%N eqn:E; [exact IH|]. cbn [words_from]. now rewrite E. Qed.
Lemma squeezed_words s : squeezed (dropped s) = join (words s).
Proof.
  rewrite words_dropped. unfold words. destruct (dropped s) as [|d r] eqn:E; [easy|]. symmetry. apply squeezed_join.
  revert E. induction s as [|c s IH]; [easy|]. cbn [dropped]. destruct (c =? 32)%N eqn:Ec; [exact IH|]. now intros [= <- <-].
Qed.
Definition one_char (p : piece) : char := hd 0%N (value_char p).
Lemma one_char_ok p : reference_ok p -> value_char p = [one_char p].
Proof.
  destruct p as [c|nm|ds|ds]; unfold one_char; cbn [value_char reference_ok].
  - intros _. now destruct (existsb _ _).
  - intros (c & E & _). cbn [said]. now rewrite E.
  - intros (c & E & _). cbn [said]. now rewrite E.
  - intros (c & E & _). cbn [said]. now rewrite E.
Qed.
Lemma flat_chars l : Forall reference_ok l -> flat_map value_char l = map one_char l.
Proof. induction 1 as [|p l H _ IH]; [easy|]. cbn [flat_map map]. now rewrite one_char_ok, IH. Qed.
Lemma is_space_char p : reference_ok p -> is_space p = (one_char p =? 32)%N.
Proof. intro H. unfold is_space. rewrite (one_char_ok p H). unfold str_eqb. cbn. now destruct (one_char p =? 32)%N. Qed.
Lemma drop_spaces_ok l : Forall reference_ok l -> Forall reference_ok (drop_spaces l) /\ map one_char (drop_spaces l) = dropped (map one_char l).
Proof.
  induction 1 as [|p l H L IH]; [split; [constructor|reflexivity]|]. cbn [drop_spaces map dropped]. rewrite <- is_space_char by easy. destruct (is_space p); [exact IH|]. split; [now constructor|easy].
Qed.
Lemma squeeze_ok l : Forall reference_ok l -> Forall reference_ok (squeeze l) /\ map one_char (squeeze l) = squeezed (map one_char l) /\ ~ In (Chr 13%N) (squeeze l).
Proof.
  induction 1 as [|p l H L IH]; [split; [constructor|split; [reflexivity|easy]]|]. destruct IH as (I1 & I2 & I3). cbn [squeeze map squeezed]. rewrite <- is_space_char by easy. destruct (is_space p) eqn:E.
  - destruct L as [|q l Q L]; [split; [constructor|split; [reflexivity|easy]]|]. cbn [map]. rewrite <- is_space_char by easy. destruct (is_space q) eqn:Eq; [tauto|].
    split; [now constructor|]. split; [cbn [map]; f_equal; exact I2|]. intros [J|J]; [discriminate|easy].
  - split; [now constructor|]. split; [cbn [map]; now rewrite I2|]. intros [J|J]; [subst p; discriminate E|easy].
Qed.
Lemma line_ends_same l : ~ In (Chr 13%N) l -> line_ends l = l.
Proof.
  induction l as [|p l IH]; intro N; [easy|]. cbn [line_ends]. destruct (is_chr 13 p) eqn:E.
  - exfalso. destruct p as [c|nm|ds|ds]; try discriminate E. apply N.eqb_eq in E. subst c. apply N. now left.
  - rewrite IH; [easy|]. intro I. apply N. now right.
Qed.
Lemma words_space w s : words_from w (32%N :: 32%N :: s) = words_from w (32%N :: s).
Proof. cbn. now destruct w. Qed.
Lemma line_ends_words : forall l w, words_from w (flat_map value_char (line_ends l)) = words_from w (flat_map value_char l).
Proof.
  induction l as [|p l IH]; intro w; [easy|]. cbn [line_ends]. destruct (is_chr 13 p) eqn:E.
  - destruct p as [c|nm|ds|ds]; try discriminate E. apply N.eqb_eq in E. subst c.
    destruct l as [|q l]; [reflexivity|]. destruct (is_chr 10 q) eqn:Eq.
    + destruct q as [c|nm|ds|ds]; try discriminate Eq. apply N.eqb_eq in Eq. subst c. rewrite IH.
      change (flat_map value_char (Chr 13%N :: Chr 10%N :: l)) with (32%N :: 32%N :: flat_map value_char l).
      change (flat_map value_char (Chr 10%N :: l)) with (32%N :: flat_map value_char l). now rewrite words_space.
    + change (flat_map value_char (Chr 10%N :: line_ends (q :: l))) with (32%N :: flat_map value_char (line_ends (q :: l))).
      change (flat_map value_char (Chr 13%N :: q :: l)) with (32%N :: flat_map value_char (q :: l)). cbn [words_from]. change (32 =? 32)%N with true. cbn match.
      destruct w; now rewrite IH.
  - cbn [flat_map]. generalize (value_char p) as v. intro v. revert w. induction v as [|c v IHv]; intro w; cbn [app words_from]; [apply IH|].
    destruct (c =? 32)%N; [destruct w; now rewrite IHv|apply IHv].
Qed.
Theorem tokens_said l : Forall reference_ok l -> value_said (tokens l) = join (words (value_said l)).
Proof.
  intro H. destruct (drop_spaces_ok l H) as [D1 D2]. destruct (squeeze_ok _ D1) as (S1 & S2 & S3). unfold value_said at 1, tokens. rewrite line_ends_same by easy.
  rewrite flat_chars by easy. rewrite S2, D2, squeezed_words. unfold words, value_said. rewrite line_ends_words. now rewrite flat_chars.
Qed.

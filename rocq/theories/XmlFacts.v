(** Proofs for SpecXml.v: well-formed XML of the subset is read as XML says. *)
From Coq Require Import List NArith Arith Bool Ascii String Lia.
From Verif Require Import Base BaseFacts Escape Dom Spec EscapeFacts SpecDom DomFacts SpecApi ApiFacts
  ParseTree SpecTree ParseTreeFacts Parse SpecLex SpecParse LexFacts ParseFacts DocFacts TagFacts AcceptFacts ParsedFacts NsFacts
  SpecEsc UnescFacts SpecDoc PrintFacts PrintDoc FormFacts RoundFacts SpecXml.
Import ListNotations.

(** * Decoding *)

Lemma text_app a b : pieces_text (a ++ b) = pieces_text a ++ pieces_text b.
Proof. apply flat_map_app. Qed.
Lemma text_chars u : pieces_text (map Chr u) = u.
Proof. induction u as [|c u IH]; [easy|]. cbn. f_equal. exact IH. Qed.
Lemma said_chars u : flat_map said (map Chr u) = u.
Proof. induction u as [|c u IH]; [easy|]. cbn. f_equal. exact IH. Qed.
Lemma piece_nonempty p : piece_text p <> [].
Proof. now destruct p. Qed.
Lemma last_bytes_app a b : b <> [] -> last_bytes (a ++ b) = last_bytes b.
Proof.
  intro H. unfold last_bytes. rewrite rev_app_distr. destruct (rev b) as [|c r] eqn:E; [|easy].
  exfalso. apply H. rewrite <- (rev_involutive b), E. reflexivity.
Qed.
Lemma last_bytes_last a c : last_bytes (a ++ [c]) = len_utf8 c.
Proof. unfold last_bytes. now rewrite rev_app_distr. Qed.
Lemma first_reference l : Forall (fun p => ~ numeric p) l ->
  exists u, l = map Chr u \/ exists nm b, l = map Chr u ++ Ent nm :: b.
Proof.
  induction 1 as [|p l Hp H (u & IH)]; [now exists []; left|]. destruct p as [c|nm|ds|ds]; try (now exfalso; apply Hp).
  - exists (c :: u). destruct IH as [->|(nm & b & ->)]; [now left|right; now exists nm, b].
  - exists []. right. now exists nm, l.
Qed.
Lemma refers_ent nm c : refers (Ent nm) = Some c -> In (nm, c) predefined.
Proof.
  cbn [refers]. destruct (find _ predefined) as [e|] eqn:E; [|easy]. intro H. injection H as <-.
  apply find_some in E. destruct E as [E1 E2]. apply str_eqb_eq in E2. subst nm. now destruct e.
Qed.
Lemma predefined_ascii nm c : In (nm, c) predefined -> len_utf8 c = 1.
Proof. cbn. intros [E|[E|[E|[E|[E|[]]]]]]; injection E as <- <-; reflexivity. Qed.
Definition good_piece (p : piece) : Prop := reference_ok p /\ forall c, p = Chr c -> c <> amp.
Lemma pieces_decoded : forall n l, List.length l <= n -> Forall good_piece l -> references_apart l ->
  unescapes (pieces_text l) (Some (flat_map said l)).
Proof.
  induction n as [|n IH]; intros l Hn Hg [Hk Ha].
  { destruct l; [|cbn in Hn; lia]. now constructor. }
  destruct (first_reference l Hk) as (u & [->|(nm & b & ->)]).
  - rewrite text_chars, said_chars. constructor. intro I. rewrite Forall_forall in Hg.
    destruct (Hg (Chr amp)) as [_ Hc]; [now apply in_map|now apply (Hc amp)].
  - destruct (Ha _ _ _ eq_refl) as (u' & v & -> & Hu). rewrite text_app, flat_map_app, text_chars, said_chars in *.
    rewrite Forall_forall in Hg.
    assert (Hu' : ~ In amp u).
    { intro I. destruct (Hg (Chr amp)) as [_ Hc]; [apply in_or_app; left; now apply in_map|now apply (Hc amp)]. }
    assert (exists c, refers (Ent nm) = Some c) as [c Ec].
    { destruct (Hg (Ent nm)) as [(c & E & _) _]; [apply in_or_app; right; now left|now exists c]. }
    pose proof (refers_ent _ _ Ec) as Hc. pose proof (predefined_ascii _ _ Hc) as Lc.
    change (pieces_text (Ent nm :: map Chr u' ++ v)) with ((lit "&" ++ nm ++ lit ";") ++ pieces_text (map Chr u' ++ v)).
    change (flat_map said (Ent nm :: map Chr u' ++ v)) with (said (Ent nm) ++ flat_map said (map Chr u' ++ v)).
    replace (said (Ent nm)) with [c] by (unfold said; now rewrite Ec).
    rewrite text_app, flat_map_app, text_chars, said_chars, <- !app_assoc.
    set (q' := c :: u' ++ pieces_text v).
    destruct (exists_last (l := q')) as (a & last & Eq); [easy|].
    assert (El : blen (c :: u') = len_utf8 last).
    { cbn [blen]. rewrite Lc. change (1 + blen u') with (S (blen u')). rewrite Hu.
      change (pieces_text (Ent nm :: map Chr u' ++ v)) with ((lit "&" ++ nm ++ lit ";") ++ pieces_text (map Chr u' ++ v)).
      rewrite text_app, text_chars. remember (u' ++ pieces_text v) as z eqn:Ez. clear Ez.
      destruct a as [|y a]; cbn in Eq; injection Eq as E1 E2.
      - subst last z. rewrite Lc, app_nil_r, !app_assoc. now apply last_bytes_last.
      - rewrite E2, !app_assoc. apply last_bytes_last. }
    change (Some (u ++ [c] ++ u' ++ flat_map said v)) with (option_map (fun r => u ++ (c :: u') ++ r) (Some (flat_map said v))).
    apply un_go with (q' := q') (a := a) (last := last) (v := pieces_text v); [easy| |easy|easy|easy|].
    + unfold q'. change (lit "&" ++ nm ++ lit ";" ++ u' ++ pieces_text v) with ([amp] ++ nm ++ [semi] ++ (u' ++ pieces_text v)).
      apply rr_ref. now constructor.
    + apply IH.
      * rewrite app_length in Hn. cbn [List.length] in Hn. rewrite app_length in Hn. lia.
      * apply Forall_forall. intros x Hx. apply Hg. apply in_or_app. right. right. apply in_or_app. now right.
      * split.
        -- rewrite Forall_forall in *. intros x Hx. apply Hk. apply in_or_app. right. right. apply in_or_app. now right.
        -- intros a1 nm1 b1 ->. destruct (Ha (map Chr u ++ Ent nm :: map Chr u' ++ a1) nm1 b1) as (u1 & v1 & E1 & E2).
           { rewrite <- !app_assoc. cbn. now rewrite <- !app_assoc. }
           exists u1, v1. split; [easy|]. rewrite E2.
           change (pieces_text (Ent nm :: map Chr u' ++ a1 ++ Ent nm1 :: b1))
             with ((lit "&" ++ nm ++ lit ";") ++ pieces_text (map Chr u' ++ a1 ++ Ent nm1 :: b1)).
           rewrite (text_app (map Chr u')), !app_assoc. apply last_bytes_app.
           rewrite text_app. intro E. apply app_eq_nil in E. now destruct E.
Qed.

(** * Values and texts *)

Lemma line_ends_none l : ~ In (Chr 13%N) l -> line_ends l = l.
Proof.
  induction l as [|p l IH]; intro H; [easy|]. cbn [line_ends].
  rewrite IH by (intro I; apply H; now right).
  destruct (is_chr 13 p) eqn:E; [|easy]. exfalso. apply H. left. destruct p as [c|nm|ds|ds]; try easy.
  cbn in E. apply N.eqb_eq in E. now subst c.
Qed.
Lemma plain_said_none s : ~ In 13%N s -> plain_said s = s.
Proof.
  intro H. unfold plain_said, text_said. rewrite line_ends_none, said_chars; [easy|].
  intro I. apply in_map_iff in I. destruct I as (c & E & I). injection E as ->. contradiction.
Qed.
Lemma text_said_none t : ~ In (Chr 13%N) t -> text_said t = flat_map said t.
Proof. intro H. unfold text_said. now rewrite line_ends_none. Qed.
Lemma value_said_none t : Forall (fun p => ~ In p (map Chr [9; 10; 13]%N)) t -> value_said t = flat_map said t.
Proof.
  intro H. unfold value_said. rewrite Forall_forall in H.
  rewrite line_ends_none by (intro I; apply H in I; apply I; cbn; tauto).
  induction t as [|p t IH]; [easy|]. cbn [flat_map]. rewrite IH by (intros q Hq; apply H; now right). f_equal.
  destruct p as [c|nm|ds|ds]; try easy. cbn [value_char said].
  destruct (existsb (N.eqb c) [32; 9; 13; 10]%N) eqn:E; [|easy].
  apply existsb_exists in E. destruct E as (x & Hx & E). apply N.eqb_eq in E. subst x.
  destruct Hx as [<-|Hx]; [easy|]. exfalso. apply (H (Chr c)); [now left|]. apply in_map. cbn in *. tauto.
Qed.
Lemma good_value q l : value_ok q l -> Forall good_piece l.
Proof.
  intro H. eapply Forall_impl; [|exact H]. intros p [H1 H2]. split; [easy|]. intros c E A.
  destruct (H2 c E) as [_ N]. apply N. subst c. cbn. tauto.
Qed.
Lemma good_text l : chardata_ok l -> Forall good_piece l.
Proof.
  intros [H _]. eapply Forall_impl; [|exact H]. intros p [H1 H2]. split; [easy|]. intros c E A.
  destruct (H2 c E) as [_ N]. apply N. subst c. cbn. tauto.
Qed.
Lemma value_read q l : value_ok q l -> easy_value l -> unescape (pieces_text l) = Ok (value_said l).
Proof.
  intros H [H1 H2]. apply unescape_exact. rewrite value_said_none by easy.
  apply pieces_decoded with (List.length l); [easy|now apply good_value with q|easy].
Qed.
Lemma text_read l : chardata_ok l -> easy_text l -> unescape (pieces_text l) = Ok (text_said l).
Proof.
  intros H (H1 & H2 & _). apply unescape_exact. rewrite text_said_none by easy.
  apply pieces_decoded with (List.length l); [easy|now apply good_text|easy].
Qed.
Lemma spaces_ws s : spaces s -> ws s.
Proof.
  intro H. eapply Forall_impl; [|exact H]. intros c Hc. cbn in Hc.
  repeat destruct Hc as [<-|Hc]; [reflexivity..|contradiction].
Qed.
(** What is not in the predefined references. *)
Lemma ent_chars nm c x : refers (Ent nm) = Some c -> In x (piece_text (Ent nm)) -> x <> lt_ /\ is_quote x = false.
Proof.
  intros H I. apply refers_ent in H. cbn in H.
  destruct H as [E|[E|[E|[E|[E|[]]]]]]; injection E as <- <-; cbn in I;
    repeat (destruct I as [<-|I]; [easy|]); contradiction.
Qed.
Lemma ent_chars_in nm x : reference_ok (Ent nm) -> In x (piece_text (Ent nm)) -> x <> lt_ /\ is_quote x = false.
Proof. intros (c & H & _). now apply ent_chars with c. Qed.
Lemma ent_said nm : reference_ok (Ent nm) -> exists c, said (Ent nm) = [c] /\ is_whitespace c = false.
Proof.
  intros (c & H & _). exists c. unfold said. rewrite H. split; [easy|]. apply refers_ent in H. cbn in H.
  destruct H as [E|[E|[E|[E|[E|[]]]]]]; injection E as <- <-; reflexivity.
Qed.
Lemma pieces_no_tag l : chardata_ok l -> Forall (fun p => ~ numeric p) l -> no_tag (pieces_text l).
Proof.
  intros [H _] K I. rewrite Forall_forall in *. apply in_flat_map in I. destruct I as (p & Hp & I).
  destruct (H p Hp) as [H1 H2]. specialize (K p Hp). destruct p as [c|nm|ds|ds]; try (now apply K).
  - destruct I as [I|[]]. subst c. destruct (H2 _ eq_refl) as [_ N]. apply N. now left.
  - now apply (ent_chars_in _ _ H1) in I.
Qed.
Lemma pieces_no_quote q l : quote_ok q -> value_ok q l -> Forall (fun p => ~ numeric p) l -> ~ In q (pieces_text l).
Proof.
  intros Hq H K I. unfold value_ok in H. rewrite Forall_forall in *. apply in_flat_map in I. destruct I as (p & Hp & I).
  destruct (H p Hp) as [H1 H2]. specialize (K p Hp). destruct p as [c|nm|ds|ds]; try (now apply K).
  - destruct I as [I|[]]. subst c. destruct (H2 _ eq_refl) as [_ N]. apply N. cbn. tauto.
  - apply (ent_chars_in _ _ H1) in I. destruct I as [_ I]. destruct Hq as [-> | ->]; discriminate I.
Qed.
Lemma white_pieces l : Forall good_piece l -> Forall (fun p => ~ numeric p) l ->
  ws (flat_map said l) \/ ws (pieces_text l) -> flat_map said l = pieces_text l.
Proof.
  intros H K. induction H as [|p l [H1 _] H IH]; [easy|]. inversion K as [|? ? K1 K2]; subst.
  change (flat_map said (p :: l)) with (said p ++ flat_map said l). change (pieces_text (p :: l)) with (piece_text p ++ pieces_text l).
  intro W. rewrite IH; [|easy|destruct W as [W|W]; apply Forall_app in W; destruct W; [now left|now right]].
  f_equal. destruct p as [c|nm|ds|ds]; try easy; try (exfalso; now apply K1). exfalso.
  destruct (ent_said _ H1) as (c & Ec & Wc). rewrite Ec in W. destruct W as [W|W]; apply Forall_app in W; destruct W as [W _].
  - inversion W; congruence.
  - inversion W; discriminate.
Qed.
Lemma text_node t : chardata_ok t -> easy_text t ->
  text_wf (pieces_text t) /\ filter keep_node (map assemble (rt_text (pieces_text t))) = text_says t.
Proof.
  intros H E. pose proof (text_read _ H E) as R. pose proof (good_text _ H) as G.
  destruct E as ([K _] & N & S). split.
  { split; [now apply pieces_no_tag|right; now exists (text_said t)]. }
  pose proof (white_pieces _ G K) as P. rewrite <- text_said_none in P by easy.
  unfold rt_text, text_says. destruct (is_blank (pieces_text t)) eqn:B.
  - apply is_blank_spec in B. rewrite (P (or_intror B)) in *. destruct S as [S|(c & I & W)].
    + replace (forallb _ _) with true; [easy|]. symmetry. apply forallb_forall. intros c Hc. unfold spaces in S. rewrite Forall_forall in S.
      apply S in Hc. apply existsb_exists. exists c. split; [easy|]. apply N.eqb_refl.
    + unfold blank_or_empty in B. rewrite Forall_forall in B. apply B in I. congruence.
  - destruct S as [S|(c & I & W)].
    + apply spaces_ws in S. rewrite (P (or_introl S)) in S. apply is_blank_false in B. contradiction.
    + cbn [map assemble filter keep_node]. unfold value. rewrite R.
      assert (text_is_whitespace (text_said t) = false) as ->.
      { apply not_blank. intros [_ F]. rewrite Forall_forall in F. apply F in I. congruence. }
      cbn [negb]. destruct (forallb _ _) eqn:F; [|easy]. exfalso.
      rewrite forallb_forall in F. apply F in I. apply existsb_exists in I. destruct I as (x & Hx & E). apply N.eqb_eq in E. subst x.
      assert (spaces [c]) as Sc by now constructor. apply spaces_ws in Sc. inversion Sc. congruence.
Qed.

(** * Names *)

Lemma name_first_start c : name_first c -> c <> 5760%N -> name_start c.
Proof. now split. Qed.
Lemma name_next_char c : name_next c -> c <> 5760%N -> name_char c.
Proof. intros [H|H] N; [left; now split|now right]. Qed.
Lemma not_in_cons {A} (x c : A) r : ~ In x (c :: r) -> c <> x /\ ~ In x r.
Proof. intro H. split; intro I; apply H; [now left|now right]. Qed.
Lemma nexts_chars r : Forall name_next r -> ~ In 5760%N r -> Forall name_char r.
Proof.
  intros H N. rewrite Forall_forall in *. intros c Hc. apply name_next_char; [now apply H|]. now intros ->.
Qed.
Lemma is_name_xml s : is_name s -> ~ In 5760%N s -> xml_name s.
Proof.
  intros (c & r & -> & H1 & H2) N. apply not_in_cons in N. destruct N as [N1 N2].
  exists c, r. split; [easy|]. split; [now apply name_first_start|now apply nexts_chars].
Qed.
Lemma easy_plain s : is_name s -> easy_name s -> plain_name s.
Proof.
  intros (c & r & -> & H1 & H2) [N (c' & r' & E & H)]. injection E as <- <-. apply not_in_cons in N. destruct N as [N1 N2].
  exists c, r. split; [easy|]. split; [|now apply nexts_chars].
  unfold in_ranges in H. rewrite Exists_exists in H. destruct H as ([a b] & Hi & H). cbn [fst snd] in H. cbn in Hi.
  destruct Hi as [E|[E|[E|[]]]]; injection E as <- <-; lia.
Qed.
Lemma qname_named nm p n : qname nm p n -> easy_name n -> (forall q, p = Some q -> ~ In 5760%N q) -> named nm p n.
Proof.
  intros Q H1 H2. destruct Q as [n [Hn Hc]|p n [Hp Hc] [Hn _]].
  - apply nd_plain; [now apply easy_plain|easy].
  - change (lit ":") with [colon]. apply nd_prefixed; [apply is_name_xml; [easy|now apply H2]|easy|now apply easy_plain].
Qed.
Lemma qname_name nm p n : qname nm p n -> is_name nm.
Proof.
  intros [n' [Hn Hc]|p' n' [Hp Hc] [Hn _]]; [easy|].
  destruct Hp as (c & r & -> & H1 & H2). exists c, (r ++ lit ":" ++ n'). split; [easy|]. split; [easy|].
  apply Forall_app. split; [easy|]. apply Forall_app. split.
  - constructor; [|constructor]. left. apply Exists_cons_hd. cbn. lia.
  - destruct Hn as (d & r' & -> & D1 & D2). constructor; [now left|easy].
Qed.
Lemma qname_prefixed nm p n : qname nm p n -> prefixed nm = match p with Some _ => true | None => false end.
Proof.
  intros [n' [_ Hc]|p' n' _ _]; unfold prefixed.
  - destruct (existsb (N.eqb 58%N) n') eqn:E; [|easy]. apply existsb_exists in E. destruct E as (x & Hx & E). apply N.eqb_eq in E. now subst x.
  - apply existsb_exists. exists 58%N. split; [apply in_or_app; right; now left|easy].
Qed.
(** The second colon of a name is not in a QName. *)
Lemma app_colon p n p' n' : ~ In 58%N p -> ~ In 58%N p' -> p ++ lit ":" ++ n = p' ++ lit ":" ++ n' -> p = p' /\ n = n'.
Proof.
  revert p'. induction p as [|c p IH]; intros p' H H'.
  - destruct p' as [|c' p']; cbn.
    + intro E. injection E as E. now split.
    + intro E. injection E as <- _. exfalso. apply H'. now left.
  - destruct p' as [|c' p']; cbn.
    + intro E. injection E as -> _. exfalso. apply H. now left.
    + intro E. injection E as <- E. apply not_in_cons in H, H'. destruct (IH p' (proj2 H) (proj2 H') E) as [-> ->]. easy.
Qed.
Lemma qname_no_second nm p n q : qname nm p n -> nm <> lit "xmlns:" ++ lit "xmlns:" ++ q.
Proof.
  intros Q E. destruct Q as [n [_ Hc]|p n [_ Hc] [_ Hn]].
  - apply Hc. rewrite E. cbn. tauto.
  - change (lit "xmlns:" ++ lit "xmlns:" ++ q) with (lit "xmlns" ++ lit ":" ++ (lit "xmlns:" ++ q)) in E.
    apply app_colon in E; [|easy|cbn; intuition discriminate]. destruct E as [_ ->]. apply Hn. cbn. tauto.
Qed.
Lemma qname_fun nm p n p' n' : qname nm p n -> qname nm p' n' -> p = p' /\ n = n'.
Proof.
  intros [m [_ H1]|q m [_ H1] [_ H2]] Q.
  - inversion Q as [? _|? ? _ _]; subst; [easy|]. exfalso. apply H1. apply in_or_app. right. now left.
  - remember (q ++ lit ":" ++ m) as z eqn:Ez. destruct Q as [z [_ H3]|q' m' [_ H3] _].
    + exfalso. apply H3. rewrite Ez. apply in_or_app. right. now left.
    + apply app_colon in Ez; [|easy..]. now destruct Ez as [-> ->].
Qed.

(** * Attributes *)

Definition xattr (a : attribute) : cattr :=
  CAttr (at_space a) (at_name a) (at_eq1 a) (at_eq2 a) (at_quote a) (pieces_text (at_value a)).
Lemma xattr_print a : attr_print (xattr a) = attribute_text a.
Proof. reflexivity. Qed.
Lemma xattrs_print l : flat_map attr_print (map xattr l) = flat_map attribute_text l.
Proof. induction l as [|a l IH]; [easy|]. cbn [map flat_map]. now rewrite IH. Qed.
Lemma xattr_wf a : attribute_ok a -> easy_attribute a -> attr_wf (xattr a).
Proof.
  intros (H1 & H2 & (p & n & Q) & _ & _ & H3 & H4) (E1 & E2 & E3 & E4).
  split; [easy|]. split; [now apply spaces_ws|]. split; [apply easy_plain; [now apply qname_name in Q|easy]|].
  cbn [xattr a_eq1 a_eq2 a_quote a_raw]. rewrite E2, E3. split; [constructor|]. split; [constructor|]. split; [easy|].
  split; [apply pieces_no_quote; [easy|easy|now destruct E4 as [[K _] _]]|].
  exists (value_said (at_value a)). now apply value_read with (at_quote a).
Qed.
Lemma xattrs_wf l : attributes_ok l -> Forall easy_attribute l -> attrs_wf (map xattr l).
Proof.
  intros (H & _) E. rewrite Forall_forall in *. split.
  - apply Forall_forall. intros a Ha. apply in_map_iff in Ha. destruct Ha as (b & <- & Hb). apply xattr_wf; auto.
  - induction l as [|a l IH]; [constructor|]. cbn [map]. apply gr_one.
    + destruct (E a (or_introl eq_refl)) as (_ & E1 & E2 & _). now split.
    + apply IH; intros b Hb; [apply H|apply E]; now right.
Qed.
Lemma the_attribute_in k l a : the_attribute k l = Some a -> In a l /\ at_name a = k.
Proof. intro H. apply find_some in H. destruct H as [H E]. now apply str_eqb_eq in E. Qed.
Lemma the_attribute_some k l a : NoDup (map at_name l) -> In a l -> at_name a = k -> the_attribute k l = Some a.
Proof.
  intros N I <-. unfold the_attribute. induction l as [|b l IH]; [easy|]. cbn [find]. inversion N as [|? ? N1 N2]; subst.
  destruct I as [->|I]; [now rewrite str_eqb_refl|].
  destruct (str_eqb (at_name b) (at_name a)) eqn:E; [|now apply IH].
  apply str_eqb_eq in E. exfalso. apply N1. rewrite E. now apply in_map.
Qed.
Lemma last_value_the k l : NoDup (map at_name l) ->
  last_value k (map xattr l) = option_map (fun a => pieces_text (at_value a)) (the_attribute k l).
Proof.
  induction l as [|a l IH]; intro N; [easy|]. inversion N as [|? ? N1 N2]; subst.
  cbn [map last_value]. rewrite IH by easy. unfold the_attribute. cbn [find xattr a_key a_raw].
  fold (the_attribute k l). destruct (str_eqb (at_name a) k) eqn:E; [|now destruct (the_attribute k l)].
  destruct (the_attribute k l) as [b|] eqn:Eb; [|easy]. exfalso. apply the_attribute_in in Eb. destruct Eb as [Ib <-].
  apply str_eqb_eq in E. apply N1. rewrite E. now apply in_map.
Qed.
Lemma head_get top nm p n l k : named nm p n -> attributes_ok l -> Forall easy_attribute l ->
  get_attr (head_elem top nm (map xattr l)) k = option_map (fun a => value_said (at_value a)) (the_attribute k l).
Proof.
  intros Q (H & N & _) E. destruct (head_attrs top nm p n (map xattr l) Q) as (Ea & _).
  unfold get_attr. rewrite Ea, set_all_get, last_bound_value, last_value_the by easy.
  destruct (the_attribute k l) as [a|] eqn:T; [|easy]. apply the_attribute_in in T. destruct T as [I _].
  cbn [option_map]. unfold value. rewrite Forall_forall in *.
  destruct (H a I) as (_ & _ & _ & _ & _ & _ & V). destruct (E a I) as (_ & _ & _ & V').
  now rewrite (value_read _ _ V V').
Qed.

(** * Trees *)

Fixpoint xitem (m : markup) : citem :=
  match m with
  | MEmpty nm attrs w => CEmpty nm (map xattr attrs) w
  | MElem nm attrs w b w' => CElem nm (map xattr attrs) w (xbody b) w'
  | MComment c => CComment c
  | MCData c => CCData c
  | MPI p => CComment []
  end
with xbody (b : content) : cbody :=
  match b with
  | CText t => BEnd (pieces_text t)
  | CMore t m b => BItem (pieces_text t) (xitem m) (xbody b)
  end.
Lemma xitems_print : (forall m below sc, easy_markup below sc m -> item_print (xitem m) = markup_text m) /\
  (forall b below sc, easy_content below sc b -> body_print (xbody b) = content_text b).
Proof.
  apply markup_ind2; cbn [easy_markup easy_content xitem xbody item_print body_print markup_text content_text].
  - intros nm attrs w below sc _. unfold head_print. now rewrite xattrs_print, <- !app_assoc.
  - intros nm attrs w b IH w' below sc [_ E]. unfold head_print. now rewrite xattrs_print, (IH _ _ E), <- !app_assoc.
  - easy.
  - easy.
  - easy.
  - easy.
  - intros t m IHm b IHb below sc (_ & Em & Eb). now rewrite (IHm _ _ Em), (IHb _ _ Eb).
Qed.
Lemma comment_ok_wf c : comment_ok c -> ~ begins (lit ">") c -> ~ begins (lit "->") c -> comment_wf c.
Proof.
  intros (_ & H & _) H1 H2. split; [|easy]. intros (a & b & ->). apply H. exists a, (lit ">" ++ b). reflexivity.
Qed.
Lemma easy_named sc below nm attrs w : tag_ok sc nm attrs w -> easy_tag below sc nm attrs -> exists p n, named nm p n /\ qname nm p n.
Proof.
  intros ((p & n & Q & _) & _ & _) (_ & _ & E). exists p, n. split; [|easy]. destruct (E p n Q) as [E1 E2].
  apply qname_named; [easy|easy|]. now intros q ->.
Qed.
Lemma xitems_wf : (forall m below sc, markup_ok sc m -> easy_markup below sc m -> item_wf (xitem m)) /\
  (forall b below sc, content_ok sc b -> easy_content below sc b -> body_wf (xbody b)).
Proof.
  apply markup_ind2; cbn [markup_ok content_ok easy_markup easy_content xitem xbody item_wf body_wf].
  - intros nm attrs w below sc O E. destruct (easy_named _ _ _ _ _ O E) as (p & n & Hn & _).
    split; [now exists p, n|]. destruct O as (_ & O & W). destruct E as (E & _). split; [now apply xattrs_wf|now apply spaces_ws].
  - intros nm attrs w b IH w' below sc (O & Ob & W') (E & Eb). destruct (easy_named _ _ _ _ _ O E) as (p & n & Hn & _).
    split; [now exists p, n|]. destruct O as (_ & O & W). destruct E as (E & _). split; [now apply xattrs_wf|].
    split; [now apply spaces_ws|]. split; [exact (IH _ _ Ob Eb)|now apply spaces_ws].
  - intros c below sc O (_ & E1 & E2). now apply comment_ok_wf.
  - intros c below sc [_ O] _. exact O.
  - easy.
  - intros t below sc O E. now apply text_node.
  - intros t m IHm b IHb below sc (O & Om & Ob) (E & Em & Eb). split; [now apply text_node|]. split; [exact (IHm _ _ Om Em)|exact (IHb _ _ Ob Eb)].
Qed.

(** [scope_is sc anc below]: [sc] is the scope inside the innermost of the elements
    [anc] as they are read. *)
Definition scope_is (sc : scope) (anc : list elem) (below : bool) : Prop :=
  (forall p, p <> lit "xml" -> sc (Some p) = nearest (lit "xmlns:" ++ p) anc) /\
  (forall p, nearest (lit "xmlns:" ++ lit "xmlns:" ++ p) anc = None) /\
  match anc with
  | [] => sc None = None
  | q :: _ => match e_prefix q with Some _ => below = true | None => sc None = e_xmlns q end
  end.
Lemma scope_start : scope_is no_declarations [] false.
Proof.
  split; [|easy]. intros p H. unfold no_declarations. cbn [nearest]. destruct (str_eqb p (lit "xml")) eqn:E; [|easy]. now apply str_eqb_eq in E.
Qed.
Lemma declare_get sc top nm p n l q : named nm p n -> attributes_ok l -> Forall easy_attribute l ->
  (forall a, the_attribute (lit "xmlns") l = Some a -> value_said (at_value a) <> []) ->
  declare l sc q = match get_attr (head_elem top nm (map xattr l)) (declaring q) with Some v => Some v | None => sc q end.
Proof.
  intros Hn O E X. unfold declare. rewrite (head_get _ _ _ _ _ _ Hn O E).
  destruct (the_attribute (declaring q) l) as [a|] eqn:T; [|easy]. cbn [option_map].
  assert (value_said (at_value a) <> []) as V.
  { destruct q as [q|]; [|now apply X]. apply the_attribute_in in T. destruct T as [I T].
    destruct O as (_ & _ & O). now apply (O a q). }
  now destruct (value_said (at_value a)).
Qed.
Lemma head_scope sc top anc below nm p n l : named nm p n -> qname nm p n -> attributes_ok l -> easy_tag below sc nm l ->
  above top anc -> scope_is sc anc below ->
  (top = None -> forall q, p = Some q -> In (lit "xmlns:" ++ q) (map at_name l)) ->
  scope_ok (head_elem top nm (map xattr l)) anc /\
  (forall cs, tag_says sc nm l (set_children (head_elem top nm (map xattr l)) cs)) /\
  scope_is (declare l sc) (head_elem top nm (map xattr l) :: anc) (prefixed nm).
Proof.
  intros Hn Q O (E & X & E') A (S1 & S2 & S3) R.
  pose proof (fun k => head_get top nm p n l k Hn O E) as G.
  pose proof (fun q => declare_get sc top nm p n l q Hn O E X) as D.
  destruct (head_attrs top nm p n (map xattr l) Hn) as (_ & Hp & Hl & _).
  assert (Hk : element_of top (head_print nm (map xattr l)) = Ok (head_elem top nm (map xattr l))).
  { apply head_reads with p n; [easy|now apply xattrs_wf|]. rewrite map_map. exact R. }
  set (h := head_elem top nm (map xattr l)) in *.
  assert (Hs : scope_ok h anc) by (apply (element_of_scope _ _ _ _ Hk); destruct top; exact A).
  split; [easy|]. destruct (E' p n Q) as [_ E2].
  assert (Hx : e_xmlns h = declare l sc p).
  { rewrite (proj1 (proj2 Hs)), D. unfold parsed_ns. rewrite Hp. destruct p as [q|]; cbn [declaring].
    - destruct (get_attr h (lit "xmlns:" ++ q)); [easy|]. rewrite S2. symmetry. now apply S1.
    - destruct (get_attr h (lit "xmlns")) as [v|] eqn:Ev; [easy|].
      assert (the_attribute (lit "xmlns") l = None) as T by (rewrite G in Ev; now destruct (the_attribute (lit "xmlns") l)).
      destruct anc as [|q r]; [easy|]. destruct (e_prefix q); [symmetry; now apply E2|easy]. }
  split.
  - intro cs. split; [|split]; cbn [set_children e_prefix e_name e_xmlns]; rewrite ?Hp, ?Hl; [easy|easy|].
    intros k v. change (get_attr (set_children h cs) k) with (get_attr h k). rewrite G.
    destruct O as (_ & N & _). split.
    + destruct (the_attribute k l) as [a|] eqn:T; [|easy]. cbn. intro Ev. injection Ev as <-. apply the_attribute_in in T. now exists a.
    + intros (a & I & K & ->). now rewrite (the_attribute_some _ _ _ N I K).
  - split; [|split].
    + intros q Hq. rewrite D. cbn [nearest declaring]. rewrite (S1 q Hq). reflexivity.
    + intro q. cbn [nearest]. rewrite S2, G. match goal with |- context [the_attribute ?k l] => destruct (the_attribute k l) as [a|] eqn:T end; [|reflexivity]. exfalso.
      apply the_attribute_in in T. destruct T as [I T]. destruct O as (O & _). rewrite Forall_forall in O.
      destruct (O a I) as (_ & _ & (p' & n' & Q') & _). exact (qname_no_second _ _ _ q Q' T).
    + rewrite Hp, (qname_prefixed _ _ _ Q). destruct p as [q|]; [easy|]. now rewrite Hx.
Qed.
Lemma root_declares nm p n l w below : tag_ok no_declarations nm l w -> easy_tag below no_declarations nm l -> qname nm p n ->
  forall q, p = Some q -> In (lit "xmlns:" ++ q) (map at_name l).
Proof.
  intros O E Q q ->. destruct O as ((p' & n' & Q' & D) & _).
  destruct (qname_fun _ _ _ _ _ Q Q') as [<- <-]. specialize (D q eq_refl). unfold declare in D.
  destruct (the_attribute (declaring (Some q)) l) as [a|] eqn:T.
  - apply the_attribute_in in T. destruct T as [I T]. cbn [declaring] in T. rewrite <- T. now apply in_map.
  - exfalso. unfold no_declarations in D. destruct E as (_ & _ & E). destruct (E _ _ Q) as [_ [_ E']].
    destruct (str_eqb q (lit "xml")) eqn:Es; [now apply str_eqb_eq in Es|easy].
Qed.
Lemma named_qname nm p n p' n' : named nm p n -> qname nm p' n' -> p' = p.
Proof.
  intros [m _ H1|q m _ H1 _] Q.
  - inversion Q as [? _|? ? _ _]; subst; [easy|]. exfalso. apply H1. apply in_or_app. right. now left.
  - remember (q ++ [colon] ++ m) as z eqn:Ez. destruct Q as [z [_ H3]|q' m' [_ H3] _].
    + exfalso. apply H3. rewrite Ez. apply in_or_app. right. now left.
    + change [colon] with (lit ":") in Ez. apply app_colon in Ez; [|easy..]. now destruct Ez as [-> ->].
Qed.
Lemma markup_read :
  (forall m below sc, markup_ok sc m -> easy_markup below sc m -> forall top anc, above top anc -> scope_is sc anc below ->
     (top = None -> sc = no_declarations) ->
     says sc m [assemble (rt_item top (xitem m))]) /\
  (forall b below sc, content_ok sc b -> easy_content below sc b -> forall q anc, above (Some q) anc -> scope_is sc anc below ->
     says_in sc b (filter keep_node (map assemble (rt_body (Some q) (xbody b))))).
Proof.
  pose proof (fun (top : option elem) sc nm p n l w below (Ht : top = None -> sc = no_declarations) (O : tag_ok sc nm l w) (E : easy_tag below sc nm l)
    (Q : qname nm p n) (N : top = None) => root_declares nm p n l w below (eq_ind _ (fun s => tag_ok s nm l w) O _ (Ht N))
    (eq_ind _ (fun s => easy_tag below s nm l) E _ (Ht N)) Q) as R.
  apply markup_ind2; cbn [markup_ok content_ok easy_markup easy_content xitem xbody rt_item rt_body].
  - intros nm l w below sc O E top anc A S Ht. destruct (easy_named _ _ _ _ _ O E) as (p & n & Hn & Q).
    destruct (head_scope sc top anc below nm p n l Hn Q (proj1 (proj2 O)) E A S (R _ _ _ _ _ _ _ _ Ht O E Q)) as (_ & T & _).
    cbn [assemble map]. rewrite build_sep; [|now destruct (head_attrs top nm p n (map xattr l) Hn) as (_ & _ & _ & ?)|intros a s t b Ea; destruct a; discriminate].
    cbn [filter map]. apply sy_empty; [apply T|easy].
  - intros nm l w b IH w' below sc (O & Ob & _) (E & Eb) top anc A S Ht. destruct (easy_named _ _ _ _ _ O E) as (p & n & Hn & Q).
    destruct (head_scope sc top anc below nm p n l Hn Q (proj1 (proj2 O)) E A S (R _ _ _ _ _ _ _ _ Ht O E Q)) as (Hs & T & S').
    cbn [assemble]. rewrite build_sep; [|now destruct (head_attrs top nm p n (map xattr l) Hn) as (_ & _ & _ & ?)|apply spaced_no_adjacent, body_spaced].
    pose proof (proj2 xitems_wf b _ _ Ob Eb) as Wb. destruct (proj2 items_meant _ Wb (head_elem top nm (map xattr l))) as [_ I].
    rewrite filter_fixed by easy. apply sy_elem; [apply T|]. cbn [set_children e_children].
    apply (IH (prefixed nm)) with (head_elem top nm (map xattr l) :: anc); [easy|easy| |easy].
    exists anc. split; easy.
  - intros c below sc O (E & _) top anc _ _ _. cbn [assemble]. rewrite <- (plain_said_none c E) at 2. constructor.
  - intros c below sc O E top anc _ _ _. cbn [assemble]. rewrite <- (plain_said_none c E) at 2. constructor.
  - easy.
  - intros t below sc O E q anc _ _. destruct (text_node t O E) as [_ ->]. constructor.
  - intros t m IHm b IHb below sc (O & Om & Ob) (E & Em & Eb) q anc A S. destruct (text_node t O E) as [_ T].
    rewrite !map_app, !filter_app, T. cbn [map filter].
    assert (keep_node (assemble (rt_item (Some q) (xitem m))) = true) as -> by (now destruct m).
    apply sy_more; [now apply IHm with below anc|now apply IHb with below anc].
Qed.

(** * Documents *)

Definition xprolog (l : list (str * misc)) : list (str * pitem) :=
  map (fun p => (fst p, match snd p with MiscComment c => PComment c | MiscPI _ => PComment [] | MiscDoctype d => PDoctype (doctype_inside d) end)) l.
Definition xsource (x : xdocument) : source :=
  Source (option_map (fun d => ([], decl_inside d)) (xd_decl x)) (xprolog (xd_prolog x)) (xd_gap x) (xitem (xd_root x)) (xd_end x).
Lemma xprolog_print l : Forall (fun p => easy_prolog (snd p)) l ->
  flat_map (fun p => fst p ++ pitem_print (snd p)) (xprolog l) = miscs_text l.
Proof.
  induction 1 as [|[w m] l E _ IH]; [easy|]. cbn [xprolog map flat_map miscs_text fst snd] in *.
  unfold xprolog in IH. rewrite IH. destruct m; [easy|contradiction|easy].
Qed.
Lemma xsource_print x : easy_xml x -> source_print (xsource x) = xml_text x.
Proof.
  intros (E1 & _ & E2 & E3). unfold source_print, xml_text, xsource. cbn [x_decl x_prolog x_gap x_root x_after].
  rewrite (xprolog_print _ E1), (proj1 xitems_print _ _ _ E2), E3. cbn [miscs_text flat_map].
  destruct (xd_decl x); reflexivity.
Qed.
Lemma quotes_app a b : quotes_closed a -> quotes_closed b -> quotes_closed (a ++ b).
Proof. unfold quotes_closed. intros H1 H2. rewrite open_quote_app, H1. exact H2. Qed.
Definition simple (s : str) : Prop := Forall (fun c => is_quote c = false /\ c <> 63%N) s.
Lemma simple_closed s : simple s -> quotes_closed s.
Proof. unfold quotes_closed. induction 1 as [|c s [H _] _ IH]; [easy|]. cbn [open_quote]. now rewrite H. Qed.
Lemma simple_no_end s : simple s -> ~ In 63%N s.
Proof. intros H I. unfold simple in H. rewrite Forall_forall in H. apply H in I. now destruct I. Qed.
Lemma spaces_simple s : spaces s -> simple s.
Proof.
  intro H. eapply Forall_impl; [|exact H]. intros c Hc. cbn in Hc. repeat destruct Hc as [<-|Hc]; try contradiction; now split.
Qed.
Lemma ranges_simple l s : Forall (in_ranges l) s -> (forall r, In r l -> (63 < fst r)%N \/ (39 < fst r /\ snd r < 63)%N) -> simple s.
Proof.
  intros H K. eapply Forall_impl; [|exact H]. intros c Hc. unfold in_ranges in Hc. rewrite Exists_exists in Hc.
  destruct Hc as (r & Hr & Hc). apply K in Hr. split; [|lia]. unfold is_quote, dquote, squote.
  apply orb_false_iff. split; apply N.eqb_neq; lia.
Qed.
Lemma open_quoted q : forall s, ~ In q s -> open_quote (Some q) (s ++ [q]) = None.
Proof.
  induction s as [|c s IH]; intro H; cbn [app open_quote]; [now rewrite N.eqb_refl|].
  apply not_in_cons in H. destruct H as [H1 H2]. apply N.eqb_neq in H1. rewrite H1. now apply IH.
Qed.
Lemma pseudo_good (P : str -> Prop) nm p : (forall v, P v -> simple v) -> simple nm -> pseudo_ok P p ->
  quotes_closed (pseudo_text nm p) /\ ~ In 63%N (pseudo_text nm p).
Proof.
  intros HP Hn (_ & H1 & H2 & H3 & H4 & H5). apply HP in H5. apply spaces_simple in H1, H2, H3. unfold pseudo_text.
  assert (is_quote (ps_quote p) = true /\ ps_quote p <> 63%N) as [Q1 Q2] by (destruct H4 as [-> | ->]; now split).
  split.
  - apply quotes_app; [now apply simple_closed|]. apply quotes_app; [now apply simple_closed|]. apply quotes_app; [now apply simple_closed|].
    apply quotes_app; [reflexivity|]. apply quotes_app; [now apply simple_closed|].
    unfold quotes_closed. cbn [app open_quote]. rewrite Q1. apply open_quoted. intro I. unfold simple in H5. rewrite Forall_forall in H5.
    apply H5 in I. destruct I. congruence.
  - intro I. repeat (apply in_app_or in I; destruct I as [I|I]); try (now apply simple_no_end in I);
      cbn in I; destruct I as [I|[]]; congruence.
Qed.
Lemma decl_inside_wf d : xmldecl_ok d -> decl_wf (decl_inside d).
Proof.
  intros (H1 & H2 & H3 & H4).
  assert (V : quotes_closed (pseudo_text (lit "version") (xd_version d)) /\ ~ In 63%N (pseudo_text (lit "version") (xd_version d))).
  { apply pseudo_good with version_num; [|repeat constructor; easy|easy]. intros v (r & -> & _ & H).
    apply Forall_app. split; [repeat constructor; easy|]. apply ranges_simple in H; [easy|]. intros x [<-|[]]. cbn. lia. }
  assert (E : quotes_closed (optional_text (lit "encoding") (xd_encoding d)) /\ ~ In 63%N (optional_text (lit "encoding") (xd_encoding d))).
  { destruct (xd_encoding d) as [p|]; [|now split]. apply pseudo_good with enc_name; [|repeat constructor; easy|now apply H2].
    intros v (c & r & -> & Hc & H). apply (ranges_simple [(65, 90); (97, 122); (48, 57); (45, 46); (95, 95)]%N).
    - constructor; [|easy]. unfold in_ranges in *. rewrite Exists_exists in *. destruct Hc as (x & Hx & Hc). exists x. split; [|easy]. cbn in *. tauto.
    - intros x Hx. cbn in Hx. repeat destruct Hx as [<-|Hx]; cbn; try lia; contradiction. }
  assert (S : quotes_closed (optional_text (lit "standalone") (xd_standalone d)) /\ ~ In 63%N (optional_text (lit "standalone") (xd_standalone d))).
  { destruct (xd_standalone d) as [p|]; [|now split]. apply pseudo_good with yes_no; [|repeat constructor; easy|now apply H3].
    intros v [-> | ->]; repeat constructor; easy. }
  apply spaces_simple in H4. unfold decl_inside. split; [eexists; reflexivity|]. split.
  - apply quotes_app; [reflexivity|]. apply quotes_app; [easy|]. apply quotes_app; [easy|]. apply quotes_app; [easy|]. now apply simple_closed.
  - intros a b Eq. exfalso. assert (In 63%N (a ++ lit "?>" ++ b)) as I by (apply in_or_app; right; now left). rewrite <- Eq in I.
    apply in_app_or in I. destruct I as [I|I]; [cbn in I; repeat destruct I as [I|I]; discriminate || contradiction|].
    apply in_app_or in I. destruct I as [I|I]; [tauto|]. apply in_app_or in I. destruct I as [I|I]; [tauto|].
    apply in_app_or in I. destruct I as [I|I]; [tauto|]. exact (simple_no_end _ H4 I).
Qed.
(** * Document type declarations *)

Definition calm (s : str) : Prop := forall c, In c s -> ~ In c (lit "'""<>").
Lemma calm_app a b : calm a -> calm b -> calm (a ++ b).
Proof. intros A B c I. apply in_app_or in I. destruct I as [I|I]; [now apply A|now apply B]. Qed.
Lemma calm_unquoted s : calm s -> open_quote None s = None /\ unquoted None s = s.
Proof.
  induction s as [|c s IH]; intro C; [easy|]. destruct IH as [I1 I2]; [intros x Ix; apply C; now right|].
  assert (is_quote c = false) as Q.
  { destruct (is_quote c) eqn:Q; [|easy]. exfalso. apply (C c); [now left|]. unfold is_quote in Q. apply orb_true_iff in Q.
    destruct Q as [Q|Q]; apply N.eqb_eq in Q; subst c; cbn; tauto. }
  cbn [open_quote unquoted]. now rewrite Q, I1, I2.
Qed.
Lemma calm_angles s : calm s -> count_occ N.eq_dec s lt_ = 0 /\ count_occ N.eq_dec s gt_ = 0.
Proof. intro C. split; apply count_occ_not_In; intro I; apply (C _ I); cbn; tauto. Qed.
Lemma calm_wf s : calm s -> doctype_wf s.
Proof.
  intro C. destruct (calm_unquoted s C) as [Q U]. destruct (calm_angles s C) as [A B]. split; [exact Q|]. split; [unfold angles_balanced; now rewrite U, A, B|].
  intros a b E. exfalso. apply (C gt_); [rewrite E; apply in_or_app; right; now left|]. cbn. tauto.
Qed.
Lemma prefix_split (u v a b : str) : u ++ v = a ++ b -> (exists z, u = a ++ z /\ b = z ++ v) \/ (exists z, a = u ++ z /\ v = z ++ b).
Proof.
  revert a. induction u as [|c u IH]; intros a E.
  - right. now exists a.
  - destruct a as [|d a].
    + left. now exists (c :: u).
    + cbn [app] in E. injection E as <- E. destruct (IH _ E) as [(z & -> & ->)|(z & -> & ->)]; [left|right]; now exists z.
Qed.
Lemma wf_app u v : doctype_wf u -> doctype_wf v -> doctype_wf (u ++ v).
Proof.
  intros (Q1 & A1 & N1) (Q2 & A2 & N2). unfold doctype_wf, quotes_closed, angles_balanced in *. split; [|split].
  - now rewrite open_quote_app, Q1.
  - rewrite unquoted_app, !count_occ_app, Q1. unfold char, str in *. lia.
  - intros a b E. destruct (prefix_split _ _ _ _ E) as [(z & -> & E2)|(z & -> & E2)].
    + destruct z as [|c z].
      * exfalso. apply (N2 [] b); [symmetry; exact E2|reflexivity|reflexivity].
      * cbn [lit app] in E2. injection E2 as <- ->. now apply (N1 a z).
    + rewrite open_quote_app, Q1, unquoted_app, !count_occ_app, Q1. intros Qz Az. apply (N2 z b); [easy|easy|]. unfold char, str in *. lia.
Qed.
(** No angles outside quotes, and all quotes closed *)
Definition quiet (s : str) : Prop := open_quote None s = None /\ ~ In lt_ (unquoted None s) /\ ~ In gt_ (unquoted None s).
Lemma calm_quiet s : calm s -> quiet s.
Proof.
  intro C. destruct (calm_unquoted s C) as [Q U]. split; [exact Q|]. rewrite U. split; intro I; apply (C _ I); cbn; tauto.
Qed.
Lemma quiet_app a b : quiet a -> quiet b -> quiet (a ++ b).
Proof.
  intros (Q & L & G) (Q' & L' & G'). unfold quiet. rewrite open_quote_app, unquoted_app, Q. split; [easy|].
  split; intro I; apply in_app_or in I; tauto.
Qed.
Lemma quiet_angles s : quiet s -> count_occ N.eq_dec (unquoted None s) lt_ = 0 /\ count_occ N.eq_dec (unquoted None s) gt_ = 0.
Proof. intros (_ & L & G). split; now apply count_occ_not_In. Qed.
Lemma quiet_wf s : quiet s -> doctype_wf s.
Proof.
  intro C. pose proof C as (Q & L & G). destruct (quiet_angles s C) as [A B]. split; [exact Q|]. split; [unfold angles_balanced; now rewrite A, B|].
  intros a b E Qa _. apply G. rewrite E, unquoted_app, Qa. apply in_or_app. right. now left.
Qed.
Lemma angled_quiet s : quiet s -> doctype_wf (lit "<" ++ s ++ lit ">").
Proof.
  intro C. pose proof C as (Q & L & G). destruct (quiet_angles s C) as [A B]. unfold doctype_wf, quotes_closed, angles_balanced. split; [|split].
  - rewrite !open_quote_app. change (open_quote None (lit "<")) with (@None char). now rewrite Q.
  - rewrite !unquoted_app, !count_occ_app. change (open_quote None (lit "<")) with (@None char). rewrite Q. unfold char, str in *. rewrite A, B. reflexivity.
  - intros a b E. destruct a as [|c a]; [discriminate|]. cbn [lit app] in E. injection E as <- E. intros Qa.
    change (open_quote None (60%N :: a)) with (open_quote None a) in Qa.
    assert (count_occ N.eq_dec (unquoted None a) gt_ = 0) as Za.
    { apply count_occ_not_In. intro I. destruct (prefix_split _ _ _ _ E) as [(z & -> & E2)|(z & -> & E2)].
      - apply G. rewrite unquoted_app. apply in_or_app. now left.
      - destruct z as [|x z]; [rewrite app_nil_r in *; now apply G|]. cbn in E2. injection E2 as _ E2. now destruct z. }
    change (60%N :: a) with (lit "<" ++ a). rewrite !unquoted_app, !count_occ_app. change (open_quote None (lit "<")) with (@None char).
    unfold char, str in *. rewrite Za. cbn. discriminate.
Qed.
Lemma angled_wf s : calm s -> doctype_wf (lit "<" ++ s ++ lit ">").
Proof. intro C. now apply angled_quiet, calm_quiet. Qed.
Lemma open_within q : forall a, ~ In q a -> open_quote (Some q) a = Some q.
Proof.
  induction a as [|c a IH]; intro N; [easy|]. cbn [open_quote]. destruct (N.eqb_spec c q) as [->|D]; [exfalso; apply N; now left|].
  apply IH. intro I. apply N. now right.
Qed.
Lemma unquoted_within q : forall a r, ~ In q a -> unquoted (Some q) (a ++ r) = unquoted (Some q) r.
Proof.
  induction a as [|c a IH]; intros r N; [easy|]. cbn [unquoted app]. destruct (N.eqb_spec c q) as [->|D]; [exfalso; apply N; now left|].
  apply IH. intro I. apply N. now right.
Qed.
Lemma quoted_wf q s : quote_ok q -> ~ In q s -> doctype_wf ([q] ++ s ++ [q]).
Proof.
  intros K N. assert (is_quote q = true /\ q <> gt_) as [Q G] by (destruct K as [-> | ->]; now split).
  unfold doctype_wf, quotes_closed, angles_balanced. cbn [app open_quote unquoted]. rewrite Q. split; [|split].
  - now apply open_quoted.
  - rewrite unquoted_within by easy. cbn [unquoted]. now destruct (q =? q)%N.
  - intros a b E. destruct a as [|c a]; [injection E as E _; now destruct G|]. injection E as <- E. cbn [open_quote]. rewrite Q.
    intro H. exfalso. enough (~ In q a) as M by (rewrite (open_within q a M) in H; discriminate).
    destruct (prefix_split _ _ _ _ E) as [(z & -> & E2)|(z & -> & E2)].
    + intro I. apply N. apply in_or_app. now left.
    + destruct z as [|x z]; [now rewrite app_nil_r|]. injection E2 as _ E2. now destruct z.
Qed.
Lemma quoted_quiet q s : quote_ok q -> ~ In q s -> quiet ([q] ++ s ++ [q]).
Proof.
  intros K N. assert (is_quote q = true /\ q <> gt_) as [Q G] by (destruct K as [-> | ->]; now split).
  unfold quiet. cbn [app open_quote unquoted]. rewrite Q. split; [now apply open_quoted|].
  rewrite unquoted_within by easy. cbn [unquoted]. destruct (q =? q)%N; [|easy]. cbn. tauto.
Qed.
Lemma ranges_calm l s : Forall (in_ranges l) s -> (forall r, In r l -> forall c, In c (lit "'""<>") -> ~ (fst r <= c <= snd r)%N) -> calm s.
Proof.
  intros H K c I J. rewrite Forall_forall in H. apply H in I. unfold in_ranges in I. rewrite Exists_exists in I. destruct I as (r & Ir & L).
  exact (K r Ir c J L).
Qed.
Ltac calm_literal := intros ? I J; cbn in I, J; repeat (destruct I as [<-|I]; [repeat (destruct J as [J|J]; [discriminate J|]); exact J|]); exact I.
Lemma spaces_calm s : spaces s -> calm s.
Proof.
  intros H c I. unfold spaces in H. rewrite Forall_forall in H. apply H in I. clear H. revert c I. calm_literal.
Qed.
Lemma name_calm s : is_name s -> calm s.
Proof.
  intros (c & r & -> & H1 & H2).
  assert (K : forall x, name_next x -> ~ In x (lit "'""<>")).
  { intros x [H|H] J; unfold name_first, in_ranges in H; rewrite Exists_exists in H; destruct H as (p & Ip & L); cbn in Ip, J;
      repeat (destruct J as [<-|J]; [repeat (destruct Ip as [<-|Ip]; [cbn in L; lia|]); exact Ip|]); exact J. }
  intros x [<-|I]; [apply K; now left|]. rewrite Forall_forall in H2. now apply K, H2.
Qed.
Lemma qname_calm s : is_qname s -> calm s.
Proof. intros (p & n & Q). apply name_calm. now apply qname_name in Q. Qed.
Lemma sign_calm s : sign_ok s -> calm s.
Proof. intro H. repeat (destruct H as [<-|H]; [calm_literal|]). destruct H. Qed.
Lemma cps_calm : (forall c, cp_ok c -> calm (cp_text c)) /\
  (forall l, cps_ok l -> forall sep, [sep] = lit "," \/ [sep] = lit "|" -> calm (cps_text sep l)).
Proof.
  apply cp_ind2; cbn [cp_ok cps_ok cp_text cps_text].
  - intros nm sign [N S]. apply calm_app; [now apply qname_calm|now apply sign_calm].
  - intros sep w l IH sign (W & L & S & K). apply calm_app; [calm_literal|]. apply calm_app; [now apply spaces_calm|].
    apply calm_app; [apply IH; tauto|]. apply calm_app; [calm_literal|now apply sign_calm].
  - intros c IH w [C W] sep _. apply calm_app; [now apply IH|now apply spaces_calm].
  - intros c IHc w w' l IHl (C & W & W' & L) sep K. apply calm_app; [now apply IHc|]. apply calm_app; [now apply spaces_calm|].
    apply calm_app; [destruct K as [-> | ->]; calm_literal|]. apply calm_app; [now apply spaces_calm|now apply IHl].
Qed.
Lemma alternatives_calm l : Forall (fun a => spaces (fst (fst a)) /\ spaces (snd (fst a)) /\ is_qname (snd a)) l -> calm (flat_map alternative_text l).
Proof.
  induction 1 as [|[[a b] n] l (A & B & N) _ IH]; [intros c []|]. cbn [flat_map fst snd] in *. apply calm_app; [|exact IH]. unfold alternative_text. cbn [fst snd].
  apply calm_app; [now apply spaces_calm|]. apply calm_app; [calm_literal|]. apply calm_app; [now apply spaces_calm|now apply qname_calm].
Qed.
Lemma spec_calm c : spec_ok c -> calm (spec_text c).
Proof.
  destruct c as [| |w l w' star|c]; cbn [spec_ok spec_text].
  - intros _. calm_literal.
  - intros _. calm_literal.
  - intros (W & L & W' & S). apply calm_app; [calm_literal|]. apply calm_app; [now apply spaces_calm|]. apply calm_app; [calm_literal|].
    apply calm_app; [now apply alternatives_calm|]. apply calm_app; [now apply spaces_calm|]. apply calm_app; [calm_literal|].
    destruct S as [-> |[-> _]]; calm_literal.
  - intros [C _]. now apply cps_calm.
Qed.
Lemma nmtoken_calm s : Forall name_next s -> calm s.
Proof.
  intros H x I J. rewrite Forall_forall in H. apply H in I. destruct I as [I|I]; unfold name_first, in_ranges in I; rewrite Exists_exists in I; destruct I as (p & Ip & L); cbn in Ip, J;
    repeat (destruct J as [<-|J]; [repeat (destruct Ip as [<-|Ip]; [cbn in L; lia|]); exact Ip|]); exact J.
Qed.
Lemma ncname_calm s : is_ncname s -> calm s.
Proof. intros [N _]. now apply name_calm. Qed.
Lemma external_quiet e : external_ok e -> quiet (external_text e).
Proof.
  intros ((_ & W) & P & (_ & W') & Q & _ & N). unfold external_text. apply quiet_app; [now apply calm_quiet, spaces_calm|]. apply quiet_app.
  - destruct (ex_public e) as [[[w q] l]|].
    + destruct (P w q l eq_refl) as ((_ & Pw) & Pq & _ & Pl). apply quiet_app; [apply calm_quiet; calm_literal|].
      apply quiet_app; [now apply calm_quiet, spaces_calm|]. now apply quoted_quiet.
    + apply calm_quiet. calm_literal.
  - apply quiet_app; [now apply calm_quiet, spaces_calm|]. now apply quoted_quiet.
Qed.
Lemma external_wf e : external_ok e -> doctype_wf (external_text e).
Proof. intro H. now apply quiet_wf, external_quiet. Qed.
Lemma number_digits base dig : forall ds acc n, number base dig acc ds = Some n -> Forall (fun c => dig c <> None) ds.
Proof.
  induction ds as [|c ds IH]; intros acc n H; [constructor|]. cbn [number] in H. destruct (dig c) as [v|] eqn:E; [|easy].
  constructor; [congruence|]. now apply IH in H.
Qed.
Lemma reference_quote q p : quote_ok q -> reference_ok p -> p <> Chr q -> ~ In q (piece_text p).
Proof.
  intros Q R N I. destruct p as [c|nm|ds|ds]; cbn [piece_text] in I.
  - destruct I as [->|[]]. now apply N.
  - destruct R as (c & R & _). apply refers_ent in R. cbn in R.
    destruct Q as [-> | ->]; destruct R as [E|[E|[E|[E|[E|[]]]]]]; injection E as <- <-; cbn in I; repeat (destruct I as [I|I]; [discriminate I|]); exact I.
  - destruct R as (c & R & _). destruct ds as [|d ds]; [discriminate R|]. cbn [refers] in R. apply number_digits in R. rewrite Forall_forall in R.
    apply in_app_or in I. destruct I as [I|I]; [destruct Q as [-> | ->]; cbn in I; repeat (destruct I as [I|I]; [discriminate I|]); exact I|].
    apply in_app_or in I. destruct I as [I|I]; [apply R in I; destruct Q as [-> | ->]; now apply I|].
    destruct Q as [-> | ->]; cbn in I; repeat (destruct I as [I|I]; [discriminate I|]); exact I.
  - destruct R as (c & R & _). destruct ds as [|d ds]; [discriminate R|]. cbn [refers] in R. apply number_digits in R. rewrite Forall_forall in R.
    apply in_app_or in I. destruct I as [I|I]; [destruct Q as [-> | ->]; cbn in I; repeat (destruct I as [I|I]; [discriminate I|]); exact I|].
    apply in_app_or in I. destruct I as [I|I]; [apply R in I; destruct Q as [-> | ->]; now apply I|].
    destruct Q as [-> | ->]; cbn in I; repeat (destruct I as [I|I]; [discriminate I|]); exact I.
Qed.
Lemma value_quote q l : quote_ok q -> value_ok q l -> ~ In q (pieces_text l).
Proof.
  intros Q H I. unfold pieces_text in I. apply in_flat_map in I. destruct I as (p & Ip & I). unfold value_ok in H. rewrite Forall_forall in H.
  destruct (H p Ip) as [R C]. revert I. apply reference_quote; [easy|easy|]. intros ->. apply (proj2 (C q eq_refl)). cbn. tauto.
Qed.
Lemma entity_quote q l : quote_ok q -> entity_value_ok q l -> ~ In q (pieces_text l).
Proof.
  intros Q H I. unfold pieces_text in I. apply in_flat_map in I. destruct I as (p & Ip & I). unfold entity_value_ok in H. rewrite Forall_forall in H.
  specialize (H p Ip). destruct p as [c|nm|ds|ds].
  - cbn in I. destruct I as [<-|[]]. apply (proj2 H). cbn. tauto.
  - cbn [piece_text] in I. apply ncname_calm in H. apply in_app_or in I. destruct I as [I|I]; [destruct Q as [-> | ->]; cbn in I; repeat (destruct I as [I|I]; [discriminate I|]); exact I|].
    apply in_app_or in I. destruct I as [I|I]; [apply (H _ I); destruct Q as [-> | ->]; cbn; tauto|].
    destruct Q as [-> | ->]; cbn in I; repeat (destruct I as [I|I]; [discriminate I|]); exact I.
  - revert I. now apply reference_quote.
  - revert I. now apply reference_quote.
Qed.
Lemma keyword_calm kw : In kw keywords -> calm kw.
Proof. intro H. repeat (destruct H as [<-|H]; [calm_literal|]). destruct H. Qed.
Lemma tokens_calm l : Forall (fun a : str * str * str => spaces (fst (fst a)) /\ spaces (snd (fst a))) l -> Forall calm (map snd l) -> calm (flat_map alternative_text l).
Proof.
  induction 1 as [|[[a b] n] l (A & B) _ IH]; [intros _ c []|]. cbn [flat_map fst snd map] in *. intro N. inversion N; subst.
  apply calm_app; [|now apply IH]. unfold alternative_text. cbn [fst snd].
  apply calm_app; [now apply spaces_calm|]. apply calm_app; [calm_literal|]. apply calm_app; [now apply spaces_calm|easy].
Qed.
Lemma type_calm t : type_ok t -> calm (type_text t).
Proof.
  destruct t as [kw|n w t l w']; cbn [type_ok type_text]; [apply keyword_calm|]. intros (V & W & T & L & W').
  assert (C : Forall calm (t :: map snd l)).
  { eapply Forall_impl; [|exact T]. intros s. destruct n; [apply ncname_calm|]. intros [_ H]. now apply nmtoken_calm. }
  inversion C; subst. apply calm_app.
  { destruct n as [v|]; [|intros c []]. apply calm_app; [calm_literal|]. now apply spaces_calm, V. }
  apply calm_app; [calm_literal|]. apply calm_app; [now apply spaces_calm|]. apply calm_app; [easy|]. apply calm_app; [now apply tokens_calm|].
  apply calm_app; [now apply spaces_calm|calm_literal].
Qed.
Lemma default_quiet d : default_ok d -> quiet (default_text d).
Proof.
  destruct d as [| |f q v]; cbn [default_ok default_text]; [intros _; apply calm_quiet; calm_literal..|]. intros (W & Q & V).
  apply quiet_app; [|apply quoted_quiet; [easy|now apply value_quote]].
  destruct f as [w|]; [|apply calm_quiet; intros c []]. apply quiet_app; [apply calm_quiet; calm_literal|]. now apply calm_quiet, spaces_calm, W.
Qed.
Lemma attdef_quiet a : attdef_ok a -> quiet (attdef_text a).
Proof.
  intros ((_ & W) & N & (_ & W1) & T & (_ & W2) & D). unfold attdef_text. apply quiet_app; [now apply calm_quiet, spaces_calm|].
  apply quiet_app; [now apply calm_quiet, qname_calm|]. apply quiet_app; [now apply calm_quiet, spaces_calm|].
  apply quiet_app; [now apply calm_quiet, type_calm|]. apply quiet_app; [now apply calm_quiet, spaces_calm|now apply default_quiet].
Qed.
Lemma attdefs_quiet l : Forall attdef_ok l -> quiet (flat_map attdef_text l).
Proof.
  induction 1 as [|a l A _ IH]; [apply calm_quiet; intros c []|]. cbn [flat_map]. apply quiet_app; [now apply attdef_quiet|exact IH].
Qed.
Lemma entity_quiet d : entitydef_ok d -> quiet (entity_text d).
Proof.
  destruct d as [w q v|e nd]; cbn [entitydef_ok entity_text].
  - intros ((_ & W) & Q & V). apply quiet_app; [now apply calm_quiet, spaces_calm|]. apply quoted_quiet; [easy|now apply entity_quote].
  - intros (E & N). apply quiet_app; [now apply external_quiet|]. apply calm_quiet. destruct nd as [[[w w'] n]|]; [|intros c []].
    destruct (N _ _ _ eq_refl) as ((_ & W) & (_ & W') & Nn). apply calm_app; [now apply spaces_calm|]. apply calm_app; [calm_literal|].
    apply calm_app; [now apply spaces_calm|now apply ncname_calm].
Qed.
Lemma notation_quiet i : notation_ok i -> quiet (notation_text i).
Proof.
  destruct i as [e|w w' q l]; cbn [notation_ok notation_text]; [apply external_quiet|]. intros ((_ & W) & (_ & W') & Q & _ & N).
  apply quiet_app; [now apply calm_quiet, spaces_calm|]. apply quiet_app; [apply calm_quiet; calm_literal|].
  apply quiet_app; [now apply calm_quiet, spaces_calm|]. now apply quoted_quiet.
Qed.
Lemma markupdecl_wf m : markupdecl_ok m -> easy_markupdecl m -> doctype_wf (markupdecl_text m).
Proof.
  destruct m as [w nm w' cs w''|w nm l w'|w nm d w'|w1 w2 nm d w'|w nm i w'|p|c]; cbn [markupdecl_ok easy_markupdecl markupdecl_text].
  - intros ((_ & W) & N & (_ & W') & S & W'') _.
    replace (lit "<!ELEMENT" ++ w ++ nm ++ w' ++ spec_text cs ++ w'' ++ lit ">") with (lit "<" ++ (lit "!ELEMENT" ++ w ++ nm ++ w' ++ spec_text cs ++ w'') ++ lit ">")
      by (rewrite <- !app_assoc; reflexivity).
    apply angled_wf. apply calm_app; [calm_literal|]. apply calm_app; [now apply spaces_calm|]. apply calm_app; [now apply qname_calm|].
    apply calm_app; [now apply spaces_calm|]. apply calm_app; [now apply spec_calm|now apply spaces_calm].
  - intros ((_ & W) & N & L & W') _.
    replace (lit "<!ATTLIST" ++ w ++ nm ++ flat_map attdef_text l ++ w' ++ lit ">") with (lit "<" ++ (lit "!ATTLIST" ++ w ++ nm ++ flat_map attdef_text l ++ w') ++ lit ">")
      by (rewrite <- !app_assoc; reflexivity).
    apply angled_quiet. apply quiet_app; [apply calm_quiet; calm_literal|]. apply quiet_app; [now apply calm_quiet, spaces_calm|].
    apply quiet_app; [now apply calm_quiet, qname_calm|]. apply quiet_app; [now apply attdefs_quiet|now apply calm_quiet, spaces_calm].
  - intros ((_ & W) & N & D & W') _.
    replace (lit "<!ENTITY" ++ w ++ nm ++ entity_text d ++ w' ++ lit ">") with (lit "<" ++ (lit "!ENTITY" ++ w ++ nm ++ entity_text d ++ w') ++ lit ">")
      by (rewrite <- !app_assoc; reflexivity).
    apply angled_quiet. apply quiet_app; [apply calm_quiet; calm_literal|]. apply quiet_app; [now apply calm_quiet, spaces_calm|].
    apply quiet_app; [now apply calm_quiet, ncname_calm|]. apply quiet_app; [now apply entity_quiet|now apply calm_quiet, spaces_calm].
  - intros ((_ & W1) & (_ & W2) & N & D & _ & W') _.
    replace (lit "<!ENTITY" ++ w1 ++ lit "%" ++ w2 ++ nm ++ entity_text d ++ w' ++ lit ">") with (lit "<" ++ (lit "!ENTITY" ++ w1 ++ lit "%" ++ w2 ++ nm ++ entity_text d ++ w') ++ lit ">")
      by (rewrite <- !app_assoc; reflexivity).
    apply angled_quiet. apply quiet_app; [apply calm_quiet; calm_literal|]. apply quiet_app; [now apply calm_quiet, spaces_calm|].
    apply quiet_app; [apply calm_quiet; calm_literal|]. apply quiet_app; [now apply calm_quiet, spaces_calm|].
    apply quiet_app; [now apply calm_quiet, ncname_calm|]. apply quiet_app; [now apply entity_quiet|now apply calm_quiet, spaces_calm].
  - intros ((_ & W) & N & D & W') _.
    replace (lit "<!NOTATION" ++ w ++ nm ++ notation_text i ++ w' ++ lit ">") with (lit "<" ++ (lit "!NOTATION" ++ w ++ nm ++ notation_text i ++ w') ++ lit ">")
      by (rewrite <- !app_assoc; reflexivity).
    apply angled_quiet. apply quiet_app; [apply calm_quiet; calm_literal|]. apply quiet_app; [now apply calm_quiet, spaces_calm|].
    apply quiet_app; [now apply calm_quiet, ncname_calm|]. apply quiet_app; [now apply notation_quiet|now apply calm_quiet, spaces_calm].
  - intros (N & _) E. unfold pi_text. replace (lit "<?" ++ pi_target p ++ pi_data p ++ lit "?>") with (lit "<" ++ (lit "?" ++ pi_target p ++ pi_data p ++ lit "?") ++ lit ">")
      by (rewrite <- !app_assoc; reflexivity).
    apply angled_wf. apply calm_app; [calm_literal|]. apply calm_app; [now apply name_calm|]. apply calm_app; [exact E|calm_literal].
  - intros _ E. unfold comment_text. replace (lit "<!--" ++ c ++ lit "-->") with (lit "<" ++ (lit "!--" ++ c ++ lit "--") ++ lit ">")
      by (rewrite <- !app_assoc; reflexivity).
    apply angled_wf. apply calm_app; [calm_literal|]. apply calm_app; [exact E|calm_literal].
Qed.
Lemma doctype_inside_wf d : doctype_ok d -> easy_prolog (MiscDoctype d) -> doctype_wf (doctype_inside d).
Proof.
  intros ((_ & W) & N & E & W' & S) Y. unfold doctype_inside. cbn [easy_prolog] in Y.
  apply wf_app; [now apply calm_wf, spaces_calm|]. apply wf_app; [now apply calm_wf, qname_calm|]. apply wf_app.
  { destruct (dt_external d) as [e|]; [now apply external_wf, E|]. apply calm_wf. intros c []. }
  apply wf_app; [now apply calm_wf, spaces_calm|]. destruct (dt_subset d) as [[[l w] w']|]; [|apply calm_wf; intros c []].
  destruct (S l w w' eq_refl) as (L & Sw & Sw'). pose proof (Y l w w' eq_refl) as Yl. unfold subset_text. cbn [fst snd].
  apply wf_app; [apply calm_wf; calm_literal|]. apply wf_app.
  - clear - L Yl. induction L as [|[v m] l [V M] _ IH]; [apply calm_wf; intros c []|]. inversion Yl; subst. cbn [flat_map fst snd] in *.
    apply wf_app; [|now apply IH]. apply wf_app; [now apply calm_wf, spaces_calm|now apply markupdecl_wf].
  - apply wf_app; [now apply calm_wf, spaces_calm|]. apply wf_app; [apply calm_wf; calm_literal|now apply calm_wf, spaces_calm].
Qed.
Lemma xprolog_doctypes l : doctypes (xprolog l) = map doctype_inside (doctype_decls l).
Proof. induction l as [|[w m] l IH]; [easy|]. cbn [xprolog map doctypes fst snd doctype_decls flat_map] in *. unfold xprolog in IH. destruct m; cbn [app map]; now rewrite IH. Qed.

Lemma xsource_wf x : xml_ok x -> easy_xml x -> source_wf (xsource x).
Proof.
  intros (O1 & O2 & _ & O3 & O4 & _ & O5 & _ & _ & O6) (E1 & Ew & E2 & _). rewrite Ew in O5. unfold source_wf, xsource. cbn [x_decl x_prolog x_gap x_root x_after].
  unfold miscs_ok in O2. rewrite Forall_forall in O2, E1.
  split; [|split; [|split; [|split; [|split; [|split]]]]].
  - intros w d H. destruct (xd_decl x) as [d'|]; [|easy]. injection H as <- <-. split; [constructor|]. now apply decl_inside_wf, O1.
  - apply Forall_forall. intros p Hp. apply in_map_iff in Hp. destruct Hp as ([w m] & <- & I). cbn [fst snd].
    destruct (O2 _ I) as [A B]. pose proof (E1 _ I) as C. cbn [fst snd] in *. split; [now apply spaces_ws|].
    destruct m as [c|q|q]; [|contradiction|now apply doctype_inside_wf]. destruct C as (C1 & C2 & _). now apply comment_ok_wf.
  - intros w c Hp. apply in_map_iff in Hp. destruct Hp as ([w' m] & E & I). cbn [fst snd] in E. pose proof (E1 _ I) as C. cbn [snd] in C.
    destruct m as [c'|q|q]; [|contradiction|discriminate]. injection E as <- <-. now destruct C as (_ & _ & C).
  - now apply spaces_ws.
  - now apply (proj1 xitems_wf _ false no_declarations).
  - destruct (xd_root x) as [nm l w|nm l w b w'|c|c|p]; try contradiction; cbn [xitem].
    + exists nm, (map xattr l). split; [left; now exists w|]. intros p n Hn. cbn [markup_ok easy_markup] in *. rewrite map_map.
      destruct (easy_named _ _ _ _ _ O5 E2) as (p' & n' & _ & Q). apply (root_declares _ _ _ _ _ _ O5 E2 Q). now apply named_qname with nm n n'.
    + exists nm, (map xattr l). split; [right; now exists w, (xbody b), w'|]. intros p n Hn. cbn [markup_ok easy_markup] in *. rewrite map_map.
      destruct O5 as [O5 _], E2 as [E2 _].
      destruct (easy_named _ _ _ _ _ O5 E2) as (p' & n' & _ & Q). apply (root_declares _ _ _ _ _ _ O5 E2 Q). now apply named_qname with nm n n'.
  - now apply ws_no_tag, spaces_ws.
Qed.
Theorem xml_read x : xml_ok x -> easy_xml x -> exists d, parse_str (xml_text x) = Ok d /\ xml_says x d.
Proof.
  intros O E. pose proof (xsource_wf _ O E) as W. exists (document_of (xsource x)). rewrite <- xsource_print by easy.
  split; [now apply source_parsed|]. unfold xml_says, document_of. cbn [d_declaration d_dtds d_root xsource x_decl x_prolog x_root].
  destruct O as (_ & _ & _ & _ & Oe & _ & Om & _), E as (_ & Ew & E & _). rewrite Ew in Om |- *. split; [now destruct (xd_decl x)|]. split.
  - apply xprolog_doctypes.
  - pose proof (proj1 markup_read _ _ _ Om E None [] eq_refl scope_start (fun _ => eq_refl)) as S. unfold root_of.
    destruct (xd_root x) as [nm l w|nm l w b w'|c|c|p]; try contradiction; exact S.
Qed.

(** * All characters of a document are XML characters *)

Lemma ranges_char l c : in_ranges l c -> forallb (fun r => (32 <=? fst r)%N && ((snd r <=? 55295)%N || (57344 <=? fst r)%N && (snd r <=? 65533)%N ||
  (65536 <=? fst r)%N && (snd r <=? 1114111)%N)) l = true -> xml_char c.
Proof.
  unfold in_ranges. intros H E. rewrite Exists_exists in H. destruct H as (r & Hr & H). rewrite forallb_forall in E. apply E in Hr.
  rewrite andb_true_iff, !orb_true_iff, !andb_true_iff, !N.leb_le in Hr. unfold xml_char, in_ranges.
  destruct Hr as [R1 [[R2|R2]|R2]].
  - do 2 apply Exists_cons_tl. apply Exists_cons_hd. cbn. lia.
  - do 3 apply Exists_cons_tl. apply Exists_cons_hd. cbn. lia.
  - do 4 apply Exists_cons_tl. apply Exists_cons_hd. cbn. lia.
Qed.
Definition all_xml (s : str) : Prop := Forall xml_char s.
Lemma all_app a b : all_xml a -> all_xml b -> all_xml (a ++ b).
Proof. intros. now apply Forall_app. Qed.
Lemma small_char c : (32 <= c <= 55295)%N -> xml_char c.
Proof. intro H. do 2 apply Exists_cons_tl. apply Exists_cons_hd. exact H. Qed.
Ltac small := repeat (apply Forall_cons; [apply small_char; split; vm_compute; discriminate|]); apply Forall_nil.
Lemma name_chars s : is_name s -> all_xml s.
Proof.
  intros (c & r & -> & H1 & H2). constructor.
  - eapply ranges_char; [exact H1|reflexivity].
  - eapply Forall_impl; [|exact H2]. intros d [H|H]; eapply ranges_char; [exact H|reflexivity|exact H|reflexivity].
Qed.
Lemma spaces_chars s : spaces s -> all_xml s.
Proof.
  intro H. eapply Forall_impl; [|exact H]. intros c Hc. cbn in Hc.
  destruct Hc as [<-|[<-|[<-|[<-|[]]]]]; unfold xml_char, in_ranges.
  - do 2 apply Exists_cons_tl. apply Exists_cons_hd. cbn. lia.
  - apply Exists_cons_hd. cbn. lia.
  - apply Exists_cons_tl, Exists_cons_hd. cbn. lia.
  - apply Exists_cons_hd. cbn. lia.
Qed.
Lemma digit_char c : digit c <> None -> xml_char c.
Proof.
  unfold digit. destruct ((48 <=? c)%N && (c <=? 57)%N) eqn:E; [|easy]. intros _. rewrite andb_true_iff, !N.leb_le in E. apply small_char. lia.
Qed.
Lemma hexdigit_char c : hexdigit c <> None -> xml_char c.
Proof.
  unfold hexdigit. intro H. apply small_char.
  destruct ((48 <=? c)%N && (c <=? 57)%N) eqn:E; [rewrite andb_true_iff, !N.leb_le in E; lia|].
  destruct ((65 <=? c)%N && (c <=? 70)%N) eqn:E'; [rewrite andb_true_iff, !N.leb_le in E'; lia|].
  destruct ((97 <=? c)%N && (c <=? 102)%N) eqn:E''; [rewrite andb_true_iff, !N.leb_le in E''; lia|]. easy.
Qed.
Lemma reference_chars p : reference_ok p -> (forall c, p = Chr c -> xml_char c) -> all_xml (piece_text p).
Proof.
  intros R C. destruct p as [c|nm|ds|ds]; cbn [piece_text].
  - constructor; [now apply C|constructor].
  - destruct R as (c & R & _). apply refers_ent in R. cbn in R. destruct R as [E|[E|[E|[E|[E|[]]]]]]; injection E as <- <-; small.
  - destruct R as (c & R & _). apply all_app; [small|]. apply all_app; [|small]. destruct ds as [|d ds]; [constructor|]. cbn [refers] in R.
    apply number_digits in R. eapply Forall_impl; [apply digit_char|exact R].
  - destruct R as (c & R & _). apply all_app; [small|]. apply all_app; [|small]. destruct ds as [|d ds]; [constructor|]. cbn [refers] in R.
    apply number_digits in R. eapply Forall_impl; [apply hexdigit_char|exact R].
Qed.
Lemma pieces_chars bad l : Forall (fun p => reference_ok p /\ forall c, p = Chr c -> xml_char c /\ ~ In c bad) l -> all_xml (pieces_text l).
Proof.
  induction 1 as [|p l [H1 H2] _ IH]; [constructor|]. cbn [pieces_text flat_map]. apply all_app; [|exact IH].
  apply reference_chars; [easy|]. intros c E. now apply H2.
Qed.
Lemma quote_char q : quote_ok q -> all_xml [q].
Proof. intros [-> | ->]; small. Qed.
Lemma attribute_chars a : attribute_ok a -> all_xml (attribute_text a).
Proof.
  intros (_ & H2 & (p & n & Q) & H4 & H5 & H6 & H7). unfold attribute_text.
  apply all_app; [now apply spaces_chars|]. apply all_app; [apply name_chars; now apply qname_name in Q|].
  apply all_app; [now apply spaces_chars|]. apply all_app; [small|]. apply all_app; [now apply spaces_chars|].
  apply all_app; [now apply quote_char|]. apply all_app; [now apply pieces_chars in H7|now apply quote_char].
Qed.
Lemma attributes_chars l : attributes_ok l -> all_xml (flat_map attribute_text l).
Proof.
  intros (H & _). induction H as [|a l H _ IH]; [constructor|]. cbn [flat_map]. apply all_app; [now apply attribute_chars|exact IH].
Qed.
Lemma comment_chars c : comment_ok c -> all_xml (comment_text c).
Proof. intros [H _]. apply all_app; [small|]. apply all_app; [easy|small]. Qed.
Lemma pi_chars p : pi_ok p -> all_xml (pi_text p).
Proof.
  intros (H1 & _ & H2 & _). apply all_app; [small|]. apply all_app; [now apply name_chars|]. apply all_app; [|small].
  destruct H2 as [->|(c & r & -> & H2 & H3)]; [constructor|]. constructor; [|easy].
  assert (S : spaces [c]) by now constructor. apply spaces_chars in S. now inversion S.
Qed.
Lemma tag_chars sc nm attrs w : tag_ok sc nm attrs w -> all_xml nm /\ all_xml (flat_map attribute_text attrs) /\ all_xml w.
Proof.
  intros ((p & n & Q & _) & H2 & H3). split; [apply name_chars; now apply qname_name in Q|]. split; [now apply attributes_chars|now apply spaces_chars].
Qed.
Lemma markup_chars : (forall m sc, markup_ok sc m -> all_xml (markup_text m)) /\ (forall b sc, content_ok sc b -> all_xml (content_text b)).
Proof.
  apply markup_ind2; cbn [markup_ok content_ok markup_text content_text].
  - intros nm attrs w sc O. apply tag_chars in O. destruct O as (O1 & O2 & O3).
    apply all_app; [small|]. apply all_app; [easy|]. apply all_app; [easy|]. apply all_app; [easy|small].
  - intros nm attrs w b IH w' sc (O & Ob & W). apply tag_chars in O. destruct O as (O1 & O2 & O3). apply IH in Ob. apply spaces_chars in W.
    apply all_app; [small|]. apply all_app; [easy|]. apply all_app; [easy|]. apply all_app; [easy|]. apply all_app; [small|].
    apply all_app; [easy|]. apply all_app; [small|]. apply all_app; [easy|]. apply all_app; [easy|small].
  - intros c sc. apply comment_chars.
  - intros c sc [H _]. apply all_app; [small|]. apply all_app; [easy|small].
  - intros p sc. apply pi_chars.
  - intros t sc [H _]. now apply pieces_chars in H.
  - intros t m IHm b IHb sc ([H _] & Om & Ob). apply pieces_chars in H. apply IHm in Om. apply IHb in Ob. apply all_app; [easy|]. now apply all_app.
Qed.
Lemma pseudo_chars (P : str -> Prop) nm p : (forall v, P v -> all_xml v) -> all_xml nm -> pseudo_ok P p -> all_xml (pseudo_text nm p).
Proof.
  intros HP Hn (_ & H1 & H2 & H3 & H4 & H5). unfold pseudo_text.
  apply all_app; [now apply spaces_chars|]. apply all_app; [easy|]. apply all_app; [now apply spaces_chars|]. apply all_app; [small|].
  apply all_app; [now apply spaces_chars|]. apply all_app; [now apply quote_char|]. apply all_app; [now apply HP|now apply quote_char].
Qed.
Lemma decl_chars d : xmldecl_ok d -> all_xml (decl_inside d).
Proof.
  intros (H1 & H2 & H3 & H4). unfold decl_inside. apply all_app; [small|]. apply all_app; [|apply all_app; [|apply all_app; [|now apply spaces_chars]]].
  - apply pseudo_chars with version_num; [|small|easy]. intros v (r & -> & _ & H). apply all_app; [small|].
    eapply Forall_impl; [|exact H]. intros c Hc. eapply ranges_char; [exact Hc|reflexivity].
  - destruct (xd_encoding d) as [p|]; [|constructor]. apply pseudo_chars with enc_name; [|small|now apply H2].
    intros v (c & r & -> & Hc & H). constructor; [eapply ranges_char; [exact Hc|reflexivity]|].
    eapply Forall_impl; [|exact H]. intros x Hx. eapply ranges_char; [exact Hx|reflexivity].
  - destruct (xd_standalone d) as [p|]; [|constructor]. apply pseudo_chars with yes_no; [|small|now apply H3].
    intros v [-> | ->]; small.
Qed.
Lemma qname_chars s : is_qname s -> all_xml s.
Proof. intros (p & n & Q). apply name_chars. now apply qname_name in Q. Qed.
Lemma sign_chars s : sign_ok s -> all_xml s.
Proof. intro H. repeat (destruct H as [<-|H]; [small|]). destruct H. Qed.
Lemma cps_chars : (forall c, cp_ok c -> all_xml (cp_text c)) /\
  (forall l, cps_ok l -> forall sep, [sep] = lit "," \/ [sep] = lit "|" -> all_xml (cps_text sep l)).
Proof.
  apply cp_ind2; cbn [cp_ok cps_ok cp_text cps_text].
  - intros nm sign [N S]. apply all_app; [now apply qname_chars|now apply sign_chars].
  - intros sep w l IH sign (W & L & S & K). apply all_app; [small|]. apply all_app; [now apply spaces_chars|].
    apply all_app; [apply IH; tauto|]. apply all_app; [small|now apply sign_chars].
  - intros c IH w [C W] sep _. apply all_app; [now apply IH|now apply spaces_chars].
  - intros c IHc w w' l IHl (C & W & W' & L) sep K. apply all_app; [now apply IHc|]. apply all_app; [now apply spaces_chars|].
    apply all_app; [destruct K as [-> | ->]; small|]. apply all_app; [now apply spaces_chars|now apply IHl].
Qed.
Lemma alternatives_chars l : Forall (fun a => spaces (fst (fst a)) /\ spaces (snd (fst a)) /\ is_qname (snd a)) l -> all_xml (flat_map alternative_text l).
Proof.
  induction 1 as [|[[a b] n] l (A & B & N) _ IH]; [constructor|]. cbn [flat_map fst snd] in *. apply all_app; [|exact IH]. unfold alternative_text. cbn [fst snd].
  apply all_app; [now apply spaces_chars|]. apply all_app; [small|]. apply all_app; [now apply spaces_chars|now apply qname_chars].
Qed.
Lemma spec_chars c : spec_ok c -> all_xml (spec_text c).
Proof.
  destruct c as [| |w l w' star|c]; cbn [spec_ok spec_text].
  - intros _. small.
  - intros _. small.
  - intros (W & L & W' & S). apply all_app; [small|]. apply all_app; [now apply spaces_chars|]. apply all_app; [small|].
    apply all_app; [now apply alternatives_chars|]. apply all_app; [now apply spaces_chars|]. apply all_app; [small|].
    destruct S as [-> |[-> _]]; small.
  - intros [C _]. now apply cps_chars.
Qed.
Lemma pubid_chars s : Forall pubid_char s -> all_xml s.
Proof.
  intro H. eapply Forall_impl; [|exact H]. intros c [I|[I|I]].
  - assert (S : spaces [c]) by (constructor; [cbn in *; tauto|constructor]). apply spaces_chars in S. now inversion S.
  - eapply ranges_char; [exact I|reflexivity].
  - assert (A : all_xml (lit "-'()+,./:=?;!*#@$_%")) by small. unfold all_xml in A. rewrite Forall_forall in A. now apply A.
Qed.
Lemma external_chars e : external_ok e -> all_xml (external_text e).
Proof.
  intros ((_ & W) & P & (_ & W') & Q & C & N). unfold external_text. apply all_app; [now apply spaces_chars|]. apply all_app.
  - destruct (ex_public e) as [[[w q] l]|]; [|small]. destruct (P w q l eq_refl) as ((_ & Pw) & Pq & Pc & Pl). apply all_app; [small|].
    apply all_app; [now apply spaces_chars|]. apply all_app; [now apply quote_char|]. apply all_app; [now apply pubid_chars|now apply quote_char].
  - apply all_app; [now apply spaces_chars|]. apply all_app; [now apply quote_char|]. apply all_app; [exact C|now apply quote_char].
Qed.
Lemma ncname_chars s : is_ncname s -> all_xml s.
Proof. intros [N _]. now apply name_chars. Qed.
Lemma nmtoken_chars s : Forall name_next s -> all_xml s.
Proof.
  intro H. eapply Forall_impl; [|exact H]. intros c [I|I]; (eapply ranges_char; [exact I|reflexivity]).
Qed.
Lemma entity_chars q l : entity_value_ok q l -> all_xml (pieces_text l).
Proof.
  induction 1 as [|p l H _ IH]; [constructor|]. cbn [pieces_text flat_map]. apply all_app; [|exact IH]. destruct p as [c|nm|ds|ds].
  - constructor; [easy|constructor].
  - cbn [piece_text]. apply all_app; [small|]. apply all_app; [now apply ncname_chars|small].
  - now apply reference_chars.
  - now apply reference_chars.
Qed.
Lemma keyword_chars kw : In kw keywords -> all_xml kw.
Proof. intro H. repeat (destruct H as [<-|H]; [small|]). destruct H. Qed.
Lemma tokens_chars l : Forall (fun a : str * str * str => spaces (fst (fst a)) /\ spaces (snd (fst a))) l -> Forall all_xml (map snd l) -> all_xml (flat_map alternative_text l).
Proof.
  induction 1 as [|[[a b] n] l (A & B) _ IH]; [intros _; constructor|]. cbn [flat_map fst snd map] in *. intro N. inversion N; subst.
  apply all_app; [|now apply IH]. unfold alternative_text. cbn [fst snd].
  apply all_app; [now apply spaces_chars|]. apply all_app; [small|]. apply all_app; [now apply spaces_chars|easy].
Qed.
Lemma type_chars t : type_ok t -> all_xml (type_text t).
Proof.
  destruct t as [kw|n w t l w']; cbn [type_ok type_text]; [apply keyword_chars|]. intros (V & W & T & L & W').
  assert (C : Forall all_xml (t :: map snd l)).
  { eapply Forall_impl; [|exact T]. intros s. destruct n; [apply ncname_chars|]. intros [_ H]. now apply nmtoken_chars. }
  inversion C; subst. apply all_app.
  { destruct n as [v|]; [|constructor]. apply all_app; [small|]. now apply spaces_chars, V. }
  apply all_app; [small|]. apply all_app; [now apply spaces_chars|]. apply all_app; [easy|]. apply all_app; [now apply tokens_chars|].
  apply all_app; [now apply spaces_chars|small].
Qed.
Lemma default_chars d : default_ok d -> all_xml (default_text d).
Proof.
  destruct d as [| |f q v]; cbn [default_ok default_text]; [intros _; small..|]. intros (W & Q & V). apply all_app.
  - destruct f as [w|]; [|constructor]. apply all_app; [small|]. now apply spaces_chars, W.
  - apply all_app; [now apply quote_char|]. apply all_app; [now apply pieces_chars in V|now apply quote_char].
Qed.
Lemma attdefs_chars l : Forall attdef_ok l -> all_xml (flat_map attdef_text l).
Proof.
  induction 1 as [|a l ((_ & W) & N & (_ & W1) & T & (_ & W2) & D) _ IH]; [constructor|]. cbn [flat_map]. apply all_app; [|exact IH]. unfold attdef_text.
  apply all_app; [now apply spaces_chars|]. apply all_app; [now apply qname_chars|]. apply all_app; [now apply spaces_chars|].
  apply all_app; [now apply type_chars|]. apply all_app; [now apply spaces_chars|now apply default_chars].
Qed.
Lemma entitydef_chars d : entitydef_ok d -> all_xml (entity_text d).
Proof.
  destruct d as [w q v|e nd]; cbn [entitydef_ok entity_text].
  - intros ((_ & W) & Q & V). apply all_app; [now apply spaces_chars|]. apply all_app; [now apply quote_char|].
    apply all_app; [now apply entity_chars in V|now apply quote_char].
  - intros (E & N). apply all_app; [now apply external_chars|]. destruct nd as [[[w w'] n]|]; [|constructor].
    destruct (N _ _ _ eq_refl) as ((_ & W) & (_ & W') & Nn). apply all_app; [now apply spaces_chars|]. apply all_app; [small|].
    apply all_app; [now apply spaces_chars|now apply ncname_chars].
Qed.
Lemma notation_chars i : notation_ok i -> all_xml (notation_text i).
Proof.
  destruct i as [e|w w' q l]; cbn [notation_ok notation_text]; [apply external_chars|]. intros ((_ & W) & (_ & W') & Q & P & N).
  apply all_app; [now apply spaces_chars|]. apply all_app; [small|]. apply all_app; [now apply spaces_chars|].
  apply all_app; [now apply quote_char|]. apply all_app; [now apply pubid_chars|now apply quote_char].
Qed.
Lemma markupdecl_chars m : markupdecl_ok m -> all_xml (markupdecl_text m).
Proof.
  destruct m as [w nm w' cs w''|w nm l w'|w nm d w'|w1 w2 nm d w'|w nm i w'|p|c]; cbn [markupdecl_ok markupdecl_text]; [| | | | |apply pi_chars|apply comment_chars].
  - intros ((_ & W) & N & (_ & W') & S & W''). apply all_app; [small|]. apply all_app; [now apply spaces_chars|]. apply all_app; [now apply qname_chars|].
    apply all_app; [now apply spaces_chars|]. apply all_app; [now apply spec_chars|]. apply all_app; [now apply spaces_chars|small].
  - intros ((_ & W) & N & L & W'). apply all_app; [small|]. apply all_app; [now apply spaces_chars|]. apply all_app; [now apply qname_chars|].
    apply all_app; [now apply attdefs_chars|]. apply all_app; [now apply spaces_chars|small].
  - intros ((_ & W) & N & D & W'). apply all_app; [small|]. apply all_app; [now apply spaces_chars|]. apply all_app; [now apply ncname_chars|].
    apply all_app; [now apply entitydef_chars|]. apply all_app; [now apply spaces_chars|small].
  - intros ((_ & W1) & (_ & W2) & N & D & _ & W'). apply all_app; [small|]. apply all_app; [now apply spaces_chars|]. apply all_app; [small|].
    apply all_app; [now apply spaces_chars|]. apply all_app; [now apply ncname_chars|].
    apply all_app; [now apply entitydef_chars|]. apply all_app; [now apply spaces_chars|small].
  - intros ((_ & W) & N & D & W'). apply all_app; [small|]. apply all_app; [now apply spaces_chars|]. apply all_app; [now apply ncname_chars|].
    apply all_app; [now apply notation_chars|]. apply all_app; [now apply spaces_chars|small].
Qed.
Lemma doctype_chars d : doctype_ok d -> all_xml (doctype_inside d).
Proof.
  intros ((_ & W) & N & E & W' & S). unfold doctype_inside.
  apply all_app; [now apply spaces_chars|]. apply all_app; [now apply qname_chars|]. apply all_app.
  { destruct (dt_external d) as [e|]; [now apply external_chars, E|constructor]. }
  apply all_app; [now apply spaces_chars|]. destruct (dt_subset d) as [[[l w] w']|]; [|constructor].
  destruct (S l w w' eq_refl) as (L & Sw & Sw'). unfold subset_text. cbn [fst snd]. apply all_app; [small|]. apply all_app.
  - clear - L. induction L as [|[v m] l [V M] _ IH]; [constructor|]. cbn [flat_map fst snd] in *.
    apply all_app; [|exact IH]. apply all_app; [now apply spaces_chars|now apply markupdecl_chars].
  - apply all_app; [now apply spaces_chars|]. apply all_app; [small|now apply spaces_chars].
Qed.
Lemma miscs_chars l : miscs_ok l -> all_xml (miscs_text l).
Proof.
  induction 1 as [|[w m] l [H1 H2] _ IH]; [constructor|]. cbn [miscs_text flat_map fst snd] in *. apply all_app; [|exact IH].
  apply all_app; [now apply spaces_chars|]. destruct m; [now apply comment_chars|now apply pi_chars|]. apply all_app; [small|]. apply all_app; [now apply doctype_chars|small].
Qed.
Theorem xml_chars x : xml_ok x -> all_xml (xml_text x).
Proof.
  intros (O1 & O2 & _ & O3 & _ & O5 & _ & O6 & _ & O7). unfold xml_text. apply all_app.
  { destruct (xd_decl x) as [d|]; [|constructor]. apply all_app; [small|]. apply all_app; [now apply decl_chars, O1|small]. }
  apply all_app; [now apply miscs_chars|]. apply all_app; [now apply spaces_chars|].
  apply all_app; [now apply (proj1 markup_chars) in O5|]. apply all_app; [now apply miscs_chars|now apply spaces_chars].
Qed.
Lemma apart_ascii l : Forall (fun p => ~ numeric p) l -> last_ascii (pieces_text l) -> references_apart l.
Proof.
  intros H A. split; [easy|]. intros a nm b E. exists [], b. split; [easy|]. cbn [blen].
  destruct A as [A|(u & c & A & C)].
  - exfalso. rewrite E, text_app in A. apply app_eq_nil in A. destruct A as [_ A]. discriminate A.
  - rewrite A, last_bytes_last. unfold len_utf8. unfold ascii in C. apply N.ltb_lt in C. now rewrite C.
Qed.

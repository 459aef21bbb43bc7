(** Declarations and DTDs. *)
From Coq Require Import List NArith Arith Bool Ascii String Lia.
From Verif Require Import Base BaseFacts Escape Dom Spec EscapeFacts SpecDom DomFacts SpecApi ApiFacts
  ParseTree SpecTree ParseTreeFacts Parse SpecLex SpecParse LexFacts ParseFacts DocFacts TagFacts AcceptFacts.
Import ListNotations.

(** * The two string parsers *)

Definition inner (p q : str) (x : error) (s : str) : outcome str :=
  let buffer := trim s in
  if starts_with p buffer && ends_with q buffer then
    do a <- unwrap (strip_prefix p buffer);
    unwrap (strip_suffix q a)
  else Err x.

Lemma ws_all_ws w : ws w <-> all_ws w.
Proof. unfold ws, all_ws. now rewrite forallb_forall, Forall_forall. Qed.

Section Inner.
Context (p q : str) (x : error).
Context (Hp : match p with [] => False | c :: _ => is_whitespace c = false end).
Context (Hq : match rev q with [] => False | c :: _ => is_whitespace c = false end).

Lemma trim_marked b w1 w2 : begins p b -> ends q b -> ws w1 -> ws w2 -> trim (w1 ++ b ++ w2) = b.
Proof.
  intros [r Er] [a Ea] H1 H2. apply trim_surrounded; [now apply ws_all_ws|now apply ws_all_ws| |].
  - rewrite Er. destruct p; [contradiction|exact Hp].
  - rewrite Ea, rev_app_distr. destruct (rev q); [contradiction|exact Hq].
Qed.
Lemma inner_ok s d : inner p q x s = Ok d <-> exists w1 w2, ws w1 /\ ws w2 /\ s = w1 ++ p ++ d ++ q ++ w2.
Proof.
  unfold inner. split.
  - intro H. destruct (trim_spec s) as (w1 & w2 & Es & H1 & H2 & _). destruct (starts_with p (trim s)) eqn:E1; [|discriminate].
    destruct (ends_with q (trim s)) eqn:E2; [|discriminate]. cbn [andb] in H.
    destruct (strip_prefix p (trim s)) as [a|] eqn:E3; [|discriminate]. apply strip_prefix_spec in E3. cbn in H.
    destruct (strip_suffix q a) as [b|] eqn:E4; [|discriminate]. apply strip_suffix_spec in E4. injection H as <-.
    exists w1, w2. split; [now apply ws_all_ws|]. split; [now apply ws_all_ws|].
    rewrite Es at 1. rewrite E3, E4. now rewrite <- !app_assoc.
  - intros (w1 & w2 & H1 & H2 & ->).
    replace (w1 ++ p ++ d ++ q ++ w2) with (w1 ++ (p ++ d ++ q) ++ w2) by now rewrite <- !app_assoc.
    rewrite (trim_marked (p ++ d ++ q)); [|now exists (d ++ q)|exists (p ++ d); now rewrite <- app_assoc|easy|easy].
    replace (starts_with p (p ++ d ++ q)) with true by (symmetry; apply starts_with_spec; now exists (d ++ q)).
    replace (ends_with q (p ++ d ++ q)) with true
      by (symmetry; apply ends_spec; exists (p ++ d); now rewrite <- app_assoc).
    cbn [andb]. rewrite (proj2 (strip_prefix_spec p (p ++ d ++ q) (d ++ q)) eq_refl). cbn.
    now rewrite (proj2 (strip_suffix_spec q (d ++ q) d) eq_refl).
Qed.
Lemma inner_panic s : inner p q x s = Panic <-> exists w1 b w2, ws w1 /\ ws w2 /\ s = w1 ++ b ++ w2 /\
  begins p b /\ ends q b /\ blen b < blen p + blen q.
Proof.
  unfold inner. split.
  - intro H. destruct (trim_spec s) as (w1 & w2 & Es & H1 & H2 & _). destruct (starts_with p (trim s)) eqn:E1; [|discriminate].
    destruct (ends_with q (trim s)) eqn:E2; [|discriminate]. cbn [andb] in H.
    apply begins_spec in E1. apply ends_spec in E2.
    exists w1, (trim s), w2. split; [now apply ws_all_ws|]. split; [now apply ws_all_ws|].
    split; [easy|]. split; [easy|]. split; [easy|].
    destruct (le_lt_dec (blen p + blen q) (blen (trim s))) as [L|L]; [|easy]. exfalso.
    destruct (between p q _ E1 E2 L) as [c Ec]. rewrite Ec in H.
    rewrite (proj2 (strip_prefix_spec p (p ++ c ++ q) (c ++ q)) eq_refl) in H. cbn in H.
    now rewrite (proj2 (strip_suffix_spec q (c ++ q) c) eq_refl) in H.
  - intros (w1 & b & w2 & H1 & H2 & -> & Hb & He & L). rewrite (trim_marked b) by easy.
    replace (starts_with p b) with true by (symmetry; now apply begins_spec).
    replace (ends_with q b) with true by (symmetry; now apply ends_spec). cbn [andb].
    destruct Hb as [r ->]. rewrite (proj2 (strip_prefix_spec p (p ++ r) r) eq_refl). cbn.
    destruct (strip_suffix q r) as [d|] eqn:E; [|easy]. apply strip_suffix_spec in E. subst r.
    rewrite !blen_app in L. lia.
Qed.
Lemma inner_returns s : inner p q x s <> Fuel.
Proof.
  unfold inner. destruct (_ && _); [|discriminate]. destruct (strip_prefix _ _) as [a|]; [|discriminate]. cbn.
  now destruct (strip_suffix q a).
Qed.
End Inner.

Theorem declaration_accepts s d : declaration_from_str s = Ok d <->
  exists w1 w2, ws w1 /\ ws w2 /\ s = w1 ++ lit "<?" ++ d ++ lit "?>" ++ w2.
Proof. exact (inner_ok (lit "<?") (lit "?>") _ eq_refl eq_refl s d). Qed.
Theorem declaration_panics s : declaration_from_str s = Panic <->
  exists w1 w2, ws w1 /\ ws w2 /\ s = w1 ++ lit "<?>" ++ w2.
Proof.
  etransitivity; [exact (inner_panic (lit "<?") (lit "?>") _ eq_refl eq_refl s)|]. split.
  - intros (w1 & b & w2 & H1 & H2 & -> & [r ->] & He & L). exists w1, w2. split; [easy|]. split; [easy|].
    do 2 f_equal. destruct He as [a Ea]. rewrite !blen_app in L. change (blen (lit "?>")) with 2 in L. change (blen (lit "<?")) with 2 in L.
    destruct r as [|c r].
    { destruct a as [|y [|z a]]; [discriminate|injection Ea; discriminate|]. injection Ea as _ Ea. now destruct a. }
    cbn [blen] in L. destruct r as [|c' r]; [|cbn [blen] in L; pose proof (len_utf8_pos c); pose proof (len_utf8_pos c'); lia].
    destruct a as [|a0 [|a1 [|a2 a]]]; try discriminate.
    + injection Ea as <- Ea. cbn in Ea. now subst.
    + injection Ea. intro Q. destruct a; discriminate.
  - intros (w1 & w2 & H1 & H2 & ->). exists w1, (lit "<?>"), w2. split; [easy|]. split; [easy|]. split; [easy|].
    split; [now exists (lit ">")|]. split; [now exists (lit "<")|]. cbn. lia.
Qed.
Theorem declaration_returns s : declaration_from_str s <> Fuel.
Proof. exact (inner_returns (lit "<?") (lit "?>") _ s). Qed.
Theorem dtd_accepts s d : dtd_from_string s = Ok d <->
  exists w1 w2, ws w1 /\ ws w2 /\ s = w1 ++ lit "<!DOCTYPE" ++ d ++ lit ">" ++ w2.
Proof. exact (inner_ok (lit "<!DOCTYPE") (lit ">") _ eq_refl eq_refl s d). Qed.
Theorem dtd_returns s : (exists d, dtd_from_string s = Ok d) \/ (exists x, dtd_from_string s = Err x).
Proof.
  destruct (dtd_from_string s) as [d|x| |] eqn:E; [left; now exists d|right; now exists x|exfalso..].
  - apply (inner_panic (lit "<!DOCTYPE") (lit ">") _ eq_refl eq_refl) in E.
    destruct E as (w1 & b & w2 & _ & _ & _ & [r ->] & [a Ea] & L). rewrite !blen_app in L. change (blen (lit ">")) with 1 in L.
    destruct r as [|c r]; [|cbn [blen] in L; pose proof (len_utf8_pos c); lia].
    rewrite app_nil_r in Ea. change (lit "<!DOCTYPE") with (lit "<!DOCTYP" ++ [69%N]) in Ea. apply app_inj_tail in Ea.
    now destruct Ea.
  - now apply (inner_returns (lit "<!DOCTYPE") (lit ">")) in E.
Qed.

(** * What the first loop collects *)

Lemma delimited_whole (p d q : str) t w1 w2 : delimited t -> t = w1 ++ p ++ d ++ q ++ w2 -> ws w1 -> ws w2 -> 
  t = p ++ d ++ q.
Proof.
  intros [b Eb] E H1 H2.
  destruct w1 as [|c w1]; [|exfalso; rewrite E in Eb; injection Eb as -> _; now apply Forall_cons_iff in H1].
  cbn in E. destruct w2 as [|c w2 _] using rev_ind; [now rewrite app_nil_r in E|]. exfalso.
  rewrite E, !app_assoc in Eb. apply app_inj_tail in Eb. destruct Eb as [_ ->].
  apply Forall_app in H2. destruct H2 as [_ H2]. now apply Forall_cons_iff in H2.
Qed.
Lemma decl_tag t d : delimited t -> begins (lit "<?xml") t -> declaration_from_str t = Ok d ->
  t = lit "<?" ++ d ++ lit "?>" /\ begins (lit "xml") d.
Proof.
  intros D B E. apply declaration_accepts in E. destruct E as (w1 & w2 & H1 & H2 & E).
  apply delimited_whole in E; [|easy..]. split; [easy|]. subst t. destruct B as [r B].
  injection B as B. destruct d as [|c1 [|c2 [|c3 d]]]; try discriminate.
  injection B as -> -> -> _. now exists d.
Qed.
Lemma dtd_tag t d : delimited t -> dtd_from_string t = Ok d -> t = lit "<!DOCTYPE" ++ d ++ lit ">".
Proof.
  intros D E. apply dtd_accepts in E. destruct E as (w1 & w2 & H1 & H2 & E). now apply delimited_whole in E.
Qed.

Lemma prolog_dtds st p n decl dtds toks decl' dtds' : prolog st p n decl dtds toks decl' dtds' ->
  Forall (fun x => delimited (snd x)) toks -> exists l, dtds' = dtds ++ l /\ dtds_in toks l.
Proof.
  intro P.
  induction P as [st p n decl dtds|p n decl dtds txt t toks d decl' dtds' B Bt E P IH|st p n decl dtds txt t toks decl' dtds' B Bt A P IH
    |st p n decl dtds txt t toks d decl' dtds' B Bt E P IH|st p n decl dtds txt t toks decl' dtds' B Bt N1 N2 P IH]; intro D;
    [exists []; rewrite app_nil_r; now split; [|constructor]|..];
    apply Forall_cons_iff in D; destruct D as [Dt D]; cbn in Dt; destruct (IH D) as (l & -> & Hl).
  - exists l. split; [easy|]. constructor; [|easy]. destruct Bt as [r ->]. intros [r' Er]. discriminate.
  - exists l. split; [easy|]. constructor; [|easy]. destruct Bt as [r ->]. intros [r' Er]. discriminate.
  - exists (d :: l). split; [now rewrite <- app_assoc|]. rewrite (dtd_tag _ _ Dt E). now constructor.
  - exists l. split; [easy|]. now constructor.
Qed.
Definition is_decl (x : str * str) : Prop := begins (lit "<?xml") (snd x).
Lemma prolog_decl st p n decl dtds toks decl' dtds' : prolog st p n decl dtds toks decl' dtds' ->
  Forall (fun x => delimited (snd x)) toks ->
  (decl' = decl /\ Forall (fun x => ~ is_decl x) toks) \/
  exists d a txt b, decl' = Some d /\ toks = a ++ (txt, lit "<?" ++ d ++ lit "?>") :: b /\ begins (lit "xml") d /\
    Forall (fun x => ~ is_decl x) b.
Proof.
  intro P.
  induction P as [st p n decl dtds|p n decl dtds txt t toks d decl' dtds' B Bt E P IH|st p n decl dtds txt t toks decl' dtds' B Bt A P IH
    |st p n decl dtds txt t toks d decl' dtds' B Bt E P IH|st p n decl dtds txt t toks decl' dtds' B Bt N1 N2 P IH]; intro D;
    [now left|..];
    apply Forall_cons_iff in D; destruct D as [Dt D]; cbn in Dt;
    (destruct (IH D) as [[-> F]|(d0 & a & txt0 & b & -> & -> & Bx & F)];
     [|right; exists d0, ((txt, t) :: a), txt0, b; easy]).
  - right. destruct (decl_tag _ _ Dt Bt E) as [-> Bx]. now exists d, [], txt, toks.
  - left. split; [easy|]. constructor; [|easy]. intros [r Hr]. destruct Bt as [r' Hr']. cbn in Hr. rewrite Hr in Hr'. discriminate.
  - left. split; [easy|]. constructor; [|easy]. intros [r Hr]. destruct Bt as [r' Hr']. cbn in Hr. rewrite Hr in Hr'. discriminate.
  - left. split; [easy|]. constructor; [|easy]. intros [r Hr]. destruct Bt as [r' Hr']. cbn in Hr. rewrite Hr in Hr'. discriminate.
Qed.
Lemma prolog_late st p n decl dtds toks decl' dtds' : prolog st p n decl dtds toks decl' dtds' ->
  0 < st -> 0 < p -> Forall (fun x => ~ is_decl x) toks.
Proof.
  intro P.
  induction P as [st p n decl dtds|p n decl dtds txt t toks d decl' dtds' B Bt E P IH|st p n decl dtds txt t toks decl' dtds' B Bt A P IH
    |st p n decl dtds txt t toks d decl' dtds' B Bt E P IH|st p n decl dtds txt t toks decl' dtds' B Bt N1 N2 P IH]; intros Hs Hp;
    [constructor|lia|..]; (constructor; [|apply IH; lia]); intros [r Hr]; destruct Bt as [r' Hr']; cbn in Hr; rewrite Hr in Hr'; discriminate.
Qed.
Lemma prolog_next st p n decl dtds txt t toks decl' dtds' : prolog st p n decl dtds ((txt, t) :: toks) decl' dtds' ->
  exists n1 decl1 dtds1, prolog (p + blen txt) (p + blen txt + blen t) n1 decl1 dtds1 toks decl' dtds'.
Proof. intro P. inversion P; subst; eauto. Qed.
Lemma prolog_decl_first n decl dtds a txt t b decl' dtds' :
  prolog 0 0 n decl dtds (a ++ (txt, t) :: b) decl' dtds' -> Forall (fun x => delimited (snd x)) a ->
  begins (lit "<?xml") t -> a = [] \/ exists t0, a = [([], t0)].
Proof.
  intros P D B. destruct a as [|[txt0 t0] a]; [now left|]. right. cbn [app] in P.
  apply Forall_cons_iff in D. destruct D as [[b0 Db] _]. cbn in Db.
  assert (Lt : 0 < blen t0) by (rewrite Db; cbn; lia).
  apply prolog_next in P. destruct P as (n1 & decl1 & dtds1 & P). cbn [Nat.add] in P.
  assert (Late : forall st p n decl dtds l, prolog st p n decl dtds (l ++ (txt, t) :: b) decl' dtds' -> 0 < st -> 0 < p -> False).
  { intros st p n2 decl2 dtds2 l P2 H1 H2. apply prolog_late in P2; [|easy|easy]. apply Forall_app in P2.
    destruct P2 as [_ P2]. apply Forall_cons_iff in P2. destruct P2 as [P2 _]. now apply P2. }
  destruct txt0 as [|c txt0].
  2:{ exfalso. apply (Late _ _ _ _ _ a P); cbn [blen]; pose proof (len_utf8_pos c); lia. }
  destruct a as [|[txt1 t1] a]; [now exists t0|]. exfalso. cbn [app] in P.
  apply prolog_next in P. destruct P as (n2 & decl2 & dtds2 & P). apply (Late _ _ _ _ _ a P); lia.
Qed.

Lemma accepts_prolog s d pr el tail : accepts s d -> splits s (pr ++ el) tail ->
  Forall (fun x => prolog_like (snd x)) pr -> starts_with_element el ->
  prolog 0 0 0 None [] pr (d_declaration d) (d_dtds d) /\ Forall (fun x => delimited (snd x)) pr.
Proof.
  intros A Sp P0 SE. destruct A as [toks txt root rest decl dtds b e body tail' m r ks L P B R Eb Ee Sp' F1 F2 Em].
  cbn [d_declaration d_dtds].
  assert (Sp2 : splits s (toks ++ (txt, root) :: body) tail').
  { destruct Sp' as [L' N']. split; [|easy]. change ((txt, root) :: body) with ([(txt, root)] ++ body).
    rewrite app_assoc. now apply lexed_app with rest. }
  destruct (splits_fun _ _ _ _ _ Sp Sp2) as [E _].
  destruct R as (R1 & R2 & _).
  assert (SE2 : starts_with_element ((txt, root) :: body)).
  { exists txt, root, body. split; [easy|]. intros [H|H]; contradiction. }
  destruct (prolog_cut _ _ _ _ E P0 (prolog_likes _ _ _ _ _ _ _ _ P) SE SE2) as [-> _].
  split; [easy|]. destruct Sp2 as [L2 _]. pose proof (lexed_delimited _ _ _ L2) as D. now apply Forall_app in D.
Qed.

Theorem accepts_declaration s doc pr el tail : accepts s doc -> splits s (pr ++ el) tail ->
  Forall (fun x => prolog_like (snd x)) pr -> starts_with_element el ->
  (forall d, d_declaration doc = Some d <->
    exists a txt b, pr = a ++ (txt, lit "<?" ++ d ++ lit "?>") :: b /\ begins (lit "xml") d /\
      Forall (fun x => ~ begins (lit "<?xml") (snd x)) b) /\
  (forall a txt t b, pr = a ++ (txt, t) :: b -> begins (lit "<?xml") t -> a = [] \/ exists t0, a = [([], t0)]).
Proof.
  intros A Sp P0 SE. destruct (accepts_prolog _ _ _ _ _ A Sp P0 SE) as [P D]. split.
  - intro d. destruct (prolog_decl _ _ _ _ _ _ _ _ P D) as [[-> F]|(d0 & a & txt & b & -> & E & Bx & F)].
    + split; [discriminate|]. intros (a & txt & b & -> & [r ->] & F'). exfalso.
      apply Forall_app in F. destruct F as [_ F]. apply Forall_cons_iff in F. destruct F as [F _].
      apply F. exists (r ++ lit "?>"). cbn. now rewrite <- ?app_assoc.
    + split.
      * intros [= <-]. exists a, txt, b. easy.
      * intros (a' & txt' & b' & E' & [r' Er'] & F'). f_equal.
        assert (G : forall (l1 l2 k1 k2 : list (str * str)) x y, l1 ++ x :: k1 = l2 ++ y :: k2 -> is_decl x -> is_decl y ->
          Forall (fun x => ~ is_decl x) k1 -> Forall (fun x => ~ is_decl x) k2 -> x = y).
        { intros l1 l2 k1 k2 x y Eq Hx Hy K1 K2. apply app_eq_app in Eq. destruct Eq as [z [[_ Eq]|[_ Eq]]].
          - destruct z as [|z0 z]; [cbn in Eq; congruence|]. injection Eq as <- ->. exfalso.
            apply Forall_app in K2. destruct K2 as [_ K2]. apply Forall_cons_iff in K2. now destruct K2.
          - destruct z as [|z0 z]; [cbn in Eq; congruence|]. injection Eq as <- ->. exfalso.
            apply Forall_app in K1. destruct K1 as [_ K1]. apply Forall_cons_iff in K1. now destruct K1. }
        rewrite E in E'. destruct Bx as [r Er].
        assert (Q : (txt, lit "<?" ++ d0 ++ lit "?>") = (txt', lit "<?" ++ d ++ lit "?>")).
        { apply (G _ _ _ _ _ _ E'); [..|easy|easy].
          - rewrite Er. exists (r ++ lit "?>"). cbn. now rewrite <- ?app_assoc.
          - rewrite Er'. exists (r' ++ lit "?>"). cbn. now rewrite <- ?app_assoc. }
        injection Q as _ Q. now apply app_inv_tail in Q.
  - intros a txt t b -> Bt. apply Forall_app in D. destruct D as [D _].
    now apply (prolog_decl_first _ _ _ _ _ _ _ _ _ P D Bt).
Qed.
Theorem accepts_dtds s doc pr el tail : accepts s doc -> splits s (pr ++ el) tail ->
  Forall (fun x => prolog_like (snd x)) pr -> starts_with_element el -> dtds_in pr (d_dtds doc).
Proof.
  intros A Sp P0 SE. destruct (accepts_prolog _ _ _ _ _ A Sp P0 SE) as [P D].
  now destruct (prolog_dtds _ _ _ _ _ _ _ _ P D) as (l & -> & Hl).
Qed.

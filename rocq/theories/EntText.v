(** Proofs for SpecEntity.v: texts, values and tags with references as text. *)
From Coq Require Import List NArith Arith Bool Ascii String Lia.
From Verif Require Import Base BaseFacts Escape Dom Spec EscapeFacts SpecDom DomFacts SpecLex SpecParse LexFacts ParseFacts DocFacts
  SpecEsc UnescFacts SpecDoc PrintFacts PrintDoc TripFacts SpecErr ReadFacts SpecMean MeanFacts CycleDoc SpecXml XmlFacts SpecConf ConfText ConfLex ConfTag SpecEntity.
Import ListNotations.

(** * References as text *)

(** The two texts piece by piece; chars of a reference may be left over. *)
Inductive lits : list piece -> list piece -> Prop :=
| li_nil : lits [] []
| li_same p l l' : own p = false -> lits l l' -> lits (p :: l) (p :: l')
| li_own nm l l' : own (Ent nm) = true -> is_ncname nm -> lits l l' -> lits (Ent nm :: l) (Ent (lit "amp") :: map Chr (nm ++ [semi]) ++ l').
Lemma tail_text nm : tl (piece_text (Ent nm)) = nm ++ [semi].
Proof. reflexivity. Qed.
Lemma own_ent p : own p = true -> exists nm, p = Ent nm.
Proof. destruct p; cbn [own]; [discriminate| |discriminate..]. intros _. now eexists. Qed.
Lemma lits_literal l : named l -> lits l (literal_pieces l).
Proof.
  induction l as [|p l IH]; intro N; [constructor|]. cbn [literal_pieces flat_map]. unfold literal_piece.
  assert (lits l (literal_pieces l)) as H by (apply IH; intros nm I; apply N; now right).
  destruct (own p) eqn:E; [|now constructor]. destruct (own_ent _ E) as [nm ->]. rewrite tail_text. cbn [app].
  constructor; [easy| |exact H]. apply N. now left.
Qed.
Lemma lits_chars u : forall l l', lits l l' -> lits (map Chr u ++ l) (map Chr u ++ l').
Proof. induction u as [|c u IH]; intros l l' H; [easy|]. cbn [map app]. constructor; [easy|now apply IH]. Qed.
Lemma lits_cut u : forall l v, lits l (map Chr u ++ v) -> exists l2, l = map Chr u ++ l2 /\ lits l2 v.
Proof.
  induction u as [|c u IH]; intros l v H; [now exists l|]. cbn [map app] in H. inversion H as [|p l1 l' O H1|]; subst.
  destruct (IH _ _ H1) as (l2 & -> & H2). now exists l2.
Qed.
Lemma lits_last l l' : lits l l' -> (l = [] <-> l' = []) /\ (l <> [] -> last_bytes (pieces_text l) = last_bytes (pieces_text l')).
Proof.
  assert (K : forall p l, pieces_text (p :: l) <> []).
  { intros p l0 E. change (piece_text p ++ pieces_text l0 = []) in E. apply app_eq_nil in E. destruct E as [E _]. now apply piece_nonempty in E. }
  induction 1 as [|p l l' O H [I1 I2]|nm l l' O N H [I1 I2]].
  - split; [easy|]. easy.
  - split; [easy|]. intros _. change (pieces_text (p :: l)) with (piece_text p ++ pieces_text l). change (pieces_text (p :: l')) with (piece_text p ++ pieces_text l').
    destruct l as [|q l]; [now rewrite (proj1 I1 eq_refl)|].
    destruct l' as [|q' l']; [discriminate (proj2 I1 eq_refl)|]. rewrite !last_bytes_app by apply K. now apply I2.
  - split; [easy|]. intros _. change (pieces_text (Ent nm :: l)) with (piece_text (Ent nm) ++ pieces_text l).
    change (pieces_text (Ent (lit "amp") :: map Chr (nm ++ [semi]) ++ l')) with (piece_text (Ent (lit "amp")) ++ pieces_text (map Chr (nm ++ [semi]) ++ l')).
    rewrite text_app, text_chars.
    destruct l as [|q l].
    + rewrite (proj1 I1 eq_refl). cbn [pieces_text flat_map]. rewrite !app_nil_r. cbn [piece_text]. rewrite !app_assoc. change (lit ";") with [semi].
      now rewrite !last_bytes_last.
    + destruct l' as [|q' l']; [discriminate (proj2 I1 eq_refl)|]. rewrite !app_assoc, !last_bytes_app by apply K. now apply I2.
Qed.
Lemma ncname_own nm c : own (Ent nm) = true -> is_ncname nm -> ~ entity nm c.
Proof.
  intros O [N _] E. destruct E as [nm c I|h c _ _|h c _ _].
  - cbn [own] in O. apply negb_true_iff in O. apply not_true_iff_false in O. apply O. apply existsb_exists. exists (nm, c).
    split; [easy|]. now apply str_eqb_eq.
  - destruct N as (x & r & E & H & _). injection E as <- _. unfold name_first, in_ranges in H. rewrite Exists_exists in H.
    destruct H as ([a b] & I & H). cbn [fst snd] in H. cbn in I. repeat (destruct I as [E|I]; [injection E as <- <-; lia|]). destruct I.
  - destruct N as (x & r & E & H & _). injection E as <- _. unfold name_first, in_ranges in H. rewrite Exists_exists in H.
    destruct H as ([a b] & I & H). cbn [fst snd] in H. cbn in I. repeat (destruct I as [E|I]; [injection E as <- <-; lia|]). destruct I.
Qed.
Lemma name_no_semi s : is_name s -> ~ In semi s.
Proof.
  intros (c & r & -> & H & Hr) I.
  assert (K : name_next semi). { destruct I as [->|I]; [now left|]. rewrite Forall_forall in Hr. now apply Hr. }
  unfold name_next, name_first, in_ranges, semi in K.
  destruct K as [K|K]; rewrite Exists_exists in K; destruct K as ([u v] & J & L); cbn [fst snd] in L; cbn in J;
    repeat (destruct J as [E|J]; [injection E as <- <-; lia|]); destruct J.
Qed.
Lemma entity_no_semi nm c : entity nm c -> ~ In semi nm.
Proof.
  assert (K : forall h n, hex_number h n -> ~ In semi h).
  { induction 1 as [d v Hv|h n d v Hh IH Hv]; intro I.
    - destruct I as [->|[]]. apply hex_digit_value in Hv. discriminate Hv.
    - apply in_app_or in I. destruct I as [I|[->|[]]]; [now apply IH|]. apply hex_digit_value in Hv. discriminate Hv. }
  intros [nm' c' I|h c' H _|h c' H _]; [now apply predefined_plain in I|..].
  - intros [I|I]; [discriminate I|]. now apply K in H.
  - intros [I|[I|I]]; [discriminate I..|]. now apply K in H.
Qed.
Lemma first_semi (p u q q' : str) : ~ In semi p -> ~ In semi u -> p ++ semi :: q = u ++ semi :: q' -> p = u /\ q = q'.
Proof.
  revert u. induction p as [|c p IH]; intros [|d u] Hp Hu E; cbn in E.
  - injection E as E. now split.
  - injection E as <- _. exfalso. apply Hu. now left.
  - injection E as -> _. exfalso. apply Hp. now left.
  - injection E as <- E. destruct (IH u) as [-> ->]; [intro I; apply Hp; now right|intro I; apply Hu; now right|easy|easy].
Qed.
Lemma own_lone nm s : own (Ent nm) = true -> is_ncname nm -> reference_read (amp :: nm ++ [semi] ++ s) (amp :: nm ++ [semi] ++ s).
Proof.
  intros O N. apply rr_lone. intros nm' c s' E H. cbn [app] in H. apply first_semi in H.
  - destruct H as [<- _]. now apply (ncname_own nm c).
  - apply name_no_semi, N.
  - now apply entity_no_semi in E.
Qed.
Definition spread (k : nat) (l : list piece) : Prop :=
  forall a p b, l = a ++ p :: b -> is_reference p -> exists u v, b = map Chr u ++ v /\ S (blen u) = k.
Lemma spread_app k a b : spread k (a ++ b) -> spread k b.
Proof. intros H a1 p b1 -> R. apply (H (a ++ a1) p b1); [now rewrite <- app_assoc|easy]. Qed.
Lemma amp_own : own (Ent (lit "amp")) = false.
Proof. reflexivity. Qed.
Lemma text_nil l : pieces_text l = [] -> l = [].
Proof. destruct l as [|p l]; [easy|]. intro E. change (piece_text p ++ pieces_text l = []) in E. apply app_eq_nil in E. destruct E as [E _]. now apply piece_nonempty in E. Qed.
Lemma literal_decoded k : forall n l l', List.length l' <= n -> lits l l' -> Forall good_piece l' -> Forall fair_piece l' -> spread k l' ->
  (l <> [] -> last_bytes (pieces_text l) = k) -> unescapes (pieces_text l) (Some (flat_map said l')).
Proof.
  induction n as [|n IH]; intros l l' Hn L G F A K.
  { destruct l'; [|cbn in Hn; lia]. inversion L; subst. now constructor. }
  destruct (first_ref l') as (u & [->|(p & b & -> & R)]).
  { rewrite <- (app_nil_r (map Chr u)) in L. apply lits_cut in L. destruct L as (l2 & -> & L). inversion L; subst. rewrite app_nil_r, text_chars, said_chars. constructor.
    now apply chars_good. }
  apply lits_cut in L. destruct L as (l2 & -> & L). apply good_app in G. destruct G as [Gu Gp]. apply chars_good in Gu. inversion Gp as [|? ? G1 G2]; subst.
  apply Forall_app in F. destruct F as [_ F]. inversion F as [|? ? F1 F2]; subst.
  destruct (A _ _ _ eq_refl R) as (u' & v & -> & Hu). destruct (fair_read p R G1 F1) as (c & Rc & Sc & Lc).
  apply good_app in G2. destruct G2 as [_ G2]. apply Forall_app in F2. destruct F2 as [_ F2].
  assert (Av : spread k v).
  { apply (spread_app k (map Chr u ++ p :: map Chr u')). rewrite <- app_assoc. cbn [app]. exact A. }
  rewrite app_length in Hn. cbn [List.length] in Hn. rewrite app_length in Hn.
  rewrite text_app, flat_map_app, text_chars, said_chars. change (flat_map said (p :: map Chr u' ++ v)) with (said p ++ flat_map said (map Chr u' ++ v)).
  rewrite Sc, flat_map_app, said_chars.
  assert (exists q l3, pieces_text l2 = q /\ lits l3 v /\ reference_read q (c :: u' ++ pieces_text l3)) as (q & l3 & Eq & L3 & Rr).
  { inversion L as [|p' l1 l1' O L1 E1|nm l1 l1' O N L1 E1 E2]; subst.
    - apply lits_cut in L1. destruct L1 as (l3 & -> & L3). eexists _, l3. split; [reflexivity|]. split; [easy|].
      change (pieces_text (p :: map Chr u' ++ l3)) with (piece_text p ++ pieces_text (map Chr u' ++ l3)). rewrite (reference_text p R), text_app, text_chars, <- !app_assoc.
      apply rr_ref. now destruct p.
    - pose proof (lits_chars (nm ++ [semi]) _ _ L1) as L2. match goal with E2 : _ = map Chr u' ++ v |- _ => rewrite E2 in L2 end. apply lits_cut in L2. destruct L2 as (l3 & E3 & L3).
      eexists _, l3. split; [reflexivity|]. split; [easy|].
      assert (c = amp) as -> by (injection Sc as <-; reflexivity).
      assert (u' ++ pieces_text l3 = nm ++ [semi] ++ pieces_text l1) as ->.
      { rewrite <- (text_chars u') at 1. rewrite <- text_app, <- E3, text_app, text_chars. now rewrite <- app_assoc. }
      change (pieces_text (Ent nm :: l1)) with ((lit "&" ++ nm ++ lit ";") ++ pieces_text l1). rewrite <- !app_assoc. now apply own_lone. }
  rewrite Eq. set (q' := c :: u' ++ pieces_text l3) in *.
  assert (Kq : last_bytes q' = k).
  { rewrite <- K; [|intro E; apply app_eq_nil in E; destruct E as [_ E]; subst l2; inversion L].
    rewrite text_app, text_chars, Eq. rewrite last_bytes_app.
    2:{ intros ->. inversion Rr. }
    clear - Rr Lc. inversion Rr as [nm x s E E1|s E E1]; subst; [|reflexivity].
    unfold q'. destruct (u' ++ pieces_text l3) as [|y z]; [|change (last_bytes ([c] ++ (y :: z)) = last_bytes ([amp] ++ nm ++ [semi] ++ (y :: z)));
      rewrite !app_assoc, !last_bytes_app by easy; reflexivity].
    rewrite app_nil_r. rewrite !app_assoc, last_bytes_last. exact Lc. }
  destruct (exists_last (l := q')) as (a & last & Eq'); [easy|].
  assert (El : blen (c :: u') = len_utf8 last).
  { cbn [blen]. rewrite Lc. change (1 + blen u') with (S (blen u')). rewrite Hu, <- Kq, Eq'. apply last_bytes_last. }
  change (Some (u ++ [c] ++ u' ++ flat_map said v)) with (option_map (fun r => u ++ (c :: u') ++ r) (Some (flat_map said v))).
  apply un_go with (q' := q') (a := a) (last := last) (v := pieces_text l3); [easy|exact Rr|easy|easy|easy|].
  apply IH; [lia|easy|easy|easy|easy|].
  intro N. rewrite <- Kq. unfold q'. change (c :: u' ++ pieces_text l3) with ((c :: u') ++ pieces_text l3). rewrite last_bytes_app; [easy|]. intro E. now apply text_nil in E.
Qed.
Lemma literal_read l : named l -> Forall good_piece (literal_pieces l) -> fair_references (literal_pieces l) ->
  unescapes (pieces_text l) (Some (flat_map said (literal_pieces l))).
Proof.
  intros N G [F A]. pose proof (lits_literal l N) as L. apply (literal_decoded (last_bytes (pieces_text (literal_pieces l))) _ l _ (le_n _) L G F A).
  now apply lits_last in L.
Qed.
Lemma literal_value l : named l -> Forall good_piece (literal_pieces l) -> fair_value (literal_pieces l) ->
  unescapes (pieces_text l) (Some (value_said (literal_pieces l))).
Proof.
  intros N G F. pose proof (literal_read l N G (proj1 F)) as U. apply (value_exact _ G) in F as V.
  pose proof (fair_decoded _ _ (le_n _) G (proj1 F)) as U'. pose proof (unescapes_fun _ _ _ V U') as E. injection E as ->. exact U.
Qed.
Lemma no_own l : (forall p, In p l -> own p = false) -> literal_pieces l = l.
Proof.
  induction l as [|p l IH]; intro H; [easy|]. cbn [literal_pieces flat_map]. unfold literal_piece. rewrite (H p (or_introl eq_refl)). cbn [app]. f_equal. apply IH.
  intros q I. apply H. now right.
Qed.
Lemma own_dec l : (forall p, In p l -> own p = false) \/ exists p, In p l /\ own p = true.
Proof.
  induction l as [|p l [IH|(q & I & O)]]; [now left| |right; exists q; split; [now right|easy]].
  destruct (own p) eqn:E; [right; exists p; split; [now left|easy]|left]. intros q [<-|I]; auto.
Qed.
Lemma own_amp l p : In p l -> own p = true -> In amp (pieces_text l).
Proof. intros I O. destruct (own_ent _ O) as [nm ->]. unfold pieces_text. apply in_flat_map. exists (Ent nm). split; [easy|now left]. Qed.
Lemma own_literal l p : In p l -> own p = true -> In (Ent (lit "amp")) (literal_pieces l).
Proof. intros I O. unfold literal_pieces. apply in_flat_map. exists p. split; [easy|]. unfold literal_piece. rewrite O. now left. Qed.
Lemma literal_text l : named l -> Forall good_piece (literal_pieces l) -> fair_text (literal_pieces l) ->
  text_item (pieces_text l) (map ILeaf (text_says (literal_pieces l))).
Proof.
  intros N G F. destruct (own_dec l) as [H|(p & I & O)].
  { rewrite (no_own l H) in *. now apply fair_text_item. }
  pose proof (literal_read l N G (proj1 F)) as U. pose proof (fair_text_item _ G F) as T.
  pose proof (fair_decoded _ _ (le_n _) G (proj1 F)) as U'. pose proof (own_literal _ _ I O) as Ia.
  inversion T as [t W|t v W Uv B|t v W Uv B]; subst.
  - exfalso. apply in_split in Ia. destruct Ia as (x & y & E). rewrite E, text_app in W. unfold ws in W. rewrite Forall_app in W. destruct W as [_ W]. inversion W; discriminate.
  - pose proof (unescapes_fun _ _ _ Uv U') as E. injection E as ->. exfalso. destruct B as [_ B]. rewrite Forall_forall in B.
    specialize (B amp). assert (In amp (flat_map said (literal_pieces l))) as J by (apply in_flat_map; exists (Ent (lit "amp")); split; [easy|now left]).
    apply B in J. discriminate J.
  - pose proof (unescapes_fun _ _ _ Uv U') as E. injection E as ->. apply xi_text; [|easy|easy].
    intro Wl. unfold ws in Wl. rewrite Forall_forall in Wl. pose proof (Wl amp (own_amp _ _ I O)) as Z. discriminate Z.
Qed.

(** * Characters *)

Lemma literal_chars l c : In c (pieces_text l) -> In c (pieces_text (literal_pieces l)).
Proof.
  intro I. unfold pieces_text in *. apply in_flat_map in I. destruct I as (p & Ip & I). destruct (own p) eqn:O.
  - destruct (own_ent _ O) as [nm ->]. cbn [piece_text] in I. destruct I as [<-|I].
    + apply in_flat_map. exists (Ent (lit "amp")). split; [now apply own_literal with (Ent nm)|now left].
    + apply in_flat_map. exists (Chr c). split; [|now left]. unfold literal_pieces. apply in_flat_map. exists (Ent nm). split; [easy|].
      unfold literal_piece. rewrite O, tail_text. right. now apply in_map.
  - apply in_flat_map. exists p. split; [|easy]. unfold literal_pieces. apply in_flat_map. exists p. split; [easy|]. unfold literal_piece. rewrite O. now left.
Qed.
Lemma literal_no_tag l : chardata_ok (literal_pieces l) -> no_tag (pieces_text l).
Proof. intros H I. apply (chardata_no_tag _ H). now apply literal_chars. Qed.

(** Proofs for SpecConf.v: texts and values. *)
From Coq Require Import List NArith Arith Bool Ascii String Lia.
From Verif Require Import Base BaseFacts Escape Dom Spec EscapeFacts SpecDom SpecLex SpecParse LexFacts
  SpecEsc UnescFacts SpecDoc SpecErr SpecMean SpecXml XmlFacts ReadFacts SpecConf.
Import ListNotations.

(** * Numbers *)

Lemma number_app base dig s1 : forall acc s2, number base dig acc (s1 ++ s2) =
  match number base dig acc s1 with Some v => number base dig v s2 | None => None end.
Proof. induction s1 as [|c s IH]; intros acc s2; [easy|]. cbn [app number]. destruct (dig c) as [v|]; [apply IH|easy]. Qed.
Lemma digit_hex d v : digit d = Some v -> hex_value d v /\ (v <= 9)%N.
Proof.
  unfold digit. destruct ((48 <=? d)%N && (d <=? 57)%N) eqn:E; [|easy]. intro H. injection H as <-.
  apply andb_true_iff in E. destruct E as [E1 E2]. apply N.leb_le in E1, E2. split; [|lia].
  assert (d = 48 \/ d = 49 \/ d = 50 \/ d = 51 \/ d = 52 \/ d = 53 \/ d = 54 \/ d = 55 \/ d = 56 \/ d = 57)%N as K by lia.
  left. repeat (destruct K as [->|K]; [reflexivity|]). subst d. reflexivity.
Qed.
Lemma hex_value_digit d v w : hex_value d v -> digit d = Some w -> v = w.
Proof.
  intros H D. destruct (digit_hex _ _ D) as [H' _]. apply hex_digit_value in H, H'. congruence.
Qed.
Definition digits (s : str) : Prop := Forall (fun d => exists v, digit d = Some v) s.
Lemma number_digits base s : forall acc v, number base digit acc s = Some v -> digits s.
Proof.
  induction s as [|d s IH]; intros acc v H; [constructor|]. cbn [number] in H. destruct (digit d) as [w|] eqn:E; [|easy].
  constructor; [now exists w|now apply IH in H].
Qed.
Lemma hex_number_of h n : hex_number h n -> digits h -> number 16 digit 0 h = Some n.
Proof.
  induction 1 as [d v Hv|h n d v Hh IH Hv]; intro D.
  - inversion D as [|? ? [w E] _]; subst. cbn [number]. now rewrite E, (hex_value_digit _ _ _ Hv E).
  - apply Forall_app in D. destruct D as [D1 D2]. inversion D2 as [|? ? [w E] _]; subst.
    rewrite number_app, (IH D1). cbn [number]. now rewrite E, (hex_value_digit _ _ _ Hv E).
Qed.
Lemma hex_number_more h n s : forall v, hex_number h n -> number 16 digit n s = Some v -> hex_number (h ++ s) v.
Proof.
  revert h n. induction s as [|d s IH]; intros h n v H E.
  - cbn in E. injection E as <-. now rewrite app_nil_r.
  - cbn [number] in E. destruct (digit d) as [w|] eqn:D; [|easy].
    replace (h ++ d :: s) with ((h ++ [d]) ++ s) by now rewrite <- app_assoc.
    apply IH with (16 * n + w)%N; [|easy]. constructor; [easy|now apply digit_hex].
Qed.
Lemma hex_number_from s v : s <> [] -> number 16 digit 0 s = Some v -> hex_number s v.
Proof.
  destruct s as [|d s]; [easy|]. intros _ E. cbn [number] in E. destruct (digit d) as [w|] eqn:D; [|easy].
  apply (hex_number_more [d] w s); [constructor; now apply digit_hex|]. now rewrite N.mul_0_r, N.add_0_l in E.
Qed.
Lemma dec_lower s : forall a v, number 10 digit a s = Some v -> (a <= v)%N /\ (s <> [] -> 10 * a <= v)%N.
Proof.
  induction s as [|d s IH]; intros a v H; cbn [number] in H.
  - injection H as <-. split; [lia|easy].
  - destruct (digit d) as [w|] eqn:D; [|easy]. apply IH in H. destruct H as [H _]. lia.
Qed.
(** Two digits at most. *)
Lemma dec_hex_small s : forall a v, number 10 digit a s = Some v -> (v < 100)%N ->
  number 16 digit (16 * (a / 10) + a mod 10) s = Some (16 * (v / 10) + v mod 10)%N.
Proof.
  induction s as [|d s IH]; intros a v H L; cbn [number] in *.
  - now injection H as <-.
  - destruct (digit d) as [w|] eqn:D; [|easy]. apply digit_hex in D. destruct D as [_ D].
    pose proof (dec_lower _ _ _ H) as [B _].
    replace (16 * (16 * (a / 10) + a mod 10) + w)%N with (16 * ((10 * a + w) / 10) + (10 * a + w) mod 10)%N; [now apply IH|].
    assert (a < 10)%N as A by lia. rewrite (N.div_small a 10), (N.mod_small a 10) by easy.
    rewrite (N.mul_comm 10 a), N.div_add_l by lia. rewrite (N.add_comm (a * 10)), N.mod_add by lia.
    rewrite (N.div_small w 10), (N.mod_small w 10) by lia. lia.
Qed.
Lemma hex_above s : forall a b v w, number 16 digit a s = Some v -> number 10 digit b s = Some w -> (b <= a)%N ->
  (w <= v)%N /\ (b < a -> w < v)%N /\ (v = w -> s <> [] -> v <= 9)%N.
Proof.
  induction s as [|d s IH]; intros a b v w H1 H2 L; cbn [number] in *.
  - injection H1 as <-. injection H2 as <-. repeat split; [lia|lia|easy].
  - destruct (digit d) as [x|] eqn:D; [|easy]. apply digit_hex in D. destruct D as [_ D].
    assert (10 * b + x <= 16 * a + x)%N as L' by lia.
    destruct (IH _ _ _ _ H1 H2 L') as (I1 & I2 & I3). repeat split; [easy|intro; apply I2; lia|].
    intros E _. destruct s as [|y s].
    + cbn [number] in H1, H2. assert (16 * a + x = v)%N by congruence. assert (10 * b + x = w)%N by congruence. lia.
    + now apply I3.
Qed.

(** * References *)

Definition inner (p : piece) : str :=
  match p with Chr c => [c] | Ent nm => nm | Dec ds => lit "#" ++ ds | Hex ds => lit "#x" ++ ds end.
Lemma reference_text p : is_reference p -> piece_text p = [amp] ++ inner p ++ [semi].
Proof. destruct p; cbn [is_reference]; [easy| | |]; intros _; cbn [piece_text inner]; now rewrite <- ?app_assoc. Qed.
(** The character the crate reads for a piece. *)
Definition read_as (p : piece) (c : char) : Prop :=
  match p with Chr x => c = x | _ => entity (inner p) c end.
Lemma predefined_plain nm c : In (nm, c) predefined -> ~ begins (lit "#") nm /\ ~ In semi nm.
Proof.
  cbn. intros [E|[E|[E|[E|[E|[]]]]]]; injection E as <- <-; (split; [intros [r E]; discriminate E|cbn; intuition discriminate]).
Qed.
Lemma digit_no_semi s : digits s -> ~ In semi s.
Proof. unfold digits. rewrite Forall_forall. intros H I. apply H in I. destruct I as [v I]. discriminate I. Qed.
Lemma hexdigits_no_semi s : forall acc v, number 16 hexdigit acc s = Some v -> ~ In semi s.
Proof.
  induction s as [|d s IH]; intros acc v H I; [easy|]. cbn [number] in H. destruct (hexdigit d) as [w|] eqn:E; [|easy].
  destruct I as [->|I]; [discriminate E|]. now apply IH in H.
Qed.
Lemma refers_dec ds c : refers (Dec ds) = Some c -> ds <> [] /\ number 10 digit 0 ds = Some c.
Proof. cbn [refers]. destruct ds; [easy|]. intro H. now split. Qed.
Lemma refers_hex ds c : refers (Hex ds) = Some c -> ds <> [] /\ number 16 hexdigit 0 ds = Some c.
Proof. cbn [refers]. destruct ds; [easy|]. intro H. now split. Qed.
Lemma inner_no_semi p c : refers p = Some c -> ~ In semi (inner p).
Proof.
  intro H. destruct p as [x|nm|ds|ds]; [easy| | |]; cbn [inner].
  - now apply refers_ent, predefined_plain in H.
  - apply refers_dec in H. destruct H as [_ H]. apply number_digits in H. intros [I|I]; [discriminate|]. now apply digit_no_semi in I.
  - apply refers_hex in H. destruct H as [_ H]. intros [I|[I|I]]; [discriminate..|]. now apply hexdigits_no_semi in H.
Qed.
Lemma inner_no_amp p c : refers p = Some c -> ~ In amp (inner p).
Proof.
  intro H. destruct p as [x|nm|ds|ds]; [easy| | |]; cbn [inner].
  - apply refers_ent in H. cbn in H. destruct H as [E|[E|[E|[E|[E|[]]]]]]; injection E as <- <-; cbn; intuition discriminate.
  - apply refers_dec in H. destruct H as [_ H]. apply number_digits in H. intros [I|I]; [discriminate|].
    unfold digits in H. rewrite Forall_forall in H. apply H in I. destruct I as [v I]. discriminate I.
  - apply refers_hex in H. destruct H as [_ H]. intros [I|[I|I]]; [discriminate..|]. revert H I. generalize 0%N as acc.
    induction ds as [|d s IH]; intros acc H I; [easy|]. cbn [number] in H. destruct (hexdigit d) as [w|] eqn:E; [|easy].
    destruct I as [->|I]; [discriminate E|]. now apply IH in H.
Qed.
Lemma read_ent nm c c' : refers (Ent nm) = Some c -> read_as (Ent nm) c' -> c' = c.
Proof.
  intros H R. apply refers_ent in H. cbn [read_as inner] in R. assert (entity nm c) as R' by now constructor. now apply entity_fun with nm.
Qed.
Lemma read_dec ds v c : refers (Dec ds) = Some v -> read_as (Dec ds) c -> number 16 digit 0 ds = Some c.
Proof.
  intros H R. apply refers_dec in H. destruct H as [N H]. apply number_digits in H as D. cbn [read_as inner] in R.
  inversion R as [nm x I E|h x Hh S E|h x Hh S E]; subst.
  - apply predefined_plain in I. destruct I as [I _]. exfalso. apply I. now exists ds.
  - now apply hex_number_of.
  - exfalso. unfold digits in D. rewrite Forall_forall in D. destruct (D 43%N) as [y Hy]; [now left|discriminate Hy].
Qed.
Lemma hex_number_no_x h n : hex_number h n -> ~ In 120%N h.
Proof.
  induction 1 as [d v Hv|h n d v Hh IH Hv]; intro I.
  - destruct I as [->|[]]. apply hex_digit_value in Hv. discriminate Hv.
  - apply in_app_or in I. destruct I as [I|[->|[]]]; [now apply IH|]. apply hex_digit_value in Hv. discriminate Hv.
Qed.
Lemma read_hex ds c : ~ read_as (Hex ds) c.
Proof.
  cbn [read_as inner]. intro R. inversion R as [nm x I E|h x Hh S E|h x Hh S E]; subst.
  - apply predefined_plain in I. destruct I as [I _]. apply I. now exists (lit "x" ++ ds).
  - apply hex_number_no_x in Hh. apply Hh. now left.
Qed.
Lemma nine_read ds : refers (Dec ds) = Some 9%N -> read_as (Dec ds) 9%N.
Proof.
  intro H. apply refers_dec in H. destruct H as [N H]. cbn [read_as inner]. apply ent_hex; [|unfold scalar; lia].
  apply hex_number_from; [easy|]. apply dec_hex_small in H; [|reflexivity]. exact H.
Qed.

(** * Decoding *)

Lemma first_ref l : exists u, l = map Chr u \/ exists p b, l = map Chr u ++ p :: b /\ is_reference p.
Proof.
  induction l as [|p l (u & IH)]; [now exists []; left|]. destruct p as [c|nm|ds|ds].
  - exists (c :: u). destruct IH as [->|(p & b & -> & R)]; [now left|right; now exists p, b].
  - exists []. right. now exists (Ent nm), l.
  - exists []. right. now exists (Dec ds), l.
  - exists []. right. now exists (Hex ds), l.
Qed.
Lemma ref_refers p : is_reference p -> good_piece p -> exists c, refers p = Some c /\ xml_char c.
Proof. intros R [H _]. now destruct p. Qed.
Lemma chars_good u : Forall good_piece (map Chr u) -> ~ In amp u.
Proof. intros H I. rewrite Forall_forall in H. destruct (H (Chr amp)) as [_ N]; [now apply in_map|now apply (N amp)]. Qed.
Lemma good_chars u : ~ In amp u -> Forall good_piece (map Chr u).
Proof.
  intro H. apply Forall_forall. intros p I. apply in_map_iff in I. destruct I as (c & <- & I). split; [easy|].
  intros x E. injection E as <-. now intros ->.
Qed.
(** A cut through the text of pieces. *)
Lemma pieces_cut : forall b U V, pieces_text b = U ++ V ->
  (exists b1 b2, b = b1 ++ b2 /\ U = pieces_text b1 /\ V = pieces_text b2) \/
  (exists b1 r b2 x y, b = b1 ++ r :: b2 /\ U = pieces_text b1 ++ x /\ V = y ++ pieces_text b2 /\ piece_text r = x ++ y /\ x <> [] /\ y <> []).
Proof.
  induction b as [|p b IH]; intros U V E.
  - cbn in E. symmetry in E. apply app_eq_nil in E. destruct E as [-> ->]. left. now exists [], [].
  - change (pieces_text (p :: b)) with (piece_text p ++ pieces_text b) in E.
    destruct (app_eq_app _ _ _ _ E) as (z & [[E1 E2]|[E1 E2]]).
    + destruct U as [|c U]; [left; exists [], (p :: b); split; [easy|]; split; [easy|symmetry; exact E]|].
      destruct z as [|d z].
      * left. exists [p], b. rewrite app_nil_r in E1. split; [easy|]. split; [cbn; now rewrite app_nil_r|easy].
      * right. exists [], p, b, (c :: U), (d :: z). split; [easy|]. split; [easy|]. split; [easy|]. easy.
    + destruct (IH z V E2) as [(b1 & b2 & -> & -> & ->)|(b1 & r & b2 & x & y & -> & -> & -> & H)].
      * left. exists (p :: b1), b2. split; [easy|]. split; [easy|easy].
      * right. exists (p :: b1), r, b2, x, y. split; [easy|]. split; [|easy].
        change (pieces_text (p :: b1)) with (piece_text p ++ pieces_text b1). now rewrite <- app_assoc.
Qed.
Lemma reference_length p : is_reference p -> 2 <= List.length (piece_text p) /\ In amp (piece_text p).
Proof. intro R. rewrite (reference_text p R), !app_length. cbn [List.length]. split; [lia|now left]. Qed.
Lemma text_length b : List.length b <= List.length (pieces_text b) /\
  (List.length (pieces_text b) = List.length b \/ ~ In amp (pieces_text b) -> b = map Chr (pieces_text b)).
Proof.
  induction b as [|p b [IH1 IH2]]; [now split|]. change (pieces_text (p :: b)) with (piece_text p ++ pieces_text b).
  rewrite app_length. cbn [List.length].
  assert ((exists c, p = Chr c) \/ is_reference p) as [[c ->]|R] by (destruct p as [c|?|?|?]; [left; now exists c|now right..]).
  - cbn [piece_text List.length app map]. split; [lia|]. intro H. f_equal. apply IH2. destruct H as [H|H]; [left; lia|right; intro I; apply H; now right].
  - destruct (reference_length p R) as [L I]. split; [lia|]. intros [H|H]; [lia|exfalso; apply H; apply in_or_app; now left].
Qed.
Definition apart (l : list piece) : Prop :=
  forall a p b, l = a ++ p :: b -> is_reference p -> exists c u v z last, read_as p c /\ b = map Chr u ++ v /\
    c :: pieces_text b = z ++ [last] /\ blen (c :: u) = len_utf8 last.
Lemma first_amp (p u q q' : str) : ~ In amp p -> ~ In amp u -> p ++ amp :: q = u ++ amp :: q' -> p = u /\ q = q'.
Proof.
  revert u. induction p as [|c p IH]; intros [|d u] Hp Hu E; cbn in E.
  - injection E as E. now split.
  - injection E as <- _. exfalso. apply Hu. now left.
  - injection E as -> _. exfalso. apply Hp. now left.
  - injection E as <- E. destruct (IH u) as [-> ->]; [intro I; apply Hp; now right|intro I; apply Hu; now right|easy|easy].
Qed.
Lemma read_chars u : Forall2 read_as (map Chr u) u.
Proof. induction u as [|c u IH]; [constructor|]. cbn [map]. constructor; [easy|exact IH]. Qed.
Lemma unescapes_amp t o : unescapes t o -> In amp t -> exists p q q', t = p ++ amp :: q /\ ~ In amp p /\ reference_read (amp :: q) q' /\
  exists a last, q' = a ++ [last] /\
    (o = None \/ exists u v w, q' = u ++ v /\ blen u = len_utf8 last /\ unescapes v (Some w) /\ o = Some (p ++ u ++ w)).
Proof.
  intros H I. destruct H as [t H|p q q' a last u v o N R E1 E2 B H|p q q' a last N R E B]; [contradiction| |];
    destruct (reference_amp _ _ R) as [q0 ->]; exists p, q0, q'; (split; [easy|]; split; [easy|]; split; [easy|]; exists a, last; split; [easy|]).
  - destruct o as [w|]; [right|now left]. now exists u, v, w.
  - now left.
Qed.
Lemma len_pos c : 1 <= len_utf8 c.
Proof. unfold len_utf8. repeat destruct (_ <? _)%N; lia. Qed.
Lemma good_app a b : Forall good_piece (a ++ b) -> Forall good_piece a /\ Forall good_piece b.
Proof. apply Forall_app. Qed.
Lemma apart_chars u b : apart b -> apart (map Chr u ++ b).
Proof.
  intros H. induction u as [|c u IH]; [easy|]. intros a p b' E R. cbn [map app] in E.
  destruct a as [|x a]; injection E as E1 E2; [subst p; destruct R|]. now apply IH with a.
Qed.
Lemma decoded : forall n l w, List.length (pieces_text l) <= n -> Forall good_piece l -> unescapes (pieces_text l) (Some w) ->
  List.length l <= List.length w /\ (List.length w = List.length l \/ ~ In amp w -> Forall2 read_as l w /\ apart l).
Proof.
  induction n as [|n IH]; intros l w Hn G H.
  { assert (pieces_text l = []) as E by (destruct (pieces_text l); [easy|cbn in Hn; lia]).
    pose proof (text_length l) as [L _]. rewrite E in L. destruct l; [|cbn in L; lia].
    split; [cbn; lia|]. intros _. inversion H as [t N E1 E2|p q q' a last u v o N R|]; subst.
    - split; [constructor|]. intros [|? ?] p1 b1 E'; discriminate.
    - destruct (reference_amp _ _ R) as [t ->]. destruct p; discriminate. }
  destruct (first_ref l) as (u & [->|(p & b & -> & R)]).
  { rewrite text_chars in *. apply chars_good in G as N. inversion H as [t N' E1 E2|p q q' a last u' v o N' R E1 E2 E3 E4 E5 E6|]; subst.
    - rewrite map_length. split; [lia|]. intros _. split; [apply read_chars|]. rewrite <- (app_nil_r (map Chr w)). apply apart_chars.
      intros [|? ?] p1 b1 E'; discriminate.
    - exfalso. destruct (reference_amp _ _ R) as [t ->]. apply N. apply in_or_app. right. now left. }
  apply good_app in G. destruct G as [Gu Gp]. apply chars_good in Gu. inversion Gp as [|? ? Gp' Gb]; subst.
  destruct (ref_refers _ R Gp') as (c0 & Ec0 & _). pose proof (inner_no_semi _ _ Ec0) as Ns. pose proof (inner_no_amp _ _ Ec0) as Na.
  rewrite text_app, text_chars in *. change (pieces_text (p :: b)) with (piece_text p ++ pieces_text b) in *. rewrite (reference_text p R) in *.
  rewrite <- !app_assoc in *. cbn [app] in Hn, H |- *.
  destruct (unescapes_amp _ _ H) as (p0 & q & q' & Et & Np & Rr & a & last & Eq' & [D|(U & V & w' & E1 & EB & Hv & Ew)]); [apply in_or_app; right; now left|discriminate|].
  injection Ew as ->. apply first_amp in Et; [|easy|easy]. destruct Et as [<- <-].
  rewrite !app_length in Hn |- *. cbn [List.length] in Hn |- *. rewrite !app_length in Hn. cbn [List.length] in Hn.
  destruct U as [|c U]; [cbn in EB; pose proof (len_pos last); lia|].
  assert (Mixed : forall r b2 x y, Forall good_piece (r :: b2) -> piece_text r = x ++ y -> x <> [] -> y <> [] -> V = y ++ pieces_text b2 ->
    List.length V <= n -> begins [amp] x /\ List.length y + List.length b2 <= List.length w').
  { intros r b2 x y Gr Ex Nx Ny EV LV. inversion Gr as [|? ? Gr1 Gr2]; subst.
    assert (Rr' : is_reference r).
    { destruct r as [z|?|?|?]; try easy. destruct x as [|x1 [|x2 x]]; [easy| |]; destruct y; try easy; cbn in Ex; discriminate. }
    destruct (ref_refers _ Rr' Gr1) as (cr & Er & _). pose proof (inner_no_amp _ _ Er) as Nr. rewrite (reference_text r Rr') in Ex.
    destruct x as [|x0 x]; [easy|]. cbn in Ex. injection Ex as <- Ex. split; [now exists x|].
    assert (Ny' : ~ In amp y).
    { intro I. assert (In amp (inner r ++ [semi])) as I' by (rewrite Ex; apply in_or_app; now right).
      apply in_app_or in I'. destruct I' as [I'|[I'|[]]]; [contradiction|discriminate]. }
    destruct (IH (map Chr y ++ b2) w') as [L _].
    - rewrite text_app, text_chars. exact LV.
    - apply Forall_app. split; [now apply good_chars|easy].
    - now rewrite text_app, text_chars.
    - rewrite app_length, map_length in L. exact L. }
  inversion Rr as [nm c1 s0 Hent Eq1 Eq2|s0 Nent Eq1 Eq2].
  - (* the reference is read *)
    apply no_semi_split in Eq1; [|now apply entity_no_semi in Hent|easy]. destruct Eq1 as [-> ->]. rewrite <- Eq2 in E1, Eq'. cbn [app] in E1. injection E1 as <- E1.
    assert (LV : List.length V <= n).
    { assert (List.length (pieces_text b) = List.length U + List.length V) by (rewrite E1; apply app_length). lia. }
    destruct (pieces_cut _ _ _ E1) as [(b1 & b2 & -> & -> & ->)|(b1 & r & b2 & x & y & -> & -> & EV & Er & Nx & Ny)].
    + apply good_app in Gb. destruct Gb as [Gb1 Gb2]. destruct (IH b2 w' LV Gb2 Hv) as [L1 L2]. destruct (text_length b1) as [K1 K2].
      rewrite map_length, !app_length. cbn [List.length]. rewrite ?app_length. split; [lia|].
      intro C. assert (b1 = map Chr (pieces_text b1)) as Eb1.
      { apply K2. destruct C as [C|C]; [left; lia|right]. intro I. apply C. apply in_or_app. right. right. apply in_or_app. now left. }
      destruct L2 as [F A].
      { destruct C as [C|C]; [left; lia|right]. intro I. apply C. apply in_or_app. right. right. apply in_or_app. now right. }
      assert (Rp : read_as p c1) by (now destruct p).
      split.
      * apply Forall2_app; [apply read_chars|]. constructor; [easy|]. apply Forall2_app; [|easy]. rewrite Eb1 at 1. apply read_chars.
      * apply apart_chars. intros a0 p1 b' E R'. destruct a0 as [|x a0].
        -- injection E as <- <-. exists c1, (pieces_text b1), b2, a, last. split; [easy|]. split; [now rewrite <- Eb1|].
           split; [exact Eq'|easy].
        -- injection E as _ E. rewrite Eb1 in E. exact (apart_chars _ _ A _ _ _ E R').
    + apply good_app in Gb. destruct Gb as [Gb1 Gb2]. destruct (Mixed r b2 x y Gb2 Er Nx Ny EV LV) as [[x' ->] L].
      destruct (text_length b1) as [K1 _]. rewrite map_length, !app_length. cbn [List.length]. rewrite !app_length. cbn [List.length].
      assert (1 <= List.length y) by (destruct y; [easy|cbn; lia]).
      split; [lia|]. intros [C|C]; [lia|]. exfalso. apply C. apply in_or_app. right. right. apply in_or_app. left. apply in_or_app. right. now left.
  - (* it is not *)
    rewrite <- Eq2 in E1. subst s0. cbn [app] in E1. injection E1 as <- E1.
    assert (LV : List.length V <= n).
    { assert (List.length (inner p ++ [semi] ++ pieces_text b) = List.length U + List.length V) as X by (cbn [app]; rewrite E1; apply app_length).
      rewrite !app_length in X. cbn [List.length] in X. lia. }
    assert (Ec : pieces_text (p :: b) = (amp :: U) ++ V).
    { change (pieces_text (p :: b)) with (piece_text p ++ pieces_text b). rewrite (reference_text p R), <- !app_assoc. cbn [app]. now rewrite E1. }
    rewrite !app_length, !map_length. cbn [List.length]. rewrite ?app_length.
    assert (Amp : In amp (u ++ (amp :: U) ++ w')) by (apply in_or_app; right; now left).
    cut (S (S (List.length b)) <= S (List.length U + List.length w')).
    { intro L. split; [lia|]. intros [C|C]; [lia|contradiction]. }
    destruct (pieces_cut _ _ _ Ec) as [(b1 & b2 & Eb & E2 & E3)|(b1 & r & b2 & x & y & Eb & E2 & EV & Er & Nx & Ny)].
    + destruct b1 as [|p1 b1]; [discriminate E2|]. injection Eb as <- ->. apply good_app in Gb. destruct Gb as [_ Gb2].
      subst V. destruct (IH b2 w' LV Gb2 Hv) as [L1 _]. destruct (text_length b1) as [K1 _].
      change (pieces_text (p :: b1)) with (piece_text p ++ pieces_text b1) in E2. rewrite (reference_text p R), <- !app_assoc in E2.
      cbn [app] in E2. injection E2 as E2. rewrite E2, !app_length. cbn [List.length]. rewrite ?app_length. lia.
    + assert (Gr : Forall good_piece (r :: b2)).
      { assert (Forall good_piece (b1 ++ r :: b2)) as G' by (rewrite <- Eb; now constructor). now apply good_app in G'. }
      destruct (Mixed r b2 x y Gr Er Nx Ny EV LV) as [[x' ->] L].
      assert (1 <= List.length y) by (destruct y; [easy|cbn; lia]).
      destruct (text_length b1) as [K1 _]. assert (List.length (p :: b) = List.length (b1 ++ r :: b2)) as X by now rewrite Eb.
      rewrite app_length in X. cbn [List.length] in X.
      assert (S (List.length U) = List.length (pieces_text b1) + S (List.length x')) as Y.
      { change (S (List.length U)) with (List.length (amp :: U)). rewrite E2, app_length. reflexivity. }
      lia.
Qed.

(** * References that are right *)

Lemma xml_char_small c : xml_char c -> (c <= 9)%N -> c = 9%N.
Proof.
  unfold xml_char, in_ranges. intros H L. rewrite Exists_exists in H. destruct H as ([x y] & I & H). cbn [fst snd] in H.
  cbn in I. repeat (destruct I as [E|I]; [injection E as <- <-; lia|]). destruct I.
Qed.
(** The references the crate reads as one byte. *)
Definition fair_piece (p : piece) : Prop := match p with Hex _ => False | Dec _ => refers p = Some 9%N | _ => True end.
Lemma fair_read p : is_reference p -> good_piece p -> fair_piece p -> exists c, read_as p c /\ said p = [c] /\ len_utf8 c = 1.
Proof.
  intros R G F. destruct (ref_refers _ R G) as (c & E & _). exists c. destruct p as [x|nm|ds|ds]; [easy| | |easy].
  - split; [constructor; now apply refers_ent|]. split; [cbn [said]; now rewrite E|]. apply refers_ent in E. now apply predefined_ascii in E.
  - cbn [fair_piece] in F. rewrite E in F. injection F as ->. split; [now apply nine_read|]. split; [cbn [said]; now rewrite E|easy].
Qed.
Lemma fair_decoded : forall n l, List.length l <= n -> Forall good_piece l -> fair_references l ->
  unescapes (pieces_text l) (Some (flat_map said l)).
Proof.
  induction n as [|n IH]; intros l Hn Hg [Hk Ha].
  { destruct l; [|cbn in Hn; lia]. now constructor. }
  destruct (first_ref l) as (u & [->|(p & b & -> & R)]).
  - rewrite text_chars, said_chars. constructor. now apply chars_good.
  - destruct (Ha _ _ _ eq_refl R) as (u' & v & -> & Hu). apply good_app in Hg. destruct Hg as [Gu Gp].
    apply chars_good in Gu. inversion Gp as [|? ? G1 G2]; subst. apply good_app in G2. destruct G2 as [_ G2].
    change (Forall fair_piece (map Chr u ++ p :: map Chr u' ++ v)) in Hk. apply Forall_app in Hk. destruct Hk as [_ Hk].
    inversion Hk as [|? ? K1 K2]; subst. apply Forall_app in K2. destruct K2 as [_ K2].
    destruct (fair_read p R G1 K1) as (c & Rc & Sc & Lc).
    rewrite text_app, flat_map_app, text_chars, said_chars in *.
    change (pieces_text (p :: map Chr u' ++ v)) with (piece_text p ++ pieces_text (map Chr u' ++ v)) in *.
    change (flat_map said (p :: map Chr u' ++ v)) with (said p ++ flat_map said (map Chr u' ++ v)).
    rewrite (reference_text p R), Sc in *. rewrite text_app, flat_map_app, text_chars, said_chars, <- !app_assoc in *.
    set (q' := c :: u' ++ pieces_text v).
    destruct (exists_last (l := q')) as (a & last & Eq); [easy|].
    assert (El : blen (c :: u') = len_utf8 last).
    { cbn [blen]. rewrite Lc. change (1 + blen u') with (S (blen u')). rewrite Hu.
      remember (u' ++ pieces_text v) as z eqn:Ez. clear Ez.
      destruct a as [|y a]; cbn in Eq; injection Eq as E1 E2.
      - subst last z. rewrite Lc, app_nil_r, !app_assoc. now apply last_bytes_last.
      - rewrite E2, !app_assoc. apply last_bytes_last. }
    change (Some (u ++ [c] ++ u' ++ flat_map said v)) with (option_map (fun r => u ++ (c :: u') ++ r) (Some (flat_map said v))).
    apply un_go with (q' := q') (a := a) (last := last) (v := pieces_text v); [easy| |easy|easy|easy|].
    + unfold q'. apply rr_ref. now destruct p.
    + apply IH; [|easy|].
      * rewrite app_length in Hn. cbn [List.length] in Hn. rewrite app_length in Hn. lia.
      * split; [easy|]. intros a1 p1 b1 E1 R1. subst v.
        destruct (Ha (map Chr u ++ p :: map Chr u' ++ a1) p1 b1) as (u1 & v1 & E1 & E2); [|easy|].
        { rewrite <- !app_assoc. cbn. now rewrite <- !app_assoc. }
        exists u1, v1. split; [easy|]. rewrite E2, !app_assoc. apply last_bytes_app.
        rewrite text_app. intro E. apply app_eq_nil in E. destruct E as [_ E].
        change (piece_text p1 ++ pieces_text b1 = []) in E. apply app_eq_nil in E. destruct E as [E _]. now apply piece_nonempty in E.
Qed.
Lemma read_fair l : Forall good_piece l -> Forall fair_piece l -> apart l -> fair_references l.
Proof.
  intros G F A. split; [exact F|]. intros a p b -> R. destruct (A a p b eq_refl R) as (c & u & v & z & last & Rc & -> & E & B).
  exists u, v. split; [easy|]. apply good_app in G. destruct G as [_ G]. inversion G as [|? ? G1 _]; subst.
  apply Forall_app in F. destruct F as [_ F]. inversion F as [|? ? F1 _]; subst.
  destruct (fair_read p R G1 F1) as (c' & Rc' & _ & Lc').
  assert (c' = c) as -> by (destruct p; [easy|now apply entity_fun with (inner (Ent nm))|now apply entity_fun with (inner (Dec ds))|now apply entity_fun with (inner (Hex ds))]).
  cbn [blen] in B. rewrite Lc' in B. change (1 + blen u) with (S (blen u)) in B. rewrite B.
  rewrite text_app. change (pieces_text (p :: map Chr u ++ v)) with (piece_text p ++ pieces_text (map Chr u ++ v)).
  destruct z as [|y z]; cbn in E; injection E as E1 E2.
  - subst last. rewrite E2, app_nil_r, (reference_text p R), !app_assoc, last_bytes_last. easy.
  - rewrite E2, !app_assoc, last_bytes_last. easy.
Qed.

(** * Line ends *)

Definition unix (p : piece) : piece := if is_chr 13 p then Chr 10%N else p.
Lemma line_ends_length l : List.length (line_ends l) <= List.length l.
Proof.
  induction l as [|p l IH]; [easy|]. cbn [line_ends List.length]. destruct (is_chr 13 p); [|cbn [List.length]; lia].
  destruct (match l with q :: _ => is_chr 10 q | [] => false end); cbn [List.length]; lia.
Qed.
Lemma line_ends_same l : List.length (line_ends l) = List.length l -> line_ends l = map unix l.
Proof.
  induction l as [|p l IH]; [easy|]. pose proof (line_ends_length l) as L. cbn [line_ends map]. unfold unix at 1.
  destruct (is_chr 13 p); [|cbn [List.length]; intro E; now rewrite IH by lia].
  destruct (match l with q :: _ => is_chr 10 q | [] => false end); cbn [List.length]; intro E; [lia|now rewrite IH by lia].
Qed.
Lemma line_ends_good l : Forall good_piece l -> Forall good_piece (line_ends l).
Proof.
  induction 1 as [|p l H Hl IH]; [constructor|]. cbn [line_ends]. destruct (is_chr 13 p); [|now constructor].
  destruct (match l with q :: _ => is_chr 10 q | [] => false end); [easy|]. constructor; [|easy]. split; [easy|].
  intros c E. injection E as <-. discriminate.
Qed.
Lemma singles_length (f : piece -> str) l : (forall p, good_piece p -> exists c, f p = [c]) -> Forall good_piece l ->
  List.length (flat_map f l) = List.length l.
Proof.
  intros Hf. induction 1 as [|p l H Hl IH]; [easy|]. cbn [flat_map]. rewrite app_length, IH. destruct (Hf p H) as [c ->]. reflexivity.
Qed.
Lemma said_single p : good_piece p -> exists c, said p = [c].
Proof.
  intros [H _]. destruct p as [c|nm|ds|ds]; [now exists c| | |]; destruct H as (c & E & _); exists c; cbn [said]; now rewrite E.
Qed.
Lemma value_single p : good_piece p -> exists c, value_char p = [c].
Proof.
  intro H. destruct p as [c|nm|ds|ds]; [|now apply (said_single _ H)..]. cbn [value_char].
  destruct (existsb _ _); eexists; reflexivity.
Qed.
Lemma pointwise (f : piece -> str) l w : (forall p, good_piece p -> exists c, f p = [c]) -> Forall good_piece l ->
  unescapes (pieces_text l) (Some w) -> w = flat_map f (line_ends l) ->
  apart l /\ Forall2 read_as l w /\ Forall2 (fun p c => f (unix p) = [c]) l w.
Proof.
  intros Hf G H E. destruct (decoded _ l w (le_n _) G H) as [L D].
  pose proof (singles_length f _ Hf (line_ends_good _ G)) as Ls. rewrite <- E in Ls. pose proof (line_ends_length l) as Ll.
  destruct D as [D A]; [left; lia|]. split; [easy|]. split; [easy|].
  rewrite line_ends_same in E by lia. subst w. clear D A H L Ls Ll.
  induction G as [|p l H G IH]; [constructor|]. cbn [map flat_map].
  assert (good_piece (unix p)) as U.
  { unfold unix. destruct (is_chr 13 p); [|easy]. split; [easy|]. intros c E. injection E as <-. discriminate. }
  destruct (Hf _ U) as [c E]. rewrite E. constructor; [easy|exact IH].
Qed.
Lemma same_dec ds c v : refers (Dec ds) = Some v -> xml_char v -> read_as (Dec ds) c -> c = v -> refers (Dec ds) = Some 9%N.
Proof.
  intros E X R ->. pose proof (read_dec _ _ _ E R) as H. rewrite E. f_equal. apply refers_dec in E. destruct E as [N E].
  apply xml_char_small; [easy|]. destruct (hex_above _ _ _ _ _ H E (N.le_refl _)) as (_ & _ & K). now apply K.
Qed.
Lemma forall2_and {A B} (P Q : A -> B -> Prop) l m : Forall2 P l m -> Forall2 Q l m -> Forall2 (fun x y => P x y /\ Q x y) l m.
Proof. induction 1 as [|x y l m H Hl IH]; intro K; inversion K; subst; constructor; auto. Qed.
Lemma forall2_left {A B} (P : A -> B -> Prop) (Q : A -> Prop) l m : Forall2 P l m -> (forall x y, In x l -> P x y -> Q x) -> Forall Q l.
Proof.
  induction 1 as [|x y l m H Hl IH]; intro K; constructor; [now apply K with y; [left|]|]. apply IH. intros x' y' I. apply K. now right.
Qed.
Lemma fair_said p c v : good_piece p -> said p = [v] -> read_as p c -> c = v -> fair_piece p.
Proof.
  intros [G _] S R E. destruct p as [x|nm|ds|ds]; [easy|easy| |now apply read_hex in R].
  destruct G as (y & Ey & Xy). cbn [said] in S. rewrite Ey in S. injection S as <-. now apply same_dec with c y.
Qed.

(** * Values and texts *)

Lemma value_exact l : Forall good_piece l -> (unescapes (pieces_text l) (Some (value_said l)) <-> fair_value l).
Proof.
  intro G. split.
  - intro H. destruct (pointwise value_char l _ value_single G H eq_refl) as (A & D & V).
    pose proof (forall2_and _ _ _ _ D V) as F. rewrite Forall_forall in G. split.
    + apply read_fair; [now apply Forall_forall| |easy]. apply (forall2_left _ _ _ _ F). intros p c I [R E].
      destruct p as [x|nm|ds|ds]; [easy|easy| |now apply read_hex in R].
      destruct (G _ I) as [(y & Ey & Xy) Gc]. unfold unix in E. cbn [is_chr value_char said] in E. rewrite Ey in E. injection E as <-.
      now apply same_dec with y y.
    + apply (forall2_left _ _ _ _ F). intros p c I [R E] J. cbn in J.
      destruct J as [J|[J|[J|[]]]]; subst p; cbn in R, E; rewrite R in E; discriminate E.
  - intros [H1 H2]. rewrite value_said_none by easy. now apply fair_decoded with (List.length l).
Qed.
Lemma text_said_exact l : Forall good_piece l ->
  (unescapes (pieces_text l) (Some (text_said l)) <-> fair_references l /\ ~ In (Chr 13%N) l).
Proof.
  intro G. split.
  - intro H. destruct (pointwise said l _ said_single G H eq_refl) as (A & D & V).
    pose proof (forall2_and _ _ _ _ D V) as F. pose proof G as G'. rewrite Forall_forall in G. split.
    + apply read_fair; [easy| |easy]. apply (forall2_left _ _ _ _ F). intros p c I [R E].
      destruct p as [x|nm|ds|ds]; [easy|easy| |now apply read_hex in R]. now apply fair_said with c c; [apply G| | |].
    + intro I. assert (Forall (fun p => p <> Chr 13%N) l) as N.
      { apply (forall2_left _ _ _ _ F). intros p c _ [R E] ->. cbn in R, E. rewrite R in E. discriminate E. }
      rewrite Forall_forall in N. now apply (N _ I).
  - intros [H1 H2]. rewrite text_said_none by easy. now apply fair_decoded with (List.length l).
Qed.

Lemma spaces_said l : spaces (text_said l) -> spaces (flat_map said l).
Proof.
  unfold text_said. induction l as [|p l IH]; [easy|]. cbn [line_ends flat_map]. destruct (is_chr 13 p) eqn:E.
  - intro H. assert (p = Chr 13%N) as ->.
    { destruct p as [c| | |]; [|easy..]. cbn in E. apply N.eqb_eq in E. now subst c. }
    constructor; [cbn; auto|]. apply IH. destruct (match l with q :: _ => is_chr 10 q | [] => false end); [easy|].
    now inversion H.
  - cbn [flat_map]. intro H. apply Forall_app in H. apply Forall_app. split; [easy|]. now apply IH.
Qed.
Lemma said_white l c : In c (text_said l) -> is_whitespace c = false -> In c (flat_map said l).
Proof.
  intros I N. unfold text_said in I. induction l as [|p l IH]; [easy|]. cbn [line_ends flat_map] in *. apply in_or_app.
  destruct (is_chr 13 p).
  - destruct (match l with q :: _ => is_chr 10 q | [] => false end); [right; now apply IH|]. cbn [flat_map] in I. destruct I as [<-|I]; [discriminate N|].
    right. now apply IH.
  - cbn [flat_map] in I. apply in_app_or in I. destruct I as [I|I]; [now left|right; now apply IH].
Qed.
Lemma white_chars l : Forall good_piece l -> ws (pieces_text l) -> exists u, l = map Chr u /\ ws u.
Proof.
  intro G. induction l as [|p l IH]; intro H; [now exists []|]. inversion G as [|? ? G1 G2]; subst.
  change (Forall (fun c => is_whitespace c = true) (piece_text p ++ pieces_text l)) in H. apply Forall_app in H. destruct H as [H1 H2].
  destruct (IH G2 H2) as (u & -> & Hu). destruct p as [c|nm|ds|ds]; [exists (c :: u); split; [easy|constructor; [now inversion H1|easy]]|..];
    inversion H1 as [|? ? B _]; subst; discriminate B.
Qed.
Lemma text_says_spaces l : spaces (text_said l) -> text_says l = [].
Proof.
  intro H. unfold text_says. replace (forallb _ _) with true; [easy|]. symmetry. apply forallb_forall. intros c I.
  unfold spaces in H. rewrite Forall_forall in H. apply H in I. unfold xml_space in I. apply existsb_exists. exists c. split; [easy|apply N.eqb_refl].
Qed.
Lemma text_says_nil l : text_says l = [] -> spaces (text_said l).
Proof.
  unfold text_says. destruct (forallb _ _) eqn:E; [|easy]. intros _. rewrite forallb_forall in E. apply Forall_forall. intros c I. apply E in I.
  apply existsb_exists in I. destruct I as (x & I & Ex). apply N.eqb_eq in Ex. now subst x.
Qed.
Lemma text_says_some l c : In c (text_said l) -> is_whitespace c = false -> text_says l = [NText (text_said l)].
Proof.
  intros I N. unfold text_says. destruct (forallb _ _) eqn:E; [|easy]. rewrite forallb_forall in E. apply E in I.
  apply existsb_exists in I. destruct I as (x & I & Ex). apply N.eqb_eq in Ex. subst x. cbn in I.
  destruct I as [<-|[<-|[<-|[<-|[]]]]]; discriminate N.
Qed.
Lemma not_ws s : ~ ws s -> exists c, In c s /\ is_whitespace c = false.
Proof.
  intro H. apply Exists_exists. apply neg_Forall_Exists_neg in H.
  - rewrite Exists_exists in *. destruct H as (c & I & N). exists c. split; [easy|]. now destruct (is_whitespace c).
  - intro c. destruct (is_whitespace c); [now left|now right].
Qed.
Lemma ws_dec (s : str) : {ws s} + {~ ws s}.
Proof. apply Forall_dec. intro c. destruct (is_whitespace c); [now left|now right]. Qed.
Lemma chars_fair u : fair_references (map Chr u).
Proof.
  split.
  - induction u; constructor; [easy|assumption].
  - intros a p b E R. assert (In p (map Chr u)) as I by (rewrite E; apply in_elt). apply in_map_iff in I. destruct I as (c & <- & _). destruct R.
Qed.
Lemma white_dec_nine ds v c : refers (Dec ds) = Some v -> read_as (Dec ds) c -> xml_space v -> is_whitespace c = true -> v = 9%N.
Proof.
  intros E R S W. pose proof (read_dec _ _ _ E R) as H. apply refers_dec in E. destruct E as [_ E].
  assert (v < 100)%N as L by (unfold xml_space in S; cbn in S; lia).
  pose proof (dec_hex_small _ _ _ E L) as H2. change (16 * (0 / 10) + 0 mod 10)%N with 0%N in H2. rewrite H in H2.
  assert (c = 16 * (v / 10) + v mod 10)%N as Ec by congruence. clear - S W Ec. cbn in S.
  destruct S as [<-|[<-|[<-|[<-|[]]]]]; cbn in Ec; subst c; [discriminate W|easy|discriminate W|discriminate W].
Qed.
Lemma text_exact l a : Forall good_piece l -> text_item (pieces_text l) a -> (a = map ILeaf (text_says l) <-> fair_text l).
Proof.
  intros G T. inversion T as [txt W Et Ea|txt w N U B Et Ea|txt w N U B Et Ea]; subst txt a; clear T.
  - destruct (white_chars _ G W) as (u & -> & Hu). split.
    + intro E. split; [apply chars_fair|]. left. apply text_says_nil. now destruct (text_says _).
    + intros [_ [H|(_ & c & I & Hc)]]; [now rewrite text_says_spaces|]. apply said_white in I; [|easy].
      rewrite said_chars in I. unfold ws in Hu. rewrite Forall_forall in Hu. rewrite Hu in Hc by easy. discriminate Hc.
  - split.
    + intro E. assert (spaces (text_said l)) as S by (apply text_says_nil; now destruct (text_says _)). split; [|now left].
      destruct B as [_ B]. rewrite Forall_forall in B.
      destruct (decoded _ l w (le_n _) G U) as [_ D]. destruct D as [D A]. { right. intro I. apply B in I. discriminate I. }
      apply spaces_said in S. apply read_fair; [easy| |easy].
      assert (Forall2 (fun p c => read_as p c /\ is_whitespace c = true) l w) as F.
      { clear - D B. induction D as [|p c l w H D IH]; constructor; [split; [easy|apply B; now left]|apply IH; intros x I; apply B; now right]. }
      apply (forall2_left _ _ _ _ F). intros p c I [R Hc]. destruct p as [x|nm|ds|ds]; [easy|easy| |now apply read_hex in R].
      rewrite Forall_forall in G. destruct (G _ I) as [(y & Ey & Xy) _]. cbn [fair_piece]. rewrite Ey. f_equal.
      apply white_dec_nine with ds c; [easy|easy| |easy]. unfold spaces in S. rewrite Forall_forall in S. apply S. apply in_flat_map. exists (Dec ds).
      split; [easy|]. cbn [said]. rewrite Ey. now left.
    + intros [F H]. pose proof (fair_decoded _ l (le_n _) G F) as U'. pose proof (unescapes_fun _ _ _ U U') as E. injection E as ->.
      destruct H as [H|(H13 & c & I & Hc)]; [now rewrite text_says_spaces|]. exfalso. destruct B as [_ B]. rewrite Forall_forall in B.
      apply said_white in I; [|easy]. rewrite B in Hc by easy. discriminate Hc.
  - assert (w <> []) as Nw.
    { intros ->. destruct (decoded _ l [] (le_n _) G U) as [L _]. destruct l; [|cbn in L; lia]. apply N. constructor. }
    split.
    + intro E. unfold text_says in E. destruct (forallb _ _); [discriminate E|]. injection E as ->.
      apply text_said_exact in U; [|easy]. destruct U as [F H13]. split; [easy|]. right. split; [easy|]. apply not_ws. intro W. now apply B.
    + intros [F H]. pose proof (fair_decoded _ l (le_n _) G F) as U'. pose proof (unescapes_fun _ _ _ U U') as E. injection E as ->.
      destruct H as [H|(H13 & c & I & Hc)].
      * exfalso. apply B. split; [easy|]. apply spaces_ws. now apply spaces_said.
      * rewrite (text_says_some _ c) by easy. now rewrite text_said_none by easy.
Qed.
Lemma fair_text_item l : Forall good_piece l -> fair_text l -> text_item (pieces_text l) (map ILeaf (text_says l)).
Proof.
  intros G F. assert (exists a, text_item (pieces_text l) a) as [a Ha].
  { destruct (ws_dec (pieces_text l)) as [W|W]; [exists []; now constructor|].
    pose proof (fair_decoded _ l (le_n _) G (proj1 F)) as U. destruct (ws_dec (flat_map said l)) as [Wb|Wb].
    - exists []. apply xi_blank with (flat_map said l); [easy|easy|]. split; [|easy]. intro E.
      destruct (decoded _ l _ (le_n _) G U) as [L _]. rewrite E in L. destruct l; [|cbn in L; lia]. apply W. constructor.
    - eexists. eapply xi_text; [easy|exact U|]. intros [_ B]. now apply Wb. }
  pose proof (proj2 (text_exact l a G Ha) F) as E. now rewrite E in Ha.
Qed.

(** * Values of tokens *)

Definition norm (p : piece) : piece := if is_space p then Chr 32%N else p.
Lemma norm_good p : good_piece p -> good_piece (norm p).
Proof. intro G. unfold norm. destruct (is_space p); [|easy]. split; [easy|]. intros c E. injection E as <-. discriminate. Qed.
Lemma squeeze_cons p l : squeeze (p :: l) = if is_space p then match l with [] => [] | q :: _ => if is_space q then squeeze l else Chr 32%N :: squeeze l end else p :: squeeze l.
Proof. reflexivity. Qed.
Lemma squeeze_length l : List.length (squeeze l) <= List.length l.
Proof.
  induction l as [|p l IH]; [easy|]. rewrite squeeze_cons. cbn [List.length]. destruct (is_space p); [|cbn [List.length]; lia].
  destruct l as [|q l]; [cbn; lia|]. destruct (is_space q); cbn [List.length] in *; lia.
Qed.
Lemma squeeze_same l : List.length (squeeze l) = List.length l -> squeeze l = map norm l.
Proof.
  induction l as [|p l IH]; [easy|]. pose proof (squeeze_length l) as L. rewrite squeeze_cons. cbn [List.length map]. unfold norm at 1.
  destruct (is_space p); [|cbn [List.length]; intro E; now rewrite IH by lia].
  destruct l as [|q l]; [easy|]. destruct (is_space q); [intro E; cbn [List.length] in *; lia|].
  intro E. rewrite IH; [easy|]. cbn [List.length] in *. lia.
Qed.
Lemma drop_spaces_length l : List.length (drop_spaces l) <= List.length l.
Proof. induction l as [|p l IH]; [easy|]. cbn [drop_spaces]. destruct (is_space p); cbn [List.length] in *; lia. Qed.
Lemma drop_spaces_same l : List.length (drop_spaces l) = List.length l -> drop_spaces l = l.
Proof.
  destruct l as [|p l]; [easy|]. cbn [drop_spaces]. destruct (is_space p); [|easy]. pose proof (drop_spaces_length l). cbn [List.length]. lia.
Qed.
Lemma squeeze_good l : Forall good_piece l -> Forall good_piece (squeeze l).
Proof.
  induction 1 as [|p l H Hl IH]; [constructor|]. rewrite squeeze_cons. destruct (is_space p); [|now constructor].
  destruct l as [|q l]; [constructor|]. destruct (is_space q); [easy|]. constructor; [|easy]. split; [easy|]. intros c E. injection E as <-. discriminate.
Qed.
Lemma drop_spaces_good l : Forall good_piece l -> Forall good_piece (drop_spaces l).
Proof. induction 1 as [|p l H Hl IH]; [constructor|]. cbn [drop_spaces]. destruct (is_space p); [easy|now constructor]. Qed.
Lemma value_tokens l : Forall good_piece l -> unescapes (pieces_text l) (Some (value_said (tokens l))) -> tokens l = l /\ fair_value l.
Proof.
  intros G H. assert (tokens l = l) as E; [|split; [easy|apply value_exact; [easy|now rewrite E in H]]].
  assert (Forall good_piece (tokens l)) as Gt by (apply squeeze_good, drop_spaces_good, G).
  destruct (decoded _ l _ (le_n _) G H) as [L D].
  pose proof (singles_length value_char _ value_single (line_ends_good _ Gt)) as Ls. fold (value_said (tokens l)) in Ls.
  pose proof (line_ends_length (tokens l)) as L1. pose proof (squeeze_length (drop_spaces l)) as L2. pose proof (drop_spaces_length l) as L3.
  fold (tokens l) in L2. destruct D as [D A]; [left; lia|].
  assert (tokens l = map norm l) as Et.
  { unfold tokens in *. rewrite squeeze_same by lia. now rewrite drop_spaces_same by lia. }
  unfold value_said in D. rewrite line_ends_same in D by lia. rewrite Et in *. clear - G D.
  induction l as [|p l IH]; [easy|]. cbn [map flat_map] in *. inversion G as [|? ? G1 G2]; subst.
  assert (good_piece (unix (norm p))) as Gu.
  { unfold unix. destruct (is_chr 13 (norm p)); [|now apply norm_good]. split; [easy|]. intros c E. injection E as <-. discriminate. }
  destruct (value_single _ Gu) as [c Ec]. rewrite Ec in D. cbn [app] in D. inversion D as [|? ? ? ? D1 D2]; subst. f_equal; [|now apply IH].
  unfold norm in *. destruct (is_space p) eqn:S; [|easy]. cbn in Ec. injection Ec as <-.
  unfold is_space in S. apply str_eqb_eq in S. change (lit " ") with [32%N] in S.
  destruct p as [x|nm|ds|ds]; [|exfalso..].
  - cbn in D1. now subst x.
  - destruct G1 as [(y & Ey & Xy) _]. cbn [value_char said] in S. rewrite Ey in S. injection S as ->. apply refers_ent in Ey.
    cbn in Ey. repeat (destruct Ey as [E|Ey]; [discriminate E|]). destruct Ey.
  - destruct G1 as [(y & Ey & Xy) _]. cbn [value_char said] in S. rewrite Ey in S. injection S as ->.
    pose proof (same_dec _ _ _ Ey Xy D1 eq_refl) as E. rewrite Ey in E. discriminate E.
  - now apply read_hex in D1.
Qed.

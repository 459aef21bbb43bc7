(** Texts that are escaped and decoded again and again. *)
From Coq Require Import List NArith Arith Bool Ascii String Lia.
From Verif Require Import Base Escape BaseFacts Spec EscapeFacts SpecEsc UnescFacts SpecCycle.
Import ListNotations.

Lemma width_snoc a c : width (a ++ [c]) = len_utf8 c.
Proof. unfold width. now rewrite last_last. Qed.
Lemma width_app a b : b <> [] -> width (a ++ b) = width b.
Proof. intro H. destruct (exists_last H) as (x & c & ->). now rewrite app_assoc, !width_snoc. Qed.

Section Set_.
Variable set : list char.
Hypothesis G : good_set set.
Notation E := (flat_map (escape_char set)).
Notation plain := (plain set).
Notation rereads := (rereads set).

Lemma plain_E x : plain x -> E x = x.
Proof. intro H. apply esc_no_special. intros c Hc Hi. now apply (H c Hi). Qed.
Lemma plain_amp x : plain x -> ~ In amp x.
Proof. intros H Hi. apply (H amp Hi). apply G. Qed.
Lemma plain_app a b : plain (a ++ b) <-> plain a /\ plain b.
Proof.
  split.
  - intro H. split; intros c Hc; apply H, in_or_app; auto.
  - intros [H1 H2] c Hc. apply in_app_or in Hc as [Hc|Hc]; auto.
Qed.
Lemma plain_cons c b : plain (c :: b) <-> ~ In c set /\ plain b.
Proof.
  split.
  - intro H. split; [apply H; now left|intros x Hx; apply H; now right].
  - intros [H1 H2] x [<-|Hx]; auto.
Qed.
(** The reference of a special character. *)
Lemma special c : In c set -> exists nm, entity nm c /\ escape_char set c = [amp] ++ nm ++ [semi] /\
  ~ In amp (nm ++ [semi]) /\ all_ascii (nm ++ [semi]) /\ 3 <= blen (nm ++ [semi]) /\ len_utf8 c = 1.
Proof.
  intro H. destruct (proj2 G c H) as (nm & Hn & He). exists nm. split; [now constructor|]. split.
  { specialize (He []). now rewrite !app_nil_r in He. }
  clear He. cbn in Hn. repeat (destruct Hn as [Hn|Hn]; [injection Hn as <- <-|]);
    try (split; [intro F; cbn in F; intuition discriminate|]; split; [repeat constructor|]; split; [cbn; lia|reflexivity]).
  easy.
Qed.
Lemma width_special c : In c set -> len_utf8 c = 1.
Proof. intro H. now destruct (special c H) as (nm & _ & _ & _ & _ & _ & E). Qed.
Lemma E_nil b : E b = [] -> b = [].
Proof.
  destruct b as [|c b]; [easy|]. cbn [flat_map]. destruct (in_dec N.eq_dec c set) as [H|H].
  - destruct (special c H) as (nm & _ & -> & _). discriminate.
  - rewrite escape_char_other by easy. discriminate.
Qed.
Lemma width_E b : width (E b) = width b.
Proof.
  destruct b as [|x b'] using rev_ind; [easy|]. rewrite flat_map_app. cbn [flat_map]. rewrite app_nil_r, width_snoc.
  destruct (in_dec N.eq_dec x set) as [H|H].
  - rewrite (width_special x H). destruct (special x H) as (nm & _ & -> & _). now rewrite !app_assoc, width_snoc.
  - rewrite escape_char_other by easy. apply width_snoc.
Qed.
(** The first special character. *)
Lemma split_special t : plain t \/ exists p c b, t = p ++ [c] ++ b /\ plain p /\ In c set.
Proof.
  induction t as [|c t IH]; [left; easy|]. destruct (in_dec N.eq_dec c set) as [H|H].
  - right. exists [], c, t. easy.
  - destruct IH as [IH|(p & k & b & -> & Hp & Hk)].
    + left. apply plain_cons. easy.
    + right. exists (c :: p), k, b. split; [easy|]. split; [now apply plain_cons|easy].
Qed.
(** At most [n] bytes of plain characters. *)
Lemma split_bytes n : forall b, (exists x y, b = x ++ y /\ plain x /\ blen x = n) \/
  (exists x s y, b = x ++ [s] ++ y /\ plain x /\ blen x < n /\ In s set) \/
  (exists x k y, b = x ++ [k] ++ y /\ plain x /\ ~ In k set /\ blen x < n < blen x + len_utf8 k) \/
  (plain b /\ blen b < n).
Proof.
  intro b. revert n. induction b as [|c b IH]; intro n.
  - destruct n; [left; now exists [], []|]. right. right. right. split; [easy|cbn; lia].
  - destruct n; [left; now exists [], (c :: b)|]. destruct (in_dec N.eq_dec c set) as [H|H].
    + right. left. exists [], c, b. repeat split; [easy|cbn; lia|easy].
    + pose proof (len_utf8_pos c) as L. destruct (le_lt_dec (len_utf8 c) (S n)) as [K|K].
      * destruct (IH (S n - len_utf8 c)) as [(x & y & -> & P & B)|[(x & s & y & -> & P & B & Hs)|[(x & k & y & -> & P & Hk & B)|[P B]]]].
        -- left. exists (c :: x), y. split; [easy|]. split; [now apply plain_cons|cbn [blen]; lia].
        -- right. left. exists (c :: x), s, y. split; [easy|]. split; [now apply plain_cons|]. cbn [blen]. split; [lia|easy].
        -- right. right. left. exists (c :: x), k, y. split; [easy|]. split; [now apply plain_cons|]. split; [easy|]. cbn [blen]. lia.
        -- right. right. right. split; [now apply plain_cons|cbn [blen]; lia].
      * right. right. left. exists [], c, b. cbn [blen]. repeat split; [easy|easy|lia|lia].
Qed.
Lemma rereads_total : forall n t w, blen t <= n -> t = [] \/ width t = w -> exists o, rereads w t o.
Proof.
  induction n as [|n IH]; intros t w L W.
  - destruct t as [|c t]; [exists (Some []); now constructor|]. cbn [blen] in L. pose proof (len_utf8_pos c). lia.
  - destruct (split_special t) as [P|(p & c & b & -> & P & Hc)]; [exists (Some t); now constructor|].
    assert (W' : forall a d, b = a ++ d -> d = [] \/ width d = w).
    { intros a d ->. destruct d as [|d0 d]; [now left|]. right. destruct W as [W|W]; [now destruct p|].
      now rewrite !app_assoc, width_app in W. }
    assert (L' : forall a d, b = a ++ d -> blen d <= n).
    { intros a d ->. rewrite !blen_app in L. cbn [blen] in L. pose proof (len_utf8_pos c). lia. }
    destruct (split_bytes (w - 1) b) as [(x & y & -> & P' & B)|[(x & s & y & -> & P' & B & Hs)|[(x & k & y & -> & P' & Hk & B)|[P' B]]]].
    + destruct (IH y w) as [o Ho]; [now apply (L' x)|now apply (W' x)|]. eexists. apply (rd_kept set w p c x y o); assumption.
    + destruct (IH y w) as [o Ho]; [apply (L' (x ++ [s])); now rewrite <- app_assoc|apply (W' (x ++ [s])); now rewrite <- app_assoc|].
      eexists. apply (rd_stuck set w p c x s y o); assumption.
    + exists None. apply (rd_cut set w p c x k y); assumption.
    + exfalso. destruct b as [|b' z] using rev_ind.
      * destruct W as [W|W]; [now destruct p|]. rewrite app_nil_r, width_snoc, (width_special c Hc) in W. cbn [blen] in B. lia.
      * destruct (W' [] (z ++ [b']) eq_refl) as [W1|W1]; [now destruct z|]. rewrite width_snoc in W1.
        rewrite blen_app in B. cbn [blen] in B. lia.
Qed.
Lemma width_after p c b w : In c set -> width (p ++ [c] ++ b) = w -> width ([c] ++ E b) = w.
Proof.
  intros Hc W. destruct b as [|b0 b'].
  - rewrite app_nil_r in *. now rewrite width_snoc in W.
  - rewrite width_app in W by easy. rewrite width_app in W by easy. rewrite width_app, width_E; [easy|]. intro F. apply E_nil in F. discriminate.
Qed.
Lemma width_last q : q <> [] -> exists a last, q = a ++ [last] /\ len_utf8 last = width q.
Proof. intro H. destruct (exists_last H) as (a & l & ->). exists a, l. split; [easy|]. symmetry. apply width_snoc. Qed.
Lemma ascii_split : forall s n, all_ascii s -> n <= blen s -> exists a b, s = a ++ b /\ blen a = n.
Proof.
  induction s as [|c s IH]; intros n H L.
  - exists [], []. cbn in *. split; [easy|lia].
  - inversion H as [|? ? H1 H2]; subst. cbn [blen] in L. rewrite (len_utf8_ascii c H1) in L. destruct n; [now exists [], (c :: s)|].
    destruct (IH n H2) as (a & b & -> & B); [lia|]. exists (c :: a), b. split; [easy|]. cbn [blen]. rewrite (len_utf8_ascii c H1). lia.
Qed.
Lemma no_cut (u v x y : str) k : u ++ v = x ++ [k] ++ y -> blen x < blen u < blen x + len_utf8 k -> False.
Proof.
  intros Eq L. apply app_eq_app in Eq as (l & [[-> Eq]|[-> Eq]]).
  - rewrite blen_app in L. destruct l as [|c l]; [cbn [blen] in L; lia|]. injection Eq as <- Eq. cbn [blen] in L. lia.
  - rewrite blen_app in L. lia.
Qed.
Lemma rereads_unescapes w t o : rereads w t o -> t = [] \/ width t = w ->
  forall z, ~ In amp z -> unescapes (z ++ E t) (option_map (fun r => z ++ r) o).
Proof.
  induction 1 as [t P|p c x b o P Hc P' B R IH|p c x s b o P Hc P' B Hs R IH|p c x k b P Hc P' Hk B]; intros W z Z.
  - rewrite plain_E by easy. apply un_end. intro Hi. apply in_app_or in Hi as [Hi|Hi]; [easy|]. now apply (plain_amp t).
  - destruct W as [W|W]; [now destruct p|].
    destruct (special c Hc) as (nm & He & Ec & Ha & Hs & Hl & Hw).
    rewrite !flat_map_app, (plain_E p), (plain_E x) by easy. cbn [flat_map]. rewrite Ec, app_nil_r.
    assert (Q : width ([c] ++ x ++ E b) = w).
    { rewrite <- (plain_E x P') at 1. rewrite <- flat_map_app. now apply (width_after p). }
    destruct (width_last ([c] ++ x ++ E b)) as (a & last & Eq & El); [easy|]. rewrite Q in El.
    assert (W1 : 1 <= w) by (rewrite <- El; apply len_utf8_pos).
    pose proof (un_go (z ++ p) ([amp] ++ nm ++ [semi] ++ x ++ E b) ([c] ++ x ++ E b) a last ([c] ++ x) (E b) o) as U.
    replace (z ++ p ++ ([amp] ++ nm ++ [semi]) ++ x ++ E b) with ((z ++ p) ++ [amp] ++ nm ++ [semi] ++ x ++ E b) by now rewrite <- !app_assoc.
    replace (option_map (fun r => z ++ r) (option_map (fun r => p ++ [c] ++ x ++ r) o))
      with (option_map (fun r => (z ++ p) ++ ([c] ++ x) ++ r) o) by (destruct o; cbn [option_map]; now rewrite <- ?app_assoc).
    apply U; [| |easy|now rewrite <- app_assoc| |].
    + intro Hi. apply in_app_or in Hi as [Hi|Hi]; [easy|]. now apply (plain_amp p).
    + now apply (rr_ref nm c).
    + rewrite blen_app, El, B. cbn [blen]. rewrite Hw. lia.
    + replace o with (option_map (fun r => [] ++ r) o) by now destruct o. apply (IH ltac:(
        destruct b as [|b0 b']; [now left|right]; rewrite !app_assoc, width_app in W; easy) []). easy.
  - destruct W as [W|W]; [now destruct p|].
    destruct (special c Hc) as (nm & He & Ec & Ha & Hz & Hl & Hw).
    destruct (special s Hs) as (nm' & He' & Ec' & Ha' & Hz' & Hl' & Hw').
    rewrite !flat_map_app, (plain_E p), (plain_E x) by easy. cbn [flat_map]. rewrite Ec, Ec', !app_nil_r.
    assert (Q : width ([c] ++ x ++ ([amp] ++ nm' ++ [semi]) ++ E b) = w).
    { pose proof (width_after p c (x ++ [s] ++ b) w Hc W) as K. rewrite !flat_map_app, (plain_E x P') in K. cbn [flat_map] in K.
      now rewrite Ec', app_nil_r in K. }
    destruct (width_last ([c] ++ x ++ ([amp] ++ nm' ++ [semi]) ++ E b)) as (a & last & Eq & El); [easy|]. rewrite Q in El.
    assert (W1 : w <= 4) by (rewrite <- El; apply len_utf8_le4).
    destruct (ascii_split (nm' ++ [semi]) (w - 2 - blen x) Hz' ltac:(lia)) as (z1 & z2 & Ez & Bz).
    pose proof (un_go (z ++ p) ([amp] ++ nm ++ [semi] ++ x ++ ([amp] ++ nm' ++ [semi]) ++ E b)
      ([c] ++ x ++ ([amp] ++ nm' ++ [semi]) ++ E b) a last ([c] ++ x ++ [amp] ++ z1) (z2 ++ E b) (option_map (fun r => z2 ++ r) o)) as U.
    replace (z ++ p ++ ([amp] ++ nm ++ [semi]) ++ x ++ ([amp] ++ nm' ++ [semi]) ++ E b)
      with ((z ++ p) ++ [amp] ++ nm ++ [semi] ++ x ++ ([amp] ++ nm' ++ [semi]) ++ E b) by now rewrite <- !app_assoc.
    replace (option_map (fun r => z ++ r) (option_map (fun r => p ++ [c] ++ x ++ ([amp] ++ nm' ++ [semi]) ++ r) o))
      with (option_map (fun r => (z ++ p) ++ ([c] ++ x ++ [amp] ++ z1) ++ r) (option_map (fun r => z2 ++ r) o)).
    2: { destruct o as [r|]; cbn [option_map]; [|easy]. rewrite Ez, <- !app_assoc. reflexivity. }
    apply U; [| |easy| | |].
    + intro Hi. apply in_app_or in Hi as [Hi|Hi]; [easy|]. now apply (plain_amp p).
    + now apply (rr_ref nm c).
    + rewrite Ez, <- !app_assoc. reflexivity.
    + rewrite !blen_app, Bz, El. cbn [blen]. rewrite Hw. change (len_utf8 amp) with 1. lia.
    + apply IH.
      * destruct b as [|b0 b']; [now left|right]. rewrite !app_assoc, width_app in W; easy.
      * intro Hi. apply Ha'. rewrite Ez. apply in_or_app. now right.
  - destruct W as [W|W]; [now destruct p|].
    destruct (special c Hc) as (nm & He & Ec & Ha & Hs & Hl & Hw).
    rewrite !flat_map_app, (plain_E p), (plain_E x) by easy. cbn [flat_map]. rewrite Ec, (escape_char_other set k Hk), !app_nil_r.
    assert (Q : width ([c] ++ x ++ [k] ++ E b) = w).
    { pose proof (width_after p c (x ++ [k] ++ b) w Hc W) as K. rewrite !flat_map_app, (plain_E x P') in K. cbn [flat_map] in K.
      now rewrite (escape_char_other set k Hk), app_nil_r in K. }
    destruct (width_last ([c] ++ x ++ [k] ++ E b)) as (a & last & Eq & El); [easy|]. rewrite Q in El.
    replace (z ++ p ++ ([amp] ++ nm ++ [semi]) ++ x ++ [k] ++ E b) with ((z ++ p) ++ [amp] ++ nm ++ [semi] ++ x ++ [k] ++ E b) by now rewrite <- !app_assoc.
    apply (un_cut (z ++ p) ([amp] ++ nm ++ [semi] ++ x ++ [k] ++ E b) ([c] ++ x ++ [k] ++ E b) a last); [| |easy|].
    + intro Hi. apply in_app_or in Hi as [Hi|Hi]; [easy|]. now apply (plain_amp p).
    + now apply (rr_ref nm c).
    + intros u v Eu Bu. rewrite El in Bu. apply (no_cut u v ([c] ++ x) (E b) k); [now rewrite <- app_assoc|].
      rewrite blen_app, Bu. cbn [blen]. rewrite Hw. lia.
Qed.

(** The name of a reference is plain. *)
Lemma special_char c : In c set -> In c [38; 60; 62; 39; 34]%N.
Proof.
  intro H. destruct (proj2 G c H) as (nm & Hn & _). cbn in Hn.
  repeat (destruct Hn as [Hn|Hn]; [injection Hn as _ <-; cbn; tauto|]). easy.
Qed.
Lemma special_plain c : In c set -> exists nm, escape_char set c = [amp] ++ nm /\ plain nm /\ 3 <= blen nm.
Proof.
  intro H. destruct (proj2 G c H) as (nm & Hn & He). specialize (He []). rewrite !app_nil_r in He. exists (nm ++ [semi]). split; [easy|].
  clear He. split.
  - intros k Hk F. apply special_char in F. cbn in Hn, F.
    repeat (destruct Hn as [Hn|Hn]; [injection Hn as <- _; cbn in Hk; intuition (subst; discriminate)|]). easy.
  - cbn in Hn. repeat (destruct Hn as [Hn|Hn]; [injection Hn as <- _; cbn; lia|]). easy.
Qed.
Theorem again_exact t : (forall r, unescape (E t) = Ok r <-> rereads (width t) t (Some r)) /\
  (unescape (E t) = Panic <-> rereads (width t) t None).
Proof.
  assert (K : forall o, rereads (width t) t o -> unescapes (E t) o).
  { intros o R. replace o with (option_map (fun r => [] ++ r) o) by now destruct o.
    apply (rereads_unescapes (width t) t o R (or_intror eq_refl) []). easy. }
  destruct (rereads_total _ t (width t) (le_n _) (or_intror eq_refl)) as [o Ho]. pose proof (K o Ho) as U.
  destruct (unescape_exact (E t)) as [X1 X2]. split; [intro r|]; split; intro H.
  - destruct o as [r'|]; [|apply X2 in U; congruence]. apply X1 in U. rewrite U in H. now injection H as ->.
  - apply X1. now apply K.
  - destruct o as [r'|]; [apply X1 in U; congruence|easy].
  - apply X2. now apply K.
Qed.

(** * Texts that survive *)

Lemma rereads_escaped w t o : rereads w t o -> forall r, o = Some r -> some_escaped set t r.
Proof.
  assert (S0 : forall x a b, some_escaped set a b -> some_escaped set (x ++ a) (x ++ b)).
  { induction x as [|c x IH]; intros a b H; [easy|]. cbn. constructor. now apply IH. }
  assert (S1 : forall x, some_escaped set x x) by (induction x; now constructor).
  induction 1 as [t P|p c x b o P Hc P' B R IH|p c x s b o P Hc P' B Hs R IH|p c x k b P Hc P' Hk B]; intros r Eq.
  - now injection Eq as <-.
  - destruct o as [r'|]; [|discriminate]. injection Eq as <-. apply S0. cbn [app]. apply se_same. apply S0. now apply IH.
  - destruct o as [r'|]; [|discriminate]. injection Eq as <-. apply S0. cbn [app]. apply se_same. apply S0. cbn [app]. apply se_esc; [easy|]. now apply IH.
  - discriminate.
Qed.
Lemma escaped_size t r : some_escaped set t r -> r = t \/ blen t + 3 <= blen r.
Proof.
  induction 1 as [|c t r H IH|c t r Hc H IH]; [now left| |].
  - destruct IH as [->|IH]; [now left|right]. cbn [blen]. lia.
  - right. destruct (special_plain c Hc) as (nm & -> & _ & L). rewrite !blen_app. cbn [blen]. rewrite (width_special c Hc).
    change (len_utf8 amp) with 1. destruct IH as [->|IH]; lia.
Qed.
Lemma plain_not_in x c : plain x -> In c set -> ~ In c x.
Proof. intros P Hc Hi. now apply (P c Hi). Qed.
(** Where a plain text is followed by a special character. *)
Lemma first_special (p x : str) c k (b y : str) : plain p -> In c set -> plain x -> In k set -> p ++ [c] ++ b = x ++ [k] ++ y -> p = x /\ c = k /\ b = y.
Proof.
  revert x. induction p as [|p0 p IH]; intros [|x0 x] P Hc X Hk Eq; cbn in Eq; injection Eq as E1 E2.
  - easy.
  - subst x0. apply plain_cons in X. now destruct X as [X _].
  - subst p0. apply plain_cons in P. now destruct P as [P _].
  - subst x0. apply plain_cons in P. apply plain_cons in X. destruct (IH x) as (-> & -> & ->); easy.
Qed.
Definition spaced_by (w : nat) (t : str) : Prop :=
  forall a c b, t = a ++ [c] ++ b -> In c set -> exists x y, b = x ++ y /\ blen x = w - 1 /\ plain x.
Lemma rereads_spaced w t o : rereads w t o -> o = Some t -> spaced_by w t.
Proof.
  induction 1 as [t P|p c x b o P Hc P' B R IH|p c x s b o P Hc P' B Hs R IH|p c x k b P Hc P' Hk B]; intro Eq.
  - intros a c b -> Hc. exfalso. apply (P c); [|easy]. apply in_or_app. right. now left.
  - destruct o as [r'|]; [|discriminate]. injection Eq as Eq. apply app_inv_head in Eq. injection Eq as Eq. apply app_inv_head in Eq.
    subst r'. specialize (IH eq_refl). intros a k y Et Hk.
    change (p ++ [c] ++ x ++ b) with (p ++ (c :: x) ++ b) in Et. rewrite app_assoc in Et.
    apply app_eq_app in Et as (l & [[E1 E2]|[E1 E2]]).
    + destruct l as [|l0 l].
      * cbn [app] in E2. apply (IH [] k y); [easy|easy].
      * injection E2 as <- E2. apply app_eq_app in E1 as (m & [[E3 E4]|[E3 E4]]).
        -- destruct m as [|m0 m].
           ++ cbn [app] in E4. injection E4 as _ E4. subst l. exists x, b. easy.
           ++ exfalso. injection E4 as <- E4. apply (P k); [rewrite E3; apply in_or_app; right; now left|easy].
        -- destruct m as [|m0 m].
           ++ cbn [app] in E4. injection E4 as _ E4. subst l. exists x, b. easy.
           ++ exfalso. injection E4 as <- E4. apply (P' k); [rewrite E4; apply in_or_app; right; now left|easy].
    + apply (IH l k y); [exact E2|easy].
  - destruct o as [r'|]; [|discriminate]. exfalso. injection Eq as Eq. apply app_inv_head in Eq. injection Eq as Eq. apply app_inv_head in Eq.
    pose proof (rereads_escaped _ _ _ R r' eq_refl) as F. apply escaped_size in F.
    apply (f_equal blen) in Eq. rewrite blen_app in Eq. destruct (special_plain s Hs) as (nm & Es & _ & L). rewrite Es, blen_app in Eq.
    cbn [blen app] in Eq. rewrite (width_special s Hs) in Eq. change (len_utf8 amp) with 1 in Eq. destruct F as [->|F]; lia.
  - discriminate.
Qed.
Lemma spaced_rereads w : forall n t, List.length t <= n -> spaced_by w t -> rereads w t (Some t).
Proof.
  induction n as [|n IH]; intros t L H.
  - destruct t; [now constructor|cbn in L; lia].
  - destruct (split_special t) as [P|(p & c & b & -> & P & Hc)]; [now constructor|].
    destruct (H p c b eq_refl Hc) as (x & y & -> & B & X).
    change (Some (p ++ [c] ++ x ++ y)) with (option_map (fun r => p ++ [c] ++ x ++ r) (Some y)).
    apply rd_kept; try easy. apply IH; [rewrite !app_length in L; cbn in L; lia|].
    intros a k z -> Hk. apply (H (p ++ [c] ++ x ++ a) k z); [now rewrite <- !app_assoc|easy].
Qed.
Theorem survives_spaced t : unescape (E t) = Ok t <-> spaced set t.
Proof.
  destruct (again_exact t) as [X _]. rewrite X. split; intro H.
  - now apply (rereads_spaced (width t) t (Some t)).
  - now apply (spaced_rereads (width t) (List.length t)).
Qed.

(** * Again and again *)

Lemma rereads_prefix w z b o : plain z -> rereads w b o -> rereads w (z ++ b) (option_map (fun r => z ++ r) o).
Proof.
  intros Z [t P|p c x b' o' P Hc P' B R|p c x s b' o' P Hc P' B Hs R|p c x k b' P Hc P' Hk B].
  - cbn [option_map]. apply rd_plain. now apply plain_app.
  - rewrite app_assoc. replace (option_map _ (option_map _ o')) with (option_map (fun r => (z ++ p) ++ [c] ++ x ++ r) o')
      by (destruct o'; cbn [option_map]; now rewrite <- ?app_assoc). apply rd_kept; try easy. now apply plain_app.
  - rewrite app_assoc. replace (option_map _ (option_map _ o')) with (option_map (fun r => (z ++ p) ++ [c] ++ x ++ escape_char set s ++ r) o')
      by (destruct o'; cbn [option_map]; now rewrite <- ?app_assoc). apply rd_stuck; try easy. now apply plain_app.
  - rewrite app_assoc. cbn [option_map]. apply rd_cut; try easy. now apply plain_app.
Qed.
Lemma escape_amp : escape_char set amp = lit "&amp;".
Proof.
  pose proof (proj1 G) as H. unfold escape_char. replace (existsb (N.eqb amp) set) with true; [reflexivity|].
  symmetry. apply existsb_exists. exists amp. split; [easy|reflexivity].
Qed.
Lemma rereads_again w t o : rereads w t o -> forall r, o = Some r -> exists r', rereads w r (Some r') /\
  (r = t /\ r' = r \/ blen t + 3 <= blen r /\ blen r + 4 <= blen r').
Proof.
  induction 1 as [t P|p c x b o P Hc P' B R IH|p c x s b o P Hc P' B Hs R IH|p c x k b P Hc P' Hk B]; intros r Eq.
  - injection Eq as <-. exists t. split; [now constructor|now left].
  - destruct o as [rb|]; [|discriminate]. assert (r = p ++ [c] ++ x ++ rb) as -> by now injection Eq as <-. destruct (IH rb eq_refl) as (r' & R' & D).
    exists (p ++ [c] ++ x ++ r'). split.
    + apply (rd_kept set w p c x rb (Some r')); easy.
    + destruct D as [[-> ->]|[D1 D2]]; [now left|right]. rewrite !blen_app. lia.
  - destruct o as [rb|]; [|discriminate]. assert (r = p ++ [c] ++ x ++ escape_char set s ++ rb) as -> by now injection Eq as <-. destruct (IH rb eq_refl) as (r' & R' & D).
    destruct (special_plain s Hs) as (nm & -> & Hn & Ln).
    pose proof (rereads_prefix w nm rb (Some r') Hn R') as R2.
    pose proof (rd_stuck set w p c x amp (nm ++ rb) (Some (nm ++ r')) P Hc P' B (proj1 G) R2) as R3. cbn [option_map] in R3.
    exists (p ++ [c] ++ x ++ escape_char set amp ++ nm ++ r'). split.
    + replace (p ++ [c] ++ x ++ ([amp] ++ nm) ++ rb) with (p ++ [c] ++ x ++ [amp] ++ nm ++ rb) by now rewrite <- !app_assoc. exact R3.
    + right. rewrite escape_amp, !blen_app. cbn [blen]. rewrite (width_special s Hs). change (len_utf8 amp) with 1.
      change (blen (lit "&amp;")) with 5. destruct D as [[-> ->]|[D1 D2]]; lia.
  - discriminate.
Qed.
Lemma rereads_width t r : rereads (width t) t (Some r) -> width r = width t.
Proof.
  intro R. apply rereads_escaped with (r := r) in R; [|easy].
  destruct t as [|k t'] using rev_ind; [now inversion R|].
  assert (S0 : forall a b, some_escaped set (a ++ [k]) b -> exists b', b = b' ++ [k] \/ In k set /\ b = b' ++ escape_char set k).
  { induction a as [|c a IH]; intros b H; cbn in H; inversion H as [|c' t r' H'|c' t r' Hc H']; subst.
    - inversion H'. exists []. now left.
    - inversion H'. exists []. right. split; [easy|now rewrite app_nil_r].
    - destruct (IH _ H') as (b' & [->|[Hk ->]]); exists (c :: b'); [now left|now right].
    - destruct (IH _ H') as (b' & [->|[Hk ->]]); exists (escape_char set c ++ b'); [left|right]; now rewrite <- app_assoc. }
  destruct (S0 _ _ R) as (b' & [->|[Hk ->]]); [now rewrite !width_snoc|]. rewrite width_snoc, (width_special k Hk).
  destruct (special k Hk) as (nm & _ & -> & _). now rewrite !app_assoc, width_snoc.
Qed.
(** Escaped and decoded *)
Notation again := (fun t => unescape (E t)).
Lemma repeated_grows : forall n t r, rereads (width t) t (Some r) -> r <> t ->
  exists r', times again n r = Ok r' /\ blen r + 4 * n <= blen r'.
Proof.
  induction n as [|n IH]; intros t r R N.
  - exists r. split; [easy|lia].
  - destruct (rereads_again _ _ _ R r eq_refl) as (r1 & R1 & [[? _]|[D1 D2]]); [easy|].
    rewrite <- (rereads_width t r R) in R1. cbn [times]. rewrite (proj2 (proj1 (again_exact r) r1) R1). cbn [bind].
    destruct (IH r r1 R1) as (r' & E' & L'); [intros ->; lia|]. exists r'. split; [easy|lia].
Qed.
Theorem repeated_cases t :
  (forall n, times again n t = Ok t) \/ (forall n, times again (S n) t = Panic) \/
  (forall n, exists r, times again n t = Ok r /\ blen t + 3 * n <= blen r).
Proof.
  destruct (rereads_total _ t (width t) (le_n _) (or_intror eq_refl)) as [[r|] R].
  - destruct (list_eq_dec N.eq_dec r t) as [->|N].
    + left. induction n as [|n IH]; [easy|]. cbn [times]. now rewrite (proj2 (proj1 (again_exact t) t) R).
    + right. right. intros [|n]; [exists t; split; [easy|lia]|]. cbn [times]. rewrite (proj2 (proj1 (again_exact t) r) R). cbn [bind].
      destruct (repeated_grows n t r R N) as (r' & E' & L'). exists r'. split; [easy|].
      pose proof (escaped_size t r (rereads_escaped _ _ _ R r eq_refl)) as [?|?]; [easy|lia].
  - right. left. intro n. cbn [times]. now rewrite (proj2 (proj2 (again_exact t)) R).
Qed.
End Set_.

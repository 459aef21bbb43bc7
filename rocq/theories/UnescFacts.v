(** [unescape] computes exactly [unescapes]. *)
From Coq Require Import List NArith Arith Bool Ascii String Lia.
From Verif Require Import Base Escape BaseFacts Spec EscapeFacts SpecEsc.
Import ListNotations.

Lemma last_size_last q a last cs : q = a ++ [last] -> last_size q cs = len_utf8 last.
Proof. intros ->. apply last_size_snoc. Qed.
Lemma last_size_in q cs : q <> [] -> exists a last, q = a ++ [last] /\ last_size q cs = len_utf8 last.
Proof.
  intro H. destruct (exists_last H) as (a & last & ->). exists a, last. split; [easy|apply last_size_snoc].
Qed.
(** The reference at an '&'. *)
Lemma scan_read d t : exists q',
  reference_read (amp :: t) q' /\ q' <> [] /\ blen q' <= blen (amp :: t) /\
  unescape_scan (blen d) (amp :: t) (amp :: t) 0 (d ++ amp :: t) 1 = Ok (d ++ q', last_size q' 1).
Proof.
  destruct (split_semi t) as [[[a b] [E Hns]]|Hns]; cbn [fst snd] in *.
  - subst t. change (amp :: a ++ semi :: b) with ((amp :: a) ++ semi :: b) in *.
    rewrite scan_first; [|intros [F|F]; [discriminate|easy]|reflexivity].
    destruct (ref_char (amp :: a)) as [c|] eqn:R.
    + apply ref_char_spec in R. exists (c :: b). split; [exact (rr_ref a c b R)|]. split; [easy|]. split; [|reflexivity].
      apply entity_len in R. rewrite !blen_app. cbn [blen]. change (len_utf8 semi) with 1. change (len_utf8 amp) with 1. lia.
    + exists ((amp :: a) ++ semi :: b). split; [|split; [easy|]].
      * apply (rr_lone (a ++ semi :: b)). intros nm c s' He E.
        pose proof He as Hns'. apply entity_no_semi in Hns'. apply no_semi_split in E as [-> _]; try easy.
        apply ref_char_spec in He. congruence.
      * split; [easy|]. f_equal. f_equal. clear. cbn [app last_size]. revert a. generalize (len_utf8 amp) as cs.
        intros cs a. revert cs. induction a as [|x a IH]; intro cs; cbn [app last_size]; [reflexivity|apply IH].
  - rewrite scan_no_semi by (intros [F|F]; [discriminate|easy]).
    exists (amp :: t). split; [|easy]. apply rr_lone. intros nm c s' _ ->. apply Hns. apply in_or_app. right. now left.
Qed.
Lemma reference_amp q q' : reference_read q q' -> exists t, q = amp :: t.
Proof. intros [nm c s H|s H]; now eexists. Qed.
Lemma reference_read_fun q q1 q2 : reference_read q q1 -> reference_read q q2 -> q1 = q2.
Proof.
  intros [nm c s H|s H] H2.
  - inversion H2 as [nm' c' s' H' E|s' H' E]; subst.
    + pose proof (entity_no_semi _ _ H). pose proof (entity_no_semi _ _ H').
      apply no_semi_split in E as [-> ->]; try easy. f_equal. now apply (entity_fun nm).
    + exfalso. now apply (H' nm c s).
  - inversion H2 as [nm' c' s' H' E|s' H' E]; subst; [|easy]. exfalso. now apply (H nm' c' s').
Qed.
Lemma unescapes_loop : forall t o, unescapes t o -> forall fuel d, blen t < fuel ->
  unescape_loop fuel (d ++ t) (blen d) = match o with Some r => Ok (d ++ r) | None => Panic end.
Proof.
  induction 1 as [t H|p q q' a last u v o Hp R E1 E2 L U IH|p q q' a last Hp R E1 C]; intros fuel d F.
  - destruct fuel; [lia|]. now apply unescape_step.
  - destruct fuel as [|fuel]; [lia|]. destruct (reference_amp _ _ R) as [t ->].
    rewrite unescape_step_amp by easy. destruct (scan_read (d ++ p) t) as (q2 & R2 & N2 & B2 & ->). cbn [bind fst snd].
    rewrite (reference_read_fun _ _ _ R2 R) in *. rewrite (last_size_last _ _ _ _ E1), <- L, E2.
    rewrite <- blen_app, app_assoc. rewrite IH.
    + destruct o; cbn [option_map]; [|easy]. now rewrite <- !app_assoc.
    + rewrite E2, blen_app, L in B2. rewrite blen_app in F. pose proof (len_utf8_pos last). lia.
  - destruct fuel as [|fuel]; [lia|]. destruct (reference_amp _ _ R) as [t ->].
    rewrite unescape_step_amp by easy. destruct (scan_read (d ++ p) t) as (q2 & R2 & N2 & B2 & ->). cbn [bind fst snd].
    rewrite (reference_read_fun _ _ _ R2 R) in *. rewrite (last_size_last _ _ _ _ E1).
    destruct fuel as [|fuel]. { rewrite blen_app in F. cbn [blen] in F. pose proof (len_utf8_pos amp). lia. }
    cbn [unescape_loop]. destruct (Nat.leb_spec (blen ((d ++ p) ++ q')) (blen (d ++ p) + len_utf8 last)) as [K|K].
    { exfalso. rewrite E1, !blen_app in K. cbn [blen] in K. assert (a = []) as ->.
      { destruct a as [|x a]; [easy|]. cbn [blen] in K. pose proof (len_utf8_pos x). lia. }
      apply (C [last] []); [now rewrite E1|]. cbn [blen]. lia. }
    unfold slice_from. destruct (bskip (blen (d ++ p) + len_utf8 last) ((d ++ p) ++ q')) as [r|] eqn:B; [|easy].
    exfalso. apply bskip_inv in B as (x & Eu & Lu). apply app_eq_app in Eu as (l & [[E3 E4]|[E3 E4]]).
    + rewrite E3, blen_app in Lu. assert (l = []) as ->.
      { destruct l as [|y l]; [easy|]. cbn [blen] in Lu. pose proof (len_utf8_pos y). lia. }
      cbn [blen] in Lu. pose proof (len_utf8_pos last). lia.
    + apply (C l r E4). rewrite E3, blen_app in Lu. lia.
Qed.
Lemma unescapes_total : forall n t, blen t <= n -> exists o, unescapes t o.
Proof.
  induction n as [|n IH]; intros t L.
  - destruct t as [|c t]; [exists (Some []); now constructor|]. cbn [blen] in L. pose proof (len_utf8_pos c). lia.
  - destruct (split_amp t) as [(p & s & -> & Hp)|H]; [|exists (Some t); now constructor].
    destruct (scan_read [] s) as (q' & R & N & B & _). destruct (exists_last N) as (a & last & E).
    destruct (bskip (len_utf8 last) q') as [v|] eqn:K.
    + apply bskip_inv in K as (u & Eu & Lu). destruct (IH v) as [o Ho].
      { rewrite Eu, blen_app in B. rewrite blen_app in L. pose proof (len_utf8_pos last). lia. }
      eexists. eapply un_go; eassumption.
    + exists None. eapply un_cut; try eassumption. intros u v Eu Lu. rewrite Eu, <- Lu, bskip_app in K. discriminate.
Qed.
Theorem unescape_exact t : (forall r, unescape t = Ok r <-> unescapes t (Some r)) /\ (unescape t = Panic <-> unescapes t None).
Proof.
  assert (K : forall o, unescapes t o -> unescape t = match o with Some r => Ok r | None => Panic end).
  { intros o H. unfold unescape. exact (unescapes_loop t o H (S (blen t)) [] ltac:(lia)). }
  destruct (unescapes_total _ t (le_n _)) as [o Ho]. pose proof (K o Ho) as E. split; [intro r|]; split; intro H.
  - rewrite E in H. destruct o; [|discriminate]. now injection H as ->.
  - exact (K _ H).
  - rewrite E in H. now destruct o.
  - exact (K _ H).
Qed.

Lemma refs_replaced_app p t r : refs_replaced t r -> refs_replaced (p ++ t) (p ++ r).
Proof.
  induction 1 as [t|a nm c b r H1 H2 IH]; [constructor|]. rewrite app_assoc. eapply re_ref; [exact H1|]. now rewrite <- app_assoc.
Qed.
Lemma refs_replaced_trans a b c : refs_replaced a b -> refs_replaced b c -> refs_replaced a c.
Proof. induction 1 as [t|x nm k y r H1 H2 IH]; [easy|]. intro H. eapply re_ref; [exact H1|]. now apply IH. Qed.
Lemma unescapes_replaced t o : unescapes t o -> forall r, o = Some r -> refs_replaced t r.
Proof.
  induction 1 as [t H|p q q' a last u v o Hp R E1 E2 L U IH|p q q' a last Hp R E1 C]; intros r E; try discriminate.
  - injection E as <-. constructor.
  - destruct o as [r'|]; [|discriminate]. injection E as <-. apply refs_replaced_app.
    assert (K : refs_replaced q q').
    { destruct R as [nm c s He|s _]; [|constructor]. eapply (re_ref [] nm c s); [exact He|]. constructor. }
    apply (refs_replaced_trans _ _ _ K). rewrite E2. apply refs_replaced_app. now apply IH.
Qed.
Lemma unescape_replaced t r : unescape t = Ok r -> refs_replaced t r.
Proof. intro H. apply unescape_exact in H. now apply (unescapes_replaced _ _ H). Qed.
Lemma refs_replaced_nonempty t r : refs_replaced t r -> t <> [] -> r <> [].
Proof. induction 1 as [t|a nm c b r H1 H2 IH]; [easy|]. intros _. apply IH. now destruct a. Qed.
Lemma entity_scalar nm c : entity nm c -> scalar c.
Proof.
  intros [nm' c' H|h c' _ H|h c' _ H]; try easy. unfold scalar. cbn in H.
  repeat (destruct H as [E|H]; [injection E as _ <-; lia|]). easy.
Qed.
Lemma refs_replaced_scalar t r : refs_replaced t r -> Forall scalar t -> Forall scalar r.
Proof.
  induction 1 as [t|a nm c b r H1 H2 IH]; [easy|]. intro H. apply IH.
  rewrite !Forall_app in H. destruct H as (A & _ & _ & _ & B). rewrite !Forall_app. split; [easy|]. split; [|easy].
  constructor; [|constructor]. now apply entity_scalar in H1.
Qed.

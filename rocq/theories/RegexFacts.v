(** Correctness of the regex engine model: [is_match r s] holds exactly when some
    substring of [s] belongs to the language of [r]. *)
From Coq Require Import List NArith Arith Bool Lia.
From Verif Require Import Base BaseFacts Regex Parse.
Import ListNotations.

(** The language of a pattern. *)
Inductive matches : re -> str -> Prop :=
| m_eps : matches REps []
| m_cls k c : cls_in k c = true -> matches (RCls k) [c]
| m_seq a b s t : matches a s -> matches b t -> matches (RSeq a b) (s ++ t)
| m_alt_l a b s : matches a s -> matches (RAlt a b) s
| m_alt_r a b s : matches b s -> matches (RAlt a b) s
| m_star_nil a : matches (RStar a) []
| m_star_cons a s t : matches a s -> matches (RStar a) t -> matches (RStar a) (s ++ t).

Lemma range_eqb_eq a b : range_eqb a b = true -> a = b.
Proof.
  destruct a as [a1 a2], b as [b1 b2]; unfold range_eqb; cbn. intro H.
  apply andb_true_iff in H. destruct H as [H1 H2].
  apply N.eqb_eq in H1, H2. congruence.
Qed.

Lemma list_eqb_eq {A} (eqb : A -> A -> bool) (H : forall x y, eqb x y = true -> x = y) :
  forall l1 l2, list_eqb eqb l1 l2 = true -> l1 = l2.
Proof.
  induction l1 as [|x l1 IH]; intros [|y l2]; cbn; intro E; try easy.
  apply andb_true_iff in E. destruct E as [E1 E2].
  apply H in E1. apply IH in E2. congruence.
Qed.

Lemma cls_eqb_eq a b : cls_eqb a b = true -> a = b.
Proof.
  destruct a as [n1 r1], b as [n2 r2]; unfold cls_eqb; cbn. intro H.
  apply andb_true_iff in H. destruct H as [H1 H2].
  apply Bool.eqb_prop in H1. apply (list_eqb_eq _ range_eqb_eq) in H2. congruence.
Qed.

Lemma re_eqb_eq a : forall b, re_eqb a b = true -> a = b.
Proof.
  induction a; intros [| |k'|x y|x y|x]; cbn; intro H; try easy.
  - apply cls_eqb_eq in H. congruence.
  - apply andb_true_iff in H. destruct H as [H1 H2]. apply IHa1 in H1. apply IHa2 in H2. congruence.
  - apply andb_true_iff in H. destruct H as [H1 H2]. apply IHa1 in H1. apply IHa2 in H2. congruence.
  - apply IHa in H. congruence.
Qed.

Lemma in_dedup x l : In x (dedup l) <-> In x l.
Proof.
  induction l as [|r l IH]; [easy|]. cbn [dedup].
  destruct (existsb (re_eqb r) (dedup l)) eqn:E.
  - rewrite IH. split; [now right|]. intros [<-|H]; [|easy].
    apply existsb_exists in E. destruct E as (y & Hy & E). apply re_eqb_eq in E. subst y.
    now apply IH.
  - cbn. now rewrite IH.
Qed.

Lemma matches_seq_inv a b s : matches (RSeq a b) s ->
  exists s1 s2, s = s1 ++ s2 /\ matches a s1 /\ matches b s2.
Proof. intro H. inversion H as [| |? ? s1 s2 H1 H2| | | |]; subst. now exists s1, s2. Qed.
Lemma matches_alt_inv a b s : matches (RAlt a b) s -> matches a s \/ matches b s.
Proof. intro H. inversion H; subst; auto. Qed.
Lemma matches_eps_inv s : matches REps s -> s = [].
Proof. intro H. now inversion H. Qed.
Lemma matches_cls_inv k s : matches (RCls k) s -> exists c, s = [c] /\ cls_in k c = true.
Proof. intro H. inversion H as [|? c| | | | |]; subst. now exists c. Qed.
Lemma matches_none_inv s : ~ matches RNone s.
Proof. intro H. inversion H. Qed.

(** A non-empty word of a star starts with a non-empty word of its body. *)
Lemma matches_star_inv a s : matches (RStar a) s ->
  s = [] \/ exists s1 s2, s1 <> [] /\ s = s1 ++ s2 /\ matches a s1 /\ matches (RStar a) s2.
Proof.
  intro H. remember (RStar a) as r eqn:E.
  induction H as [| | | | |x|x s1 s2 H1 _ H2 IH]; try discriminate.
  - now left.
  - injection E as ->. destruct s1 as [|c s1].
    + now apply IH.
    + right. exists (c :: s1), s2. easy.
Qed.

Lemma nullable_spec r : nullable r = true <-> matches r [].
Proof.
  induction r; cbn.
  - split; [easy|]. intro H. now apply matches_none_inv in H.
  - split; [constructor|easy].
  - split; [easy|]. intro H. apply matches_cls_inv in H. now destruct H as (c & E & _).
  - rewrite andb_true_iff, IHr1, IHr2. split.
    + intros [H1 H2]. now apply (m_seq r1 r2 [] []).
    + intro H. apply matches_seq_inv in H. destruct H as (s1 & s2 & E & H1 & H2).
      symmetry in E. apply app_eq_nil in E. destruct E; subst. easy.
  - rewrite orb_true_iff, IHr1, IHr2. split.
    + intros [H|H]; [now apply m_alt_l|now apply m_alt_r].
    + apply matches_alt_inv.
  - split; [constructor|easy].
Qed.

Lemma rseq_matches a b s : matches (rseq a b) s <-> matches (RSeq a b) s.
Proof.
  destruct a; cbn; try easy. split; intro H.
  - now apply (m_seq REps b [] s); [constructor|].
  - apply matches_seq_inv in H. destruct H as (s1 & s2 & -> & H1 & H2).
    apply matches_eps_inv in H1. now subst.
Qed.

Lemma pd_spec c r : forall s, matches r (c :: s) <-> exists r', In r' (pd c r) /\ matches r' s.
Proof.
  induction r as [| |k|a IHa b IHb|a IHa b IHb|a IHa]; intro s; cbn.
  - split; [intro H; now apply matches_none_inv in H|now intros (r' & [] & _)].
  - split; [intro H; now apply matches_eps_inv in H|now intros (r' & [] & _)].
  - split.
    + intro H. apply matches_cls_inv in H. destruct H as (c' & E & H). injection E as -> ->.
      rewrite H. exists REps. split; [now left|constructor].
    + intros (r' & Hr & Hm). destruct (cls_in k c) eqn:E; [|easy].
      destruct Hr as [<-|[]]. apply matches_eps_inv in Hm. subst s. now constructor.
  - split.
    + intro H. apply matches_seq_inv in H. destruct H as (s1 & s2 & E & H1 & H2).
      destruct s1 as [|x s1].
      * cbn in E. subst s2. rewrite (proj2 (nullable_spec a) H1).
        apply IHb in H2. destruct H2 as (r' & Hr & Hm). exists r'. split; [|easy].
        apply in_or_app. now right.
      * injection E as <- ->. apply IHa in H1. destruct H1 as (r' & Hr & Hm).
        exists (rseq r' b). split.
        -- apply in_or_app. left. now apply (in_map (fun a' => rseq a' b)).
        -- apply rseq_matches. now constructor.
    + intros (r' & Hr & Hm). apply in_app_or in Hr. destruct Hr as [Hr|Hr].
      * apply in_map_iff in Hr. destruct Hr as (a' & <- & Ha). apply rseq_matches in Hm.
        apply matches_seq_inv in Hm. destruct Hm as (s1 & s2 & -> & H1 & H2).
        apply (m_seq a b (c :: s1) s2); [|easy]. apply IHa. now exists a'.
      * destruct (nullable a) eqn:E; [|easy]. apply nullable_spec in E.
        apply (m_seq a b [] (c :: s)); [easy|]. apply IHb. now exists r'.
  - split.
    + intro H. apply matches_alt_inv in H. destruct H as [H|H].
      * apply IHa in H. destruct H as (r' & Hr & Hm). exists r'. split; [|easy].
        apply in_or_app. now left.
      * apply IHb in H. destruct H as (r' & Hr & Hm). exists r'. split; [|easy].
        apply in_or_app. now right.
    + intros (r' & Hr & Hm). apply in_app_or in Hr. destruct Hr as [Hr|Hr].
      * apply m_alt_l. apply IHa. now exists r'.
      * apply m_alt_r. apply IHb. now exists r'.
  - split.
    + intro H. apply matches_star_inv in H. destruct H as [H|(s1 & s2 & Hn & E & H1 & H2)]; [easy|].
      destruct s1 as [|x s1]; [easy|]. injection E as <- ->.
      apply IHa in H1. destruct H1 as (r' & Hr & Hm). exists (rseq r' (RStar a)). split.
      * now apply (in_map (fun a' => rseq a' (RStar a))).
      * apply rseq_matches. now constructor.
    + intros (r' & Hr & Hm). apply in_map_iff in Hr. destruct Hr as (a' & <- & Ha).
      apply rseq_matches in Hm. apply matches_seq_inv in Hm. destruct Hm as (s1 & s2 & -> & H1 & H2).
      apply (m_star_cons a (c :: s1) s2); [|easy]. apply IHa. now exists a'.
Qed.

Lemma search_spec r0 : forall s states, search r0 states s = true <->
  (exists r m b, In r states /\ s = m ++ b /\ matches r m) \/
  (exists a m b, s = a ++ m ++ b /\ matches r0 m).
Proof.
  induction s as [|c s IH]; intro states.
  - cbn [search]. rewrite orb_false_r, existsb_exists. split.
    + intros (r & Hr & Hn). apply nullable_spec in Hn. destruct Hr as [<-|Hr].
      * right. now exists [], [], [].
      * left. now exists r, [], [].
    + intros [(r & m & b & Hr & E & Hm)|(a & m & b & E & Hm)].
      * symmetry in E. apply app_eq_nil in E. destruct E; subst.
        exists r. split; [now right|]. now apply nullable_spec.
      * symmetry in E. apply app_eq_nil in E. destruct E as [-> E].
        apply app_eq_nil in E. destruct E; subst.
        exists r0. split; [now left|]. now apply nullable_spec.
  - cbn [search]. rewrite orb_true_iff, existsb_exists, IH. split.
    + intros [(r & Hr & Hn)|[(r & m & b & Hr & E & Hm)|(a & m & b & E & Hm)]].
      * apply nullable_spec in Hn. destruct Hr as [<-|Hr].
        -- right. now exists [], [], (c :: s).
        -- left. now exists r, [], (c :: s).
      * apply (proj1 (in_dedup _ _)) in Hr. apply in_flat_map in Hr. destruct Hr as (r1 & Hr1 & Hr).
        assert (Hm1 : matches r1 (c :: m)) by (apply pd_spec; now exists r).
        subst s. destruct Hr1 as [<-|Hr1].
        -- right. now exists [], (c :: m), b.
        -- left. now exists r1, (c :: m), b.
      * right. exists (c :: a), m, b. now subst s.
    + intros [(r & m & b & Hr & E & Hm)|(a & m & b & E & Hm)].
      * destruct m as [|x m].
        -- left. exists r. split; [now right|]. now apply nullable_spec.
        -- injection E as <- ->. apply pd_spec in Hm. destruct Hm as (r' & Hr' & Hm).
           right. left. exists r', m, b. split; [|easy]. apply (proj2 (in_dedup _ _)). apply in_flat_map.
           exists r. split; [now right|easy].
      * destruct a as [|x a].
        -- destruct m as [|x m].
           ++ left. exists r0. split; [now left|]. now apply nullable_spec.
           ++ injection E as <- ->. apply pd_spec in Hm. destruct Hm as (r' & Hr' & Hm).
              right. left. exists r', m, b. split; [|easy]. apply (proj2 (in_dedup _ _)). apply in_flat_map.
              exists r0. split; [now left|easy].
        -- injection E as <- ->. right. right. now exists a, m, b.
Qed.

Theorem is_match_spec r s : is_match r s = true <-> exists a m b, s = a ++ m ++ b /\ matches r m.
Proof.
  unfold is_match. rewrite search_spec. split.
  - intros [(r' & m & b & [] & _)|H]; exact H.
  - intro H. now right.
Qed.

(** [\s] and [char::is_whitespace] are the same set. *)
Lemma ws_ranges_spec c : cls_in (mkCls false ws_ranges) c = is_whitespace c.
Proof.
  unfold cls_in, is_whitespace, ws_ranges, in_range. cbn [cls_neg cls_ranges existsb fst snd xorb].
  rewrite orb_false_r. apply eq_true_iff_eq.
  match goal with |- (if ?b then true else false) = true <-> _ =>
    transitivity (b = true); [now destruct b|] end.
  repeat rewrite ?orb_true_iff, ?andb_true_iff, ?N.leb_le, ?N.eqb_eq.
  lia.
Qed.

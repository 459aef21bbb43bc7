(** The patterns of the source mean what Parse.v and Dom.v compute. *)
From Coq Require Import List NArith Arith Bool Lia Ascii String.
From Verif Require Import Base BaseFacts Regex RegexFacts Parse Dom Patterns SpecPattern.
Import ListNotations.

Lemma listed_spec k c : listed k c <-> existsb (fun r => in_range (fst r) (snd r) c) (cls_ranges k) = true.
Proof.
  unfold listed. rewrite existsb_exists. unfold in_range. split.
  - intros (lo & hi & I & L). exists (lo, hi). split; [easy|]. cbn. apply andb_true_iff. rewrite !N.leb_le. easy.
  - intros ([lo hi] & I & L). cbn in L. apply andb_true_iff in L. rewrite !N.leb_le in L. now exists lo, hi.
Qed.
Lemma in_class_spec k c : in_class k c <-> cls_in k c = true.
Proof.
  unfold in_class, cls_in. destruct (cls_neg k).
  - rewrite listed_spec. now destruct (existsb _ _).
  - rewrite listed_spec. now destruct (existsb _ _).
Qed.

(** * Patterns without anchors *)

Fixpoint plain (p : pat) : bool :=
  match p with
  | PEmpty | PClass _ => true
  | PBegin _ | PEnd _ => false
  | PCat p q | POr p q => plain p && plain q
  | PStar p => plain p
  end.
Fixpoint to_re (p : pat) : re :=
  match p with
  | PEmpty => REps
  | PClass k => RCls k
  | PBegin _ | PEnd _ => RNone
  | PCat p q => RSeq (to_re p) (to_re q)
  | POr p q => RAlt (to_re p) (to_re q)
  | PStar p => RStar (to_re p)
  end.

Lemma means_matches p a m b : means p a m b -> plain p = true -> matches (to_re p) m.
Proof.
  induction 1; cbn; intro Hp; try easy; try (apply andb_true_iff in Hp as [Hp Hq]).
  - constructor.
  - constructor. now apply in_class_spec.
  - constructor; auto.
  - apply m_alt_l. auto.
  - apply m_alt_r. auto.
  - constructor.
  - constructor; auto.
Qed.
Lemma matches_means p : plain p = true -> forall m, matches (to_re p) m -> forall a b, means p a m b.
Proof.
  induction p; cbn; intros Hp m M a b; try easy; try (apply andb_true_iff in Hp as [Hp Hq]).
  - inversion M; subst. constructor.
  - inversion M; subst. constructor. now apply in_class_spec.
  - inversion M; subst. constructor; auto.
  - inversion M; subst; [apply me_left|apply me_right]; auto.
  - remember (RStar (to_re p)) as r eqn:E. revert a b. induction M; try easy; intros.
    + constructor.
    + injection E as ->. constructor; auto.
Qed.
Lemma plain_means p a m b : plain p = true -> means p a m b <-> matches (to_re p) m.
Proof. intro H. split; intro M; [now apply means_matches in M|now apply matches_means]. Qed.

(** * Trailing empty words *)

Fixpoint clean (r : re) : re :=
  match r with
  | RSeq a b => match clean b with REps => clean a | b' => RSeq (clean a) b' end
  | RAlt a b => RAlt (clean a) (clean b)
  | RStar a => RStar (clean a)
  | _ => r
  end.
Lemma matches_seq_inv a b s : matches (RSeq a b) s <-> exists u v, s = u ++ v /\ matches a u /\ matches b v.
Proof.
  split; [inversion 1; subst; eauto|]. intros (u & v & -> & A & B). now constructor.
Qed.
Lemma matches_alt_inv a b s : matches (RAlt a b) s <-> matches a s \/ matches b s.
Proof. split; [inversion 1; subst; eauto|]. intros [A|B]; [now apply m_alt_l|now apply m_alt_r]. Qed.
Lemma matches_eps_inv s : matches REps s <-> s = [].
Proof. split; [now inversion 1|intros ->; constructor]. Qed.
Lemma matches_star_mono a b : (forall s, matches a s -> matches b s) -> forall s, matches (RStar a) s -> matches (RStar b) s.
Proof.
  intros H s M. remember (RStar a) as r eqn:E. induction M; try easy; [constructor|].
  injection E as ->. constructor; auto.
Qed.
Lemma clean_matches r : forall s, matches (clean r) s <-> matches r s.
Proof.
  induction r as [| |k|a IHa b IHb|a IHa b IHb|a IHa]; intro s; try easy.
  - assert (matches (clean (RSeq a b)) s <-> matches (RSeq (clean a) (clean b)) s) as ->.
    { cbn [clean]. destruct (clean b); try easy. rewrite matches_seq_inv. split.
      - intro M. exists s, []. rewrite app_nil_r. split; [easy|]. split; [easy|constructor].
      - intros (u & v & -> & A & B). apply matches_eps_inv in B as ->. now rewrite app_nil_r. }
    rewrite !matches_seq_inv. split; intros (u & v & -> & A & B); exists u, v; (split; [easy|]); split;
      (now apply IHa) || (now apply IHb).
  - cbn [clean]. now rewrite !matches_alt_inv, IHa, IHb.
  - cbn [clean]. split; apply matches_star_mono; intro; apply IHa.
Qed.

(** * Anchored patterns *)

Lemma means_cat p q a m b : means (PCat p q) a m b <-> exists u v, m = u ++ v /\ means p a u (v ++ b) /\ means q (a ++ u) v b.
Proof. split; [inversion 1; subst; eauto|]. intros (u & v & -> & A & B). now constructor. Qed.
Lemma means_from_start q a m b : means (PCat (PBegin false) q) a m b <-> a = [] /\ means q [] m b.
Proof.
  rewrite means_cat. split.
  - intros (u & v & -> & A & B). inversion A; subst. destruct H0 as [->|[? _]]; easy.
  - intros [-> M]. exists [], m. repeat split; [|easy]. constructor. now left.
Qed.
Lemma means_to_end a m b : means (PCat (PEnd false) PEmpty) a m b <-> m = [] /\ b = [].
Proof.
  rewrite means_cat. split.
  - intros (u & v & -> & A & B). inversion B; subst. inversion A; subst. destruct H0 as [E|[? _]]; easy.
  - intros [-> ->]. exists [], []. repeat split; constructor. now left.
Qed.
Lemma means_star_class k a m b : means (PStar (PClass k)) a m b <-> Forall (in_class k) m.
Proof.
  split.
  - intro M. remember (PStar (PClass k)) as p eqn:E. induction M; try easy. injection E as ->.
    inversion M1; subst. constructor; auto.
  - revert a. induction m as [|c m IH]; intros a F; [constructor|]. inversion F; subst.
    apply (me_again _ a [c] m b); [now constructor|auto].
Qed.
Lemma means_one k a m b : means (PClass k) a m b <-> exists c, m = [c] /\ in_class k c.
Proof. split; [inversion 1; subst; eauto|]. intros (c & -> & I). now constructor. Qed.

Definition space_set : cls := mkCls false space_class.
Definition black_set : cls := mkCls true space_class.
Definition letter_set : cls := mkCls false [(95, 95); (97, 122); (65, 90)]%N.

Lemma white_table c : is_whitespace c = true <-> In c white_space.
Proof.
  unfold is_whitespace, in_range, white_space. rewrite !orb_true_iff, !andb_true_iff, !N.leb_le, !N.eqb_eq. cbn [In]. lia.
Qed.
Lemma space_in c : in_class space_set c <-> is_whitespace c = true.
Proof. rewrite in_class_spec. unfold space_set. change space_class with ws_ranges. now rewrite ws_ranges_spec. Qed.
Lemma black_in c : in_class black_set c <-> is_whitespace c = false.
Proof.
  assert (in_class black_set c <-> ~ in_class space_set c) as -> by easy.
  rewrite space_in. now destruct (is_whitespace c).
Qed.
Lemma letter_in c : in_class letter_set c <-> is_name_start c = true.
Proof.
  rewrite in_class_spec. unfold cls_in, letter_set, is_name_start, in_range. cbn [cls_neg cls_ranges existsb fst snd xorb].
  rewrite orb_false_r, <- orb_assoc.
  assert ((95 <=? c)%N && (c <=? 95)%N = (c =? 95)%N) as ->; [|now destruct (_ || _)].
  apply eq_true_iff_eq. rewrite andb_true_iff, !N.leb_le, N.eqb_eq. lia.
Qed.

Definition whole (p : pat) : pat := PCat (PBegin false) (PCat p (PCat (PEnd false) PEmpty)).
Lemma means_whole p a m b : means (whole p) a m b <-> a = [] /\ b = [] /\ means p [] m [].
Proof.
  unfold whole. rewrite means_from_start, means_cat. split.
  - intros (-> & u & v & -> & A & B). apply means_to_end in B as [-> ->]. rewrite app_nil_r. now cbn in A.
  - intros (-> & -> & M). split; [easy|]. exists m, []. rewrite app_nil_r. repeat split; [easy|]. now apply means_to_end.
Qed.
Lemma found_whole p pattern text : compile pattern = Some (whole p) -> found pattern text <-> means p [] text [].
Proof.
  intro C. unfold found. rewrite C. split.
  - intros (q & [= <-] & a & m & b & -> & M). apply means_whole in M as (-> & -> & M). now rewrite app_nil_r.
  - intro M. exists (whole p). split; [easy|]. exists [], text, []. rewrite app_nil_r. split; [easy|]. now apply means_whole.
Qed.

Lemma blank_compiles : compile blank_source = Some (whole (PStar (PClass space_set))).
Proof. vm_compute. reflexivity. Qed.
Lemma whitespace_compiles : compile whitespace_source = Some (whole (PCat (PClass space_set) (PStar (PClass space_set)))).
Proof. vm_compute. reflexivity. Qed.
Lemma name_compiles : compile attr_name_source =
  Some (PCat (PBegin false) (PCat (PClass letter_set) (PCat (PStar (PClass black_set)) (PCat (PEnd false) PEmpty)))).
Proof. vm_compute. reflexivity. Qed.

Lemma blank_found text : is_blank text = true <-> found blank_source text.
Proof.
  rewrite (found_whole _ _ _ blank_compiles), means_star_class. unfold is_blank. rewrite forallb_forall, Forall_forall.
  split; intros H c I; apply space_in; auto.
Qed.
Lemma whitespace_found text : text_is_whitespace text = true <-> found whitespace_source text.
Proof.
  rewrite (found_whole _ _ _ whitespace_compiles), means_cat. unfold text_is_whitespace. split.
  - destruct text as [|c t]; [easy|]. intro H. cbn in H. apply andb_true_iff in H as [A B]. exists [c], t.
    split; [easy|]. split; [constructor; now apply space_in|]. apply means_star_class. rewrite forallb_forall in B.
    apply Forall_forall. intros x I. apply space_in. auto.
  - intros (u & v & -> & A & B). apply means_one in A as (c & -> & I). apply means_star_class in B. cbn.
    apply space_in in I. rewrite I. cbn. apply forallb_forall. intros x J. rewrite Forall_forall in B. apply space_in. auto.
Qed.
Lemma name_found name : name_regex name = true <-> found attr_name_source name.
Proof.
  unfold found. rewrite name_compiles. split.
  - destruct name as [|c t]; [easy|]. cbn [name_regex]. intro H. apply andb_true_iff in H as [A B].
    eexists. split; [reflexivity|]. exists [], (c :: t), []. rewrite app_nil_r. split; [easy|].
    apply means_from_start. split; [easy|]. apply means_cat. exists [c], t. split; [easy|].
    split; [constructor; now apply letter_in|]. apply means_cat. exists t, []. rewrite app_nil_r. split; [easy|].
    split; [|now apply means_to_end]. apply means_star_class, Forall_forall. intros x I. rewrite forallb_forall in B.
    specialize (B x I). apply black_in. now destruct (is_whitespace x).
  - intros (p & [= <-] & a & m & b & -> & M). apply means_from_start in M as [-> M]. apply means_cat in M as (u & v & -> & A & B).
    apply means_one in A as (c & -> & I). apply means_cat in B as (w & e & -> & B & E). apply means_to_end in E as [-> ->].
    cbn [app]. rewrite !app_nil_r. cbn [name_regex]. apply letter_in in I. rewrite I. cbn. apply forallb_forall.
    apply means_star_class in B. rewrite Forall_forall in B. intros x J. specialize (B x J). apply black_in in B. now rewrite B.
Qed.

Lemma tag_compiles : exists p, compile tag_source = Some p /\ plain p = true /\ clean (to_re p) = tag_pattern.
Proof. exists tag_reading. split; [|split]; vm_compute; reflexivity. Qed.
Lemma check_matches text : check_element_tag text = Ok tt <-> is_match tag_pattern text = true.
Proof. unfold check_element_tag. generalize (is_match tag_pattern text). now intros []. Qed.
Lemma found_plain pattern p text : compile pattern = Some p -> plain p = true ->
  found pattern text <-> exists a m b, text = a ++ m ++ b /\ matches (clean (to_re p)) m.
Proof.
  intros C P. unfold found. rewrite C. split.
  - intros (q & [= <-] & a & m & b & -> & M). exists a, m, b. split; [easy|]. apply clean_matches. now apply (plain_means p a m b P).
  - intros (a & m & b & -> & M). exists p. split; [easy|]. exists a, m, b. split; [easy|]. rewrite clean_matches in M.
    now apply (plain_means p a m b P).
Qed.
Lemma tag_found text : check_element_tag text = Ok tt <-> found tag_source text.
Proof.
  destruct tag_compiles as (p & C & P & K). rewrite (found_plain _ _ text C P), check_matches, is_match_spec, K. reflexivity.
Qed.

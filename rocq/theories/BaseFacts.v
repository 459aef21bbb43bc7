(** Facts about the std-library model of Base.v. *)
From Coq Require Import List NArith Arith Bool Ascii String Lia.
From Verif Require Import Base.
Import ListNotations.

(** * Lengths, offsets and slices *)

Lemma len_utf8_pos c : 1 <= len_utf8 c.
Proof.
  unfold len_utf8. destruct (c <? 128)%N, (c <? 2048)%N, (c <? 65536)%N; lia.
Qed.
Lemma len_utf8_le4 c : len_utf8 c <= 4.
Proof.
  unfold len_utf8. destruct (c <? 128)%N, (c <? 2048)%N, (c <? 65536)%N; lia.
Qed.
Lemma len_utf8_ascii c : (c < 128)%N -> len_utf8 c = 1.
Proof. intro H. unfold len_utf8. apply N.ltb_lt in H. now rewrite H. Qed.
Lemma len_utf8_not_ascii c : (128 <= c)%N -> 2 <= len_utf8 c.
Proof.
  intro H. unfold len_utf8. apply N.ltb_ge in H. rewrite H.
  destruct (c <? 2048)%N, (c <? 65536)%N; lia.
Qed.

Lemma blen_app a b : blen (a ++ b) = blen a + blen b.
Proof. induction a as [|c a IH]; cbn [blen app]; [easy|]. rewrite IH. lia. Qed.
Lemma blen_length s : List.length s <= blen s.
Proof.
  induction s as [|c s IH]; cbn [blen List.length]; [lia|].
  pose proof (len_utf8_pos c). lia.
Qed.
Lemma blen_nil s : blen s = 0 -> s = [].
Proof. destruct s as [|c s]; [easy|]. cbn [blen]. pose proof (len_utf8_pos c). lia. Qed.
Lemma blen_ascii s : Forall (fun c => (c < 128)%N) s -> blen s = List.length s.
Proof.
  induction 1 as [|c s Hc Hs IH]; [easy|]. cbn [blen List.length].
  rewrite len_utf8_ascii, IH; auto.
Qed.

Lemma bskip_0 s : bskip 0 s = Some s.
Proof. now destruct s. Qed.
Lemma btake_0 s : btake 0 s = Some [].
Proof. now destruct s. Qed.

Lemma bskip_app a b : bskip (blen a) (a ++ b) = Some b.
Proof.
  induction a as [|c a IH]; [apply bskip_0|].
  cbn [app blen]. pose proof (len_utf8_pos c).
  destruct (len_utf8 c + blen a) as [|k] eqn:E; [lia|].
  cbn [bskip]. rewrite <- E.
  replace (len_utf8 c <=? len_utf8 c + blen a) with true
    by (symmetry; apply Nat.leb_le; lia).
  replace (len_utf8 c + blen a - len_utf8 c) with (blen a) by lia. exact IH.
Qed.
Lemma btake_app a b : btake (blen a) (a ++ b) = Some a.
Proof.
  induction a as [|c a IH]; [apply btake_0|].
  cbn [app blen]. pose proof (len_utf8_pos c).
  destruct (len_utf8 c + blen a) as [|k] eqn:E; [lia|].
  cbn [btake]. rewrite <- E.
  replace (len_utf8 c <=? len_utf8 c + blen a) with true
    by (symmetry; apply Nat.leb_le; lia).
  replace (len_utf8 c + blen a - len_utf8 c) with (blen a) by lia.
  now rewrite IH.
Qed.
Lemma bskip_all s : bskip (blen s) s = Some [].
Proof. rewrite <- (app_nil_r s) at 2. apply bskip_app. Qed.
Lemma btake_all s : btake (blen s) s = Some s.
Proof. rewrite <- (app_nil_r s) at 2. apply btake_app. Qed.

Lemma bskip_inv s : forall i r, bskip i s = Some r -> exists a, s = a ++ r /\ blen a = i.
Proof.
  induction s as [|c s IH]; intros i r.
  - destruct i; cbn [bskip]; intro H; inversion H; subst. now exists [].
  - destruct i as [|i].
    + rewrite bskip_0. intro H; inversion H; subst. now exists [].
    + cbn [bskip]. destruct (len_utf8 c <=? S i) eqn:E; [|easy].
      intro H. apply IH in H as (a & -> & Ha). exists (c :: a). split; [easy|].
      cbn [blen]. apply Nat.leb_le in E. lia.
Qed.
Lemma btake_inv s : forall i r, btake i s = Some r -> exists b, s = r ++ b /\ blen r = i.
Proof.
  induction s as [|c s IH]; intros i r.
  - destruct i; cbn [btake]; intro H; inversion H; subst. now exists [].
  - destruct i as [|i].
    + rewrite btake_0. intro H; inversion H; subst. now exists (c :: s).
    + cbn [btake]. destruct (len_utf8 c <=? S i) eqn:E; [|easy].
      destruct (btake (S i - len_utf8 c) s) as [r'|] eqn:E'; [|easy].
      cbn [option_map]. intro H; inversion H; subst.
      apply IH in E' as (b & -> & Hb). exists b. split; [easy|].
      cbn [blen]. apply Nat.leb_le in E. lia.
Qed.

Lemma slice_from_app a b : slice_from (a ++ b) (blen a) = Ok b.
Proof. unfold slice_from. now rewrite bskip_app. Qed.
Lemma slice_from_0 s : slice_from s 0 = Ok s.
Proof. unfold slice_from. now rewrite bskip_0. Qed.
Lemma slice_to_app a b : slice_to (a ++ b) (blen a) = Ok a.
Proof. unfold slice_to. now rewrite btake_app. Qed.
Lemma slice_app a b c :
  slice (a ++ b ++ c) (blen a) (blen a + blen b) = Ok b.
Proof.
  unfold slice. replace (blen a <=? blen a + blen b) with true
    by (symmetry; apply Nat.leb_le; lia).
  rewrite slice_from_app. cbn [bind].
  replace (blen a + blen b - blen a) with (blen b) by lia.
  apply slice_to_app.
Qed.

(** * Equality and prefixes *)

Lemma str_eqb_eq a : forall b, str_eqb a b = true <-> a = b.
Proof.
  induction a as [|x a IH]; intros [|y b]; cbn [str_eqb]; split; intro H; try easy.
  - apply andb_true_iff in H as [H1 H2]. apply N.eqb_eq in H1. apply IH in H2. now subst.
  - inversion H; subst. rewrite N.eqb_refl. now apply IH.
Qed.
Lemma str_eqb_refl a : str_eqb a a = true.
Proof. now apply str_eqb_eq. Qed.
Lemma str_eqb_neq a b : str_eqb a b = false <-> a <> b.
Proof.
  split.
  - intros H E. apply str_eqb_eq in E. congruence.
  - intro H. destruct (str_eqb a b) eqn:E; [|easy]. now apply str_eqb_eq in E.
Qed.
Lemma str_eqb_sym a b : str_eqb a b = str_eqb b a.
Proof.
  destruct (str_eqb a b) eqn:E.
  - apply str_eqb_eq in E. subst. now rewrite str_eqb_refl.
  - symmetry. apply str_eqb_neq. apply str_eqb_neq in E. congruence.
Qed.
Lemma str_eq_dec (a b : str) : {a = b} + {a <> b}.
Proof. destruct (str_eqb a b) eqn:E; [left; now apply str_eqb_eq|right; now apply str_eqb_neq]. Qed.

Lemma ostr_eqb_eq a b : ostr_eqb a b = true <-> a = b.
Proof.
  destruct a, b; cbn [ostr_eqb]; try easy. rewrite str_eqb_eq. split; congruence.
Qed.

Lemma starts_with_spec p : forall s, starts_with p s = true <-> exists r, s = p ++ r.
Proof.
  induction p as [|x p IH]; intros s; cbn [starts_with].
  - split; [exists s|]; easy.
  - destruct s as [|c s].
    + split; [easy|]. now intros [r H].
    + rewrite andb_true_iff, N.eqb_eq, IH. split.
      * intros [-> [r ->]]. now exists r.
      * intros [r H]. inversion H; subst. split; [easy|]. now exists r.
Qed.
Lemma starts_with_app p r : starts_with p (p ++ r) = true.
Proof. apply starts_with_spec. now exists r. Qed.
Lemma starts_with_refl p : starts_with p p = true.
Proof. rewrite <- (app_nil_r p) at 2. apply starts_with_app. Qed.
Lemma starts_with_false p s : starts_with p s = false <-> forall r, s <> p ++ r.
Proof.
  split.
  - intros H r E. assert (starts_with p s = true) by (apply starts_with_spec; now exists r). congruence.
  - intro H. destruct (starts_with p s) eqn:E; [|easy].
    apply starts_with_spec in E as [r E]. now apply H in E.
Qed.
Lemma starts_with_app_l p a b : starts_with p a = true -> starts_with p (a ++ b) = true.
Proof.
  rewrite !starts_with_spec. intros [r ->]. exists (r ++ b). now rewrite app_assoc.
Qed.

Lemma ends_with_spec p s : ends_with p s = true <-> exists r, s = r ++ p.
Proof.
  unfold ends_with. rewrite starts_with_spec. split.
  - intros [r H]. exists (rev r). apply (f_equal (@rev char)) in H.
    now rewrite rev_involutive, rev_app_distr, rev_involutive in H.
  - intros [r ->]. exists (rev r). now rewrite rev_app_distr.
Qed.
Lemma ends_with_app p r : ends_with p (r ++ p) = true.
Proof. apply ends_with_spec. now exists r. Qed.
Lemma ends_with_false p s : ends_with p s = false <-> forall r, s <> r ++ p.
Proof.
  split.
  - intros H r E. assert (ends_with p s = true) by (apply ends_with_spec; now exists r). congruence.
  - intro H. destruct (ends_with p s) eqn:E; [|easy].
    apply ends_with_spec in E as [r E]. now apply H in E.
Qed.

Lemma strip_prefix_spec p : forall s r, strip_prefix p s = Some r <-> s = p ++ r.
Proof.
  induction p as [|x p IH]; intros s r; cbn [strip_prefix app].
  - split; congruence.
  - destruct s as [|c s]; [easy|].
    destruct (x =? c)%N eqn:E.
    + apply N.eqb_eq in E. subst. rewrite IH. split; intro H; [now subst|now inversion H].
    + apply N.eqb_neq in E. split; intro H; [easy|]. inversion H. congruence.
Qed.
Lemma strip_suffix_spec p s r : strip_suffix p s = Some r <-> s = r ++ p.
Proof.
  unfold strip_suffix. destruct (strip_prefix (rev p) (rev s)) as [x|] eqn:E; cbn [option_map].
  - apply strip_prefix_spec in E. apply (f_equal (@rev char)) in E.
    rewrite rev_involutive, rev_app_distr, rev_involutive in E.
    split; intro H; [now inversion H; subst|].
    rewrite E in H. apply app_inv_tail in H. now subst.
  - split; [easy|]. intros ->. exfalso.
    assert (strip_prefix (rev p) (rev (r ++ p)) = Some (rev r)) as F
      by (apply strip_prefix_spec; now rewrite rev_app_distr).
    congruence.
Qed.

(** * Searching *)

(** [occurs p s]: [p] is a substring of [s] *)
Definition occurs (p s : str) : Prop := exists a b, s = a ++ p ++ b.

Lemma occurs_nil_r p : p <> [] -> ~ occurs p [].
Proof.
  intros Hp (a & b & H). destruct a; [|easy]. destruct p; easy.
Qed.
Lemma occurs_cons p c s : occurs p (c :: s) <-> starts_with p (c :: s) = true \/ occurs p s.
Proof.
  split.
  - intros (a & b & H). destruct a as [|x a].
    + left. apply starts_with_spec. now exists b.
    + right. inversion H; subst. now exists a, b.
  - intros [H|(a & b & ->)].
    + apply starts_with_spec in H as [r H]. now exists [], r.
    + now exists (c :: a), b.
Qed.
Lemma occurs_app_l p a b : occurs p a -> occurs p (a ++ b).
Proof. intros (x & y & ->). exists x, (y ++ b). now rewrite <- !app_assoc. Qed.
Lemma occurs_app_r p a b : occurs p b -> occurs p (a ++ b).
Proof. intros (x & y & ->). exists (a ++ x), y. now rewrite <- !app_assoc. Qed.

Lemma find_sub_some p s : forall i, find_sub p s = Some i ->
  exists a b, s = a ++ p ++ b /\ blen a = i /\
    (forall a' b', s = a' ++ p ++ b' -> blen a <= blen a').
Proof.
  induction s as [|c s IH]; intros i; cbn [find_sub].
  - destruct (starts_with p []) eqn:E; [|easy]. intro H; inversion H; subst.
    apply starts_with_spec in E as [r E]. exists [], r. repeat split; [easy|].
    intros; cbn; lia.
  - destruct (starts_with p (c :: s)) eqn:E.
    + intro H; inversion H; subst.
      apply starts_with_spec in E as [r E]. exists [], r. repeat split; [easy|].
      intros; cbn; lia.
    + destruct (find_sub p s) as [j|] eqn:F; [|easy].
      cbn [option_map]. intro H; inversion H; subst.
      destruct (IH j eq_refl) as (a & b & -> & Ha & Hmin).
      exists (c :: a), b. repeat split; [cbn [blen]; now rewrite Ha|].
      intros [|x a'] b' Heq.
      * exfalso. eapply starts_with_false in E. apply E. exact Heq.
      * inversion Heq; subst. cbn [blen]. specialize (Hmin a' b').
        apply Nat.add_le_mono_l. now apply Hmin.
Qed.
Lemma find_sub_none p s : find_sub p s = None <-> ~ occurs p s.
Proof.
  induction s as [|c s IH]; cbn [find_sub].
  - destruct (starts_with p []) eqn:E; split; intro H; try easy.
    + exfalso. apply H. apply starts_with_spec in E as [r E]. now exists [], r.
    + intros (a & b & F). destruct a; [|easy]. apply (proj1 (starts_with_false p []) E b F).
  - rewrite occurs_cons. destruct (starts_with p (c :: s)) eqn:E.
    + split; [easy|]. intro H. exfalso. auto.
    + destruct (find_sub p s) as [j|]; cbn [option_map].
      * split; [easy|]. intro H. exfalso.
        assert (Some j = None) by (apply IH; intro; apply H; now right). easy.
      * split; [|easy]. intros _ [H|H]; [congruence|]. now apply (proj1 IH).
Qed.
Lemma find_sub_app p a b :
  (forall a1 a2, a = a1 ++ a2 -> a2 <> [] -> starts_with p (a2 ++ p ++ b) = false) ->
  find_sub p (a ++ p ++ b) = Some (blen a).
Proof.
  intro Hno. induction a as [|c a IH]; cbn [app].
  - destruct (p ++ b) eqn:E.
    + destruct p; [reflexivity|easy].
    + cbn [find_sub]. rewrite <- E, starts_with_app. reflexivity.
  - cbn [find_sub]. change (c :: a ++ p ++ b) with ((c :: a) ++ p ++ b).
    rewrite (Hno [] (c :: a) eq_refl) by easy.
    rewrite IH; [reflexivity|]. intros a1 a2 -> Hn. apply (Hno (c :: a1)); easy.
Qed.
Lemma contains_spec p s : contains p s = true <-> occurs p s.
Proof.
  unfold contains. destruct (find_sub p s) as [i|] eqn:E.
  - split; [intros _|easy]. apply find_sub_some in E as (a & b & -> & _). now exists a, b.
  - apply find_sub_none in E. split; easy.
Qed.
Lemma contains_false p s : contains p s = false <-> ~ occurs p s.
Proof.
  rewrite <- contains_spec. destruct (contains p s); split; congruence || (intro H; try easy; now destruct H).
Qed.

(** One-character patterns. *)
Lemma occurs_char c s : occurs [c] s <-> In c s.
Proof.
  split.
  - intros (a & b & ->). apply in_or_app. right. now left.
  - intro H. apply in_split in H as (a & b & ->). now exists a, b.
Qed.
Lemma find_char_app c a b : ~ In c a -> find_sub [c] (a ++ c :: b) = Some (blen a).
Proof.
  induction a as [|x a IH]; intro H; cbn [app find_sub starts_with].
  - now rewrite N.eqb_refl.
  - destruct (N.eqb_spec c x) as [->|Hne]; [destruct H; now left|].
    cbn [andb]. rewrite IH; [easy|]. intro. apply H. now right.
Qed.
Lemma find_char_some c s i : find_sub [c] s = Some i ->
  exists a b, s = a ++ c :: b /\ ~ In c a /\ blen a = i.
Proof.
  revert i. induction s as [|x s IH]; intros i; cbn [find_sub starts_with]; [easy|].
  destruct (N.eqb_spec c x) as [->|Hne]; cbn [andb].
  - intro H; inversion H; subst. now exists [], s.
  - destruct (find_sub [c] s) as [j|]; [|easy]. cbn [option_map].
    intro H; inversion H; subst. destruct (IH j eq_refl) as (a & b & -> & Hn & Hl).
    exists (x :: a), b. repeat split; [|cbn [blen]; now rewrite Hl].
    intros [->|Hin]; [now apply Hne|now apply Hn].
Qed.
Lemma find_char_none c s : find_sub [c] s = None <-> ~ In c s.
Proof. rewrite find_sub_none, occurs_char. easy. Qed.

Lemma split_once_some c s a b : split_once c s = Some (a, b) <-> s = a ++ c :: b /\ ~ In c a.
Proof.
  revert a b. induction s as [|x s IH]; intros a b; cbn [split_once].
  - split; [easy|]. intros [H _]. now destruct a.
  - destruct (N.eqb_spec x c) as [->|Hne].
    + split.
      * intro H; inversion H; subst. now split.
      * intros [H Hn]. destruct a as [|y a]; inversion H; subst; [easy|].
        destruct Hn. now left.
    + destruct (split_once c s) as [[a' b']|]; cbn [option_map fst snd].
      * split.
        -- intro H; inversion H; subst. destruct (proj1 (IH a' b) eq_refl) as [-> Hn].
           split; [easy|]. intros [E|E]; [now apply Hne|now apply Hn].
        -- intros [H Hn]. destruct a as [|y a]; inversion H; subst; [easy|].
           assert (Some (a', b') = Some (a, b)) as F.
           { apply IH. split; [easy|]. intro. apply Hn. now right. }
           now inversion F.
      * split; [easy|]. intros [H Hn]. destruct a as [|y a]; inversion H; subst; [easy|].
        assert (None = Some (a, b)) as F; [|easy].
        apply IH. split; [easy|]. intro. apply Hn. now right.
Qed.
Lemma split_once_none c s : split_once c s = None <-> ~ In c s.
Proof.
  split.
  - intros H Hin. apply in_split in Hin as (a & b & ->).
    revert H. induction a as [|x a IH]; cbn [app split_once].
    + now rewrite N.eqb_refl.
    + destruct (x =? c)%N; [easy|]. destruct (split_once c (a ++ c :: b)); [easy|].
      intros _. now apply IH.
  - intro H. destruct (split_once c s) as [[a b]|] eqn:E; [|easy].
    apply split_once_some in E as [-> _]. destruct H. apply in_or_app. right. now left.
Qed.

(** * Replacement of single characters *)

Lemma replace_char c to s :
  replace [c] to s = flat_map (fun x => if (x =? c)%N then to else [x]) s.
Proof.
  unfold replace. induction s as [|x s IH]; [easy|].
  cbn [replace_aux starts_with flat_map List.length]. rewrite (N.eqb_sym x c).
  destruct (c =? x)%N; cbn [andb]; now rewrite <- IH.
Qed.

Lemma flat_map_flat_map {A B C} (f : A -> list B) (g : B -> list C) l :
  flat_map g (flat_map f l) = flat_map (fun x => flat_map g (f x)) l.
Proof. induction l as [|x l IH]; [easy|]. cbn [flat_map]. now rewrite flat_map_app, IH. Qed.

(** * Trimming *)

Definition all_ws (s : str) : Prop := forallb is_whitespace s = true.

Lemma trim_start_spec s : exists w, s = w ++ trim_start s /\ all_ws w /\
  match trim_start s with [] => True | c :: _ => is_whitespace c = false end.
Proof.
  induction s as [|c s (w & H1 & H2 & H3)]; [now exists []|].
  cbn [trim_start]. destruct (is_whitespace c) eqn:E.
  - exists (c :: w). cbn [app]. repeat split; [congruence| |easy].
    unfold all_ws in *. cbn [forallb]. now rewrite E.
  - exists []. now rewrite E.
Qed.
Lemma trim_start_ws w s : all_ws w -> trim_start (w ++ s) = trim_start s.
Proof.
  unfold all_ws. induction w as [|c w IH]; [easy|].
  cbn [forallb app trim_start]. rewrite andb_true_iff. intros [-> H]. auto.
Qed.
Lemma trim_start_id c s : is_whitespace c = false -> trim_start (c :: s) = c :: s.
Proof. intro H. cbn [trim_start]. now rewrite H. Qed.
Lemma all_ws_rev w : all_ws w -> all_ws (rev w).
Proof.
  unfold all_ws. rewrite !forallb_forall. intros H x Hx. apply H. now apply in_rev.
Qed.
Lemma all_ws_app a b : all_ws (a ++ b) <-> all_ws a /\ all_ws b.
Proof. unfold all_ws. now rewrite forallb_app, andb_true_iff. Qed.
Lemma trim_end_ws w s : all_ws w -> trim_end (s ++ w) = trim_end s.
Proof.
  intro H. unfold trim_end. rewrite rev_app_distr, trim_start_ws; [easy|now apply all_ws_rev].
Qed.
Lemma trim_end_id s c : is_whitespace c = false -> trim_end (s ++ [c]) = s ++ [c].
Proof.
  intro H. unfold trim_end. rewrite rev_app_distr. cbn [rev app].
  rewrite trim_start_id by easy. cbn [rev]. now rewrite rev_involutive.
Qed.
(** [trim]: white space on both sides of a string that neither starts nor ends
    with white space. *)
Lemma trim_surrounded w1 w2 s : all_ws w1 -> all_ws w2 ->
  match s with [] => True | c :: _ => is_whitespace c = false end ->
  match rev s with [] => True | c :: _ => is_whitespace c = false end ->
  trim (w1 ++ s ++ w2) = s.
Proof.
  intros H1 H2 H3 H4. unfold trim. rewrite trim_start_ws by easy.
  destruct s as [|c s].
  - cbn [app]. rewrite <- (app_nil_r w2), trim_start_ws by easy. reflexivity.
  - cbn [app]. rewrite trim_start_id by easy.
    change (c :: s ++ w2) with ((c :: s) ++ w2). rewrite trim_end_ws by easy.
    unfold trim_end. destruct (rev (c :: s)) as [|d r] eqn:E.
    + apply (f_equal (@rev char)) in E. now rewrite rev_involutive in E.
    + rewrite trim_start_id by easy. rewrite <- E. apply rev_involutive.
Qed.
Lemma trim_spec s : exists w1 w2, s = w1 ++ trim s ++ w2 /\ all_ws w1 /\ all_ws w2 /\
  match trim s with [] => True | c :: _ => is_whitespace c = false end /\
  match rev (trim s) with [] => True | c :: _ => is_whitespace c = false end.
Proof.
  destruct (trim_start_spec s) as (w1 & H1 & H2 & H3).
  destruct (trim_start_spec (rev (trim_start s))) as (w2 & H4 & H5 & H6).
  exists w1, (rev w2).
  assert (trim_start s = trim s ++ rev w2) as E.
  { unfold trim, trim_end. apply (f_equal (@rev char)) in H4.
    rewrite rev_involutive, rev_app_distr in H4. exact H4. }
  repeat split; [now rewrite <- E|easy|now apply all_ws_rev| |].
  - rewrite E in H3. destruct (trim s); easy.
  - unfold trim, trim_end. now rewrite rev_involutive.
Qed.

(** * Vec *)

Section VecFacts.
  Context {A : Type}.
  Implicit Types l : list A.
  Lemma vget_app l1 x l2 : vget (l1 ++ x :: l2) (List.length l1) = Ok x.
  Proof. unfold vget. rewrite nth_error_app2, Nat.sub_diag by lia. reflexivity. Qed.
  Lemma vget_ok l i : i < List.length l -> exists x, vget l i = Ok x /\ nth_error l i = Some x.
  Proof.
    intro H. unfold vget. destruct (nth_error l i) as [x|] eqn:E; [now exists x|].
    apply nth_error_None in E. lia.
  Qed.
  Lemma vremove_app l1 x l2 : vremove (l1 ++ x :: l2) (List.length l1) = Ok (x, l1 ++ l2).
  Proof. induction l1 as [|y l1 IH]; [easy|]. cbn [app List.length vremove]. now rewrite IH. Qed.
  Lemma vinsert_app l1 x l2 : vinsert (l1 ++ l2) (List.length l1) x = Ok (l1 ++ x :: l2).
  Proof.
    induction l1 as [|y l1 IH]; [now destruct l2|]. cbn [app List.length vinsert]. now rewrite IH.
  Qed.
  Lemma vset_app l1 x y l2 : vset (l1 ++ x :: l2) (List.length l1) y = Ok (l1 ++ y :: l2).
  Proof. induction l1 as [|z l1 IH]; [easy|]. cbn [app List.length vset]. now rewrite IH. Qed.
  Lemma split_at l i : i < List.length l ->
    exists l1 x l2, l = l1 ++ x :: l2 /\ List.length l1 = i.
  Proof.
    intro H. destruct (nth_error l i) as [x|] eqn:E.
    - apply nth_error_split in E as (l1 & l2 & -> & Hl). now exists l1, x, l2.
    - apply nth_error_None in E. lia.
  Qed.
End VecFacts.

(** * HashMap *)

Section MapFacts.
  Context {K V : Type} (keq : K -> K -> bool).
  Hypothesis keq_eq : forall a b, keq a b = true <-> a = b.
  Implicit Types m : list (K * V).
  Let keys m := map fst m.

  Lemma keq_refl a : keq a a = true.
  Proof. now apply keq_eq. Qed.
  Lemma keq_neq a b : a <> b -> keq a b = false.
  Proof. intro H. destruct (keq a b) eqn:E; [|easy]. now apply keq_eq in E. Qed.

  Lemma mget_mset_same k v m : mget keq k (mset keq k v m) = Some v.
  Proof.
    induction m as [|[k' v'] m IH]; cbn [mset mget]; [now rewrite keq_refl|].
    destruct (keq k k') eqn:E; cbn [mget]; now rewrite E.
  Qed.
  Lemma mget_mset_other k k' v m : k' <> k -> mget keq k' (mset keq k v m) = mget keq k' m.
  Proof.
    intro H. induction m as [|[k2 v2] m IH]; cbn [mset mget].
    - now rewrite keq_neq.
    - destruct (keq k k2) eqn:E; cbn [mget]; [|now rewrite IH].
      apply keq_eq in E. subst. now rewrite keq_neq.
  Qed.
  Lemma mget_none k m : mget keq k m = None <-> ~ In k (keys m).
  Proof.
    induction m as [|[k' v'] m IH]; cbn [mget keys map fst In]; [easy|].
    destruct (keq k k') eqn:E.
    - apply keq_eq in E. subst. split; [easy|]. intro H. destruct H. now left.
    - rewrite IH. split; intros H; [intros [F|F]|]; auto.
      subst. now rewrite keq_refl in E.
  Qed.
  Lemma mget_in k v m : mget keq k m = Some v -> In (k, v) m.
  Proof.
    induction m as [|[k' v'] m IH]; cbn [mget]; [easy|].
    destruct (keq k k') eqn:E.
    - apply keq_eq in E. intro H; inversion H; subst. now left.
    - intro H. right. auto.
  Qed.
  Lemma in_mget k v m : NoDup (keys m) -> In (k, v) m -> mget keq k m = Some v.
  Proof.
    induction m as [|[k' v'] m IH]; cbn [mget keys map fst]; [easy|].
    intro Hnd. apply NoDup_cons_iff in Hnd as [Hn Hd]. intros [H|H].
    - inversion H; subst. now rewrite keq_refl.
    - destruct (keq k k') eqn:E; [|auto].
      apply keq_eq in E. subst. destruct Hn. apply (in_map fst) in H. exact H.
  Qed.
  Lemma keys_mset k v m x : In x (keys (mset keq k v m)) <-> x = k \/ In x (keys m).
  Proof.
    induction m as [|[k' v'] m IH]; cbn [mset keys map fst In]; [intuition|].
    destruct (keq k k') eqn:E; cbn [keys map fst In].
    - apply keq_eq in E. subst. intuition.
    - unfold keys in IH. rewrite IH. intuition.
  Qed.
  Lemma keys_mset_in k v m : In k (keys m) -> keys (mset keq k v m) = keys m.
  Proof.
    induction m as [|[k' v'] m IH]; cbn [mset keys map fst In]; [easy|].
    destruct (keq k k') eqn:E; [easy|].
    intros [H|H]; [subst; now rewrite keq_refl in E|].
    cbn [keys map fst]. f_equal. now apply IH.
  Qed.
  Lemma mset_new k v m : ~ In k (keys m) -> mset keq k v m = m ++ [(k, v)].
  Proof.
    induction m as [|[k' v'] m IH]; cbn [mset keys map fst In app]; [easy|].
    intro H. rewrite keq_neq by (intro; subst; apply H; now left).
    f_equal. apply IH. intro. apply H. now right.
  Qed.
  Lemma nodup_mset k v m : NoDup (keys m) -> NoDup (keys (mset keq k v m)).
  Proof.
    induction m as [|[k' v'] m IH]; cbn [mset keys map fst]; intro H.
    - constructor; [easy|constructor].
    - apply NoDup_cons_iff in H as [Hn Hd]. destruct (keq k k') eqn:E; cbn [keys map fst].
      + now constructor.
      + constructor; [|now apply IH].
        intro F. apply keys_mset in F as [F|F]; [|easy]. subst. now rewrite keq_refl in E.
  Qed.
  Lemma length_mset_new k v m : ~ In k (keys m) -> List.length (mset keq k v m) = S (List.length m).
  Proof. intro H. rewrite mset_new by easy. rewrite app_length. cbn. lia. Qed.
  Lemma length_mset_in k v m : In k (keys m) -> List.length (mset keq k v m) = List.length m.
  Proof.
    intro H. rewrite <- (map_length fst), <- (map_length fst m).
    fold (keys (mset keq k v m)). fold (keys m). now rewrite keys_mset_in.
  Qed.
  Lemma keys_mdel k m x : In x (keys (mdel keq k m)) -> In x (keys m).
  Proof.
    induction m as [|[k' v'] m IH]; cbn [mdel keys map fst In]; [easy|].
    destruct (keq k k'); cbn [keys map fst In]; intuition.
  Qed.
  Lemma nodup_mdel k m : NoDup (keys m) -> NoDup (keys (mdel keq k m)).
  Proof.
    induction m as [|[k' v'] m IH]; cbn [mdel keys map fst]; intro H; [easy|].
    apply NoDup_cons_iff in H as [Hn Hd]. destruct (keq k k'); [easy|].
    cbn [keys map fst]. constructor; [|now apply IH].
    intro F. apply keys_mdel in F. easy.
  Qed.
  Lemma mget_mdel_same k m : NoDup (keys m) -> mget keq k (mdel keq k m) = None.
  Proof.
    induction m as [|[k' v'] m IH]; cbn [mdel keys map fst]; intro H; [easy|].
    apply NoDup_cons_iff in H as [Hn Hd]. destruct (keq k k') eqn:E.
    - apply keq_eq in E. subst. now apply mget_none.
    - cbn [mget]. rewrite E. now apply IH.
  Qed.
  Lemma mget_mdel_other k k' m : k' <> k -> mget keq k' (mdel keq k m) = mget keq k' m.
  Proof.
    intro H. induction m as [|[k2 v2] m IH]; cbn [mdel mget]; [easy|].
    destruct (keq k k2) eqn:E.
    - apply keq_eq in E. subst. now rewrite keq_neq.
    - cbn [mget]. now rewrite IH.
  Qed.
  Lemma mhas_spec k m : mhas keq k m = true <-> In k (keys m).
  Proof.
    unfold mhas. destruct (mget keq k m) eqn:E.
    - split; [intros _|easy]. apply mget_in in E. apply (in_map fst) in E. exact E.
    - apply mget_none in E. split; easy.
  Qed.
End MapFacts.

(** The same for string-keyed maps. *)
Definition akeys (m : amap) : list str := map fst m.
Lemma aget_aset_same k v m : aget k (aset k v m) = Some v.
Proof. apply (mget_mset_same _ str_eqb_eq). Qed.
Lemma aget_aset_other k k' v m : k' <> k -> aget k' (aset k v m) = aget k' m.
Proof. apply (mget_mset_other _ str_eqb_eq). Qed.
Lemma aget_none k m : aget k m = None <-> ~ In k (akeys m).
Proof. apply (mget_none _ str_eqb_eq). Qed.
Lemma aget_in k v m : aget k m = Some v -> In (k, v) m.
Proof. apply (mget_in _ str_eqb_eq). Qed.
Lemma in_aget k v m : NoDup (akeys m) -> In (k, v) m -> aget k m = Some v.
Proof. apply (in_mget _ str_eqb_eq). Qed.
Lemma akeys_aset k v m x : In x (akeys (aset k v m)) <-> x = k \/ In x (akeys m).
Proof. apply (keys_mset _ str_eqb_eq). Qed.
Lemma aset_new k v m : ~ In k (akeys m) -> aset k v m = m ++ [(k, v)].
Proof. apply (mset_new _ str_eqb_eq). Qed.
Lemma nodup_aset k v m : NoDup (akeys m) -> NoDup (akeys (aset k v m)).
Proof. apply (nodup_mset _ str_eqb_eq). Qed.
Lemma akeys_adel k m x : In x (akeys (adel k m)) -> In x (akeys m).
Proof. apply keys_mdel. Qed.
Lemma nodup_adel k m : NoDup (akeys m) -> NoDup (akeys (adel k m)).
Proof. apply nodup_mdel. Qed.
Lemma aget_adel_same k m : NoDup (akeys m) -> aget k (adel k m) = None.
Proof. apply (mget_mdel_same _ str_eqb_eq). Qed.
Lemma aget_adel_other k k' m : k' <> k -> aget k' (adel k m) = aget k' m.
Proof. apply (mget_mdel_other _ str_eqb_eq). Qed.
Lemma ahas_spec k m : ahas k m = true <-> In k (akeys m).
Proof. apply (mhas_spec _ str_eqb_eq). Qed.

(** * Outcome plumbing *)

Lemma bind_ok {A B} (x : outcome A) (f : A -> outcome B) b :
  bind x f = Ok b -> exists a, x = Ok a /\ f a = Ok b.
Proof. destruct x; cbn [bind]; intro H; try easy. now exists a. Qed.
Lemma bind_panic {A B} (x : outcome A) (f : A -> outcome B) :
  bind x f = Panic -> x = Panic \/ exists a, x = Ok a /\ f a = Panic.
Proof. destruct x; cbn [bind]; intro H; try easy; [right; now exists a|now left]. Qed.
Lemma bind_fuel {A B} (x : outcome A) (f : A -> outcome B) :
  bind x f = Fuel -> x = Fuel \/ exists a, x = Ok a /\ f a = Fuel.
Proof. destruct x; cbn [bind]; intro H; try easy; [right; now exists a|now left]. Qed.

(** Case analysis on the first step of a monadic computation known to be Ok. *)
Ltac inv_bind H :=
  match type of H with
  | bind ?x ?f = Ok _ =>
      let a := fresh "x" in let H1 := fresh "Hx" in
      apply bind_ok in H; destruct H as (a & H1 & H)
  end.

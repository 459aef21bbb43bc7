(** UTF-8: decoding, order, offsets. *)
From Coq Require Import List NArith ZArith Arith Bool Ascii String Lia ZifyBool ZifyN.
From Verif Require Import Base Spec BaseFacts Dom Parse Files.
Import ListNotations.
Open Scope N_scope.
Local Ltac Zify.zify_post_hook ::= Z.to_euclidean_division_equations.

(** * Shapes of encoded characters *)

Definition is_cont (b : N) : Prop := 128 <= b <= 191.
Lemma cont_spec b : cont b = true <-> is_cont b.
Proof. unfold cont, in_range, is_cont. lia. Qed.
Inductive shape : char -> list N -> Prop :=
| sh1 c : c < 128 -> shape c [c]
| sh2 a b : 194 <= a <= 223 -> is_cont b -> shape ((a - 192) * 64 + (b - 128)) [a; b]
| sh3 a b c : 224 <= a <= 239 -> is_cont b -> is_cont c -> (a = 224 -> 160 <= b) -> (a = 237 -> b <= 159) ->
    shape ((a - 224) * 4096 + (b - 128) * 64 + (c - 128)) [a; b; c]
| sh4 a b c d : 240 <= a <= 244 -> is_cont b -> is_cont c -> is_cont d -> (a = 240 -> 144 <= b) -> (a = 244 -> b <= 143) ->
    shape ((a - 240) * 262144 + (b - 128) * 4096 + (c - 128) * 64 + (d - 128)) [a; b; c; d].
Lemma shape_encodes c bs : shape c bs <-> scalar c /\ utf8_char c = bs.
Proof.
  split.
  - intros [x H|a b H1 H2|a b d H1 H2 H3 H4 H5|a b d e H1 H2 H3 H4 H5 H6]; unfold is_cont, scalar, utf8_char in *.
    + split; [lia|]. destruct (x <? 128) eqn:E; [easy|lia].
    + split; [lia|]. destruct (_ <? 128) eqn:E1; [lia|]. destruct (_ <? 2048) eqn:E2; [|lia].
      f_equal; [lia|]. f_equal; lia.
    + split; [lia|]. destruct (_ <? 128) eqn:E1; [lia|]. destruct (_ <? 2048) eqn:E2; [lia|]. destruct (_ <? 65536) eqn:E3; [|lia].
      f_equal; [lia|]. f_equal; [lia|]. f_equal; lia.
    + split; [lia|]. destruct (_ <? 128) eqn:E1; [lia|]. destruct (_ <? 2048) eqn:E2; [lia|]. destruct (_ <? 65536) eqn:E3; [lia|].
      f_equal; [lia|]. f_equal; [lia|]. f_equal; [lia|]. f_equal; lia.
  - intros [Hs <-]. unfold utf8_char, scalar in *.
    destruct (c <? 128) eqn:E1; [constructor; lia|].
    destruct (c <? 2048) eqn:E2.
    { assert (E : c = ((192 + c / 64) - 192) * 64 + ((128 + c mod 64) - 128)) by lia. rewrite E at 1. apply sh2; unfold is_cont; lia. }
    destruct (c <? 65536) eqn:E3.
    { assert (E : c = ((224 + c / 4096) - 224) * 4096 + ((128 + (c / 64) mod 64) - 128) * 64 + ((128 + c mod 64) - 128)) by lia.
      rewrite E at 1. apply sh3; unfold is_cont; lia. }
    assert (E : c = ((240 + c / 262144) - 240) * 262144 + ((128 + (c / 4096) mod 64) - 128) * 4096 + ((128 + (c / 64) mod 64) - 128) * 64 + ((128 + c mod 64) - 128)) by lia.
    rewrite E at 1. apply sh4; unfold is_cont; lia.
Qed.
Lemma scalar_shape c : scalar c -> shape c (utf8_char c).
Proof. intro H. now apply shape_encodes. Qed.

(** * Decoding *)

Lemma from_utf8_shape c x r : shape c x -> from_utf8 (x ++ r) = option_map (cons c) (from_utf8 r).
Proof.
  intros [y H|a b H1 H2|a b d H1 H2 H3 H4 H5|a b d e H1 H2 H3 H4 H5 H6]; cbn [app from_utf8].
  - destruct (y <? 128) eqn:E; [easy|lia].
  - destruct (a <? 128) eqn:E; [lia|]. replace (in_range 194 223 a) with true by (unfold in_range; lia).
    apply cont_spec in H2. now rewrite H2.
  - destruct (a <? 128) eqn:E; [lia|]. replace (in_range 194 223 a) with false by (unfold in_range; lia).
    replace (in_range 224 239 a) with true by (unfold in_range; lia). apply cont_spec in H3. rewrite H3.
    replace (second3 a b) with true; [easy|]. unfold second3, in_range, cont, is_cont in *. destruct (a =? 224) eqn:Ea, (a =? 237) eqn:Eb; unfold in_range; lia.
  - destruct (a <? 128) eqn:E; [lia|]. replace (in_range 194 223 a) with false by (unfold in_range; lia).
    replace (in_range 224 239 a) with false by (unfold in_range; lia). replace (in_range 240 244 a) with true by (unfold in_range; lia).
    apply cont_spec in H3, H4. rewrite H3, H4.
    replace (second4 a b) with true; [easy|]. unfold second4, in_range, cont, is_cont in *. destruct (a =? 240) eqn:Ea, (a =? 244) eqn:Eb; unfold in_range; lia.
Qed.
Lemma from_utf8_cases b0 bs s : from_utf8 (b0 :: bs) = Some s ->
  exists c x r s', shape c x /\ b0 :: bs = x ++ r /\ s = c :: s' /\ from_utf8 r = Some s'.
Proof.
  assert (K : forall c x r, shape c x -> option_map (cons c) (from_utf8 r) = Some s ->
    exists c' x' r' s', shape c' x' /\ x ++ r = x' ++ r' /\ s = c' :: s' /\ from_utf8 r' = Some s').
  { intros c x r Hx H. destruct (from_utf8 r) as [s'|] eqn:E; [|discriminate]. injection H as <-. exists c, x, r, s'. easy. }
  cbn [from_utf8]. destruct (b0 <? 128) eqn:E; [intro H; apply (K b0 [b0] bs); [constructor; lia|easy]|].
  destruct bs as [|b1 bs]; [discriminate|].
  destruct (in_range 194 223 b0) eqn:R2.
  { destruct (cont b1) eqn:C1; [|discriminate]. apply cont_spec in C1.
    intro H. apply (K _ [b0; b1] bs) in H; [easy|]. apply sh2; [unfold in_range in R2; lia|easy]. }
  destruct bs as [|b2 bs]; [discriminate|].
  destruct (in_range 224 239 b0) eqn:R3.
  { destruct (second3 b0 b1 && cont b2)%bool eqn:C; [|discriminate]. intro H. apply (K _ [b0; b1; b2] bs) in H; [easy|].
    unfold second3, cont, in_range in *. apply sh3; unfold is_cont; destruct (b0 =? 224) eqn:Ea, (b0 =? 237) eqn:Eb; lia. }
  destruct bs as [|b3 bs]; [discriminate|].
  destruct (in_range 240 244 b0 && second4 b0 b1 && cont b2 && cont b3)%bool eqn:C; [|discriminate].
  intro H. apply (K _ [b0; b1; b2; b3] bs) in H; [easy|].
  unfold second4, cont, in_range in *. apply sh4; unfold is_cont; destruct (b0 =? 240) eqn:Ea, (b0 =? 244) eqn:Eb; lia.
Qed.
Lemma utf8_cons c s : utf8 (c :: s) = utf8_char c ++ utf8 s.
Proof. reflexivity. Qed.
Lemma utf8_app a b : utf8 (a ++ b) = utf8 a ++ utf8 b.
Proof. apply flat_map_app. Qed.
Lemma from_utf8_utf8 s : Forall scalar s -> from_utf8 (utf8 s) = Some s.
Proof.
  induction 1 as [|c s Hc _ IH]; [easy|]. rewrite utf8_cons, (from_utf8_shape c) by now apply scalar_shape. now rewrite IH.
Qed.
Lemma utf8_from_utf8 : forall n bs s, (List.length bs <= n)%nat -> from_utf8 bs = Some s -> Forall scalar s /\ utf8 s = bs.
Proof.
  induction n as [|n IH]; intros [|b0 bs] s Hn H; try (injection H as <-; now split); [cbn in Hn; lia|].
  apply from_utf8_cases in H. destruct H as (c & x & r & s' & Hx & E & -> & H). rewrite E in Hn |- *.
  destruct (IH r s') as [Hs Es]; [|easy|].
  - destruct Hx; cbn in Hn; lia.
  - apply shape_encodes in Hx. destruct Hx as [Hc Ex]. split; [now constructor|]. now rewrite utf8_cons, Ex, Es.
Qed.
Theorem from_utf8_spec bs s : from_utf8 bs = Some s <-> Forall scalar s /\ utf8 s = bs.
Proof.
  split; [now apply utf8_from_utf8 with (List.length bs)|]. intros [H <-]. now apply from_utf8_utf8.
Qed.
Lemma utf8_bytes s : Forall scalar s -> Forall (fun b => b < 256) (utf8 s).
Proof.
  induction 1 as [|c s Hc _ IH]; [constructor|]. rewrite utf8_cons. apply Forall_app. split; [|easy].
  apply scalar_shape in Hc. destruct Hc; unfold is_cont in *; repeat constructor; lia.
Qed.
Lemma utf8_length s : List.length (utf8 s) = blen s.
Proof.
  induction s as [|c s IH]; [easy|]. rewrite utf8_cons, app_length, IH. cbn [blen]. f_equal. unfold utf8_char, len_utf8.
  destruct (c <? 128); [easy|]. destruct (c <? 2048); [easy|]. now destruct (c <? 65536).
Qed.
Lemma utf8_inj a b : Forall scalar a -> Forall scalar b -> utf8 a = utf8 b -> a = b.
Proof. intros Ha Hb E. apply from_utf8_utf8 in Ha, Hb. rewrite E in Ha. congruence. Qed.

(** * Order *)

Lemma char_order x y : scalar x -> scalar y -> x < y -> exists p i j r s,
  utf8_char x = p ++ i :: r /\ utf8_char y = p ++ j :: s /\ i < j.
Proof.
  intros Hx Hy. apply scalar_shape in Hx, Hy. remember (utf8_char x) as u eqn:Eu. remember (utf8_char y) as v eqn:Ev. clear Eu Ev.
  destruct Hx as [x Hx|a b Ha Hb|a b c Ha Hb Hc O1 O2|a b c d Ha Hb Hc Hd O1 O2];
    destruct Hy as [y Hy|a' b' Ha' Hb'|a' b' c' Ha' Hb' Hc' O3 O4|a' b' c' d' Ha' Hb' Hc' Hd' O3 O4]; unfold is_cont in *; intro L;
    try lia; try (eexists [], _, _, _, _; split; [reflexivity|]; split; [reflexivity|]; lia).
  - destruct (N.lt_trichotomy a a') as [A|[->|A]]; [|..|lia].
    + eexists [], _, _, _, _; split; [reflexivity|]; split; [reflexivity|]; lia.
    + eexists [a'], _, _, _, _; split; [reflexivity|]; split; [reflexivity|]; lia.
  - destruct (N.lt_trichotomy a a') as [A|[->|A]]; [|..|lia].
    + eexists [], _, _, _, _; split; [reflexivity|]; split; [reflexivity|]; lia.
    + destruct (N.lt_trichotomy b b') as [A|[->|A]]; [|..|lia].
      * eexists [a'], _, _, _, _; split; [reflexivity|]; split; [reflexivity|]; lia.
      * eexists [a'; b'], _, _, _, _; split; [reflexivity|]; split; [reflexivity|]; lia.
  - destruct (N.lt_trichotomy a a') as [A|[->|A]]; [|..|lia].
    + eexists [], _, _, _, _; split; [reflexivity|]; split; [reflexivity|]; lia.
    + destruct (N.lt_trichotomy b b') as [A|[->|A]]; [|..|lia].
      * eexists [a'], _, _, _, _; split; [reflexivity|]; split; [reflexivity|]; lia.
      * destruct (N.lt_trichotomy c c') as [A|[->|A]]; [|..|lia].
        -- eexists [a'; b'], _, _, _, _; split; [reflexivity|]; split; [reflexivity|]; lia.
        -- eexists [a'; b'; c'], _, _, _, _; split; [reflexivity|]; split; [reflexivity|]; lia.
Qed.
Lemma cmp_prefix p a b : str_cmp (p ++ a) (p ++ b) = str_cmp a b.
Proof. induction p as [|c p IH]; [easy|]. cbn [app str_cmp]. now rewrite N.compare_refl. Qed.
Lemma cmp_differ p i j r s : i < j -> str_cmp (p ++ i :: r) (p ++ j :: s) = Lt.
Proof. intro H. rewrite cmp_prefix. cbn [str_cmp]. apply N.compare_lt_iff in H. now rewrite H. Qed.
Lemma cmp_differ' p i j r s : i < j -> str_cmp (p ++ j :: s) (p ++ i :: r) = Gt.
Proof. intro H. rewrite cmp_prefix. cbn [str_cmp]. apply N.compare_gt_iff in H. now rewrite H. Qed.
Lemma char_nonempty c : utf8_char c <> [].
Proof. unfold utf8_char. destruct (c <? 128); [easy|]. destruct (c <? 2048); [easy|]. now destruct (c <? 65536). Qed.
(** Comparing the bytes is comparing the code points. *)
Theorem utf8_cmp : forall a b, Forall scalar a -> Forall scalar b -> str_cmp (utf8 a) (utf8 b) = str_cmp a b.
Proof.
  induction a as [|x a IH]; intros [|y b] Ha Hb.
  - easy.
  - rewrite utf8_cons. pose proof (char_nonempty y) as N. now destruct (utf8_char y).
  - rewrite utf8_cons. pose proof (char_nonempty x) as N. now destruct (utf8_char x).
  - inversion Ha as [|? ? Hx Ha']; subst. inversion Hb as [|? ? Hy Hb']; subst. rewrite !utf8_cons. cbn [str_cmp].
    destruct (x ?= y) eqn:E.
    + apply N.compare_eq in E. subst. rewrite cmp_prefix. now apply IH.
    + apply N.compare_lt_iff in E. destruct (char_order x y Hx Hy E) as (p & i & j & r & s & -> & -> & H).
      rewrite <- !app_assoc. now apply cmp_differ.
    + apply N.compare_gt_iff in E. destruct (char_order y x Hy Hx E) as (p & i & j & r & s & -> & -> & H).
      rewrite <- !app_assoc. now apply cmp_differ'.
Qed.

(** * Offsets *)

From Verif Require Import SpecBytes SpecParse.
Open Scope nat_scope.

Lemma first_byte c : scalar c -> exists b r, utf8_char c = b :: r /\ (b < 128 \/ 192 <= b)%N /\ Forall is_cont r.
Proof.
  intro H. apply scalar_shape in H. destruct H as [x H|a b H1 H2|a b d H1 H2 H3 H4 H5|a b d e H1 H2 H3 H4 H5 H6];
    (eexists _, _; split; [reflexivity|]; split; [lia|]; repeat (apply Forall_cons; [assumption|]); apply Forall_nil).
Qed.
Lemma byte_boundary_0 s : Forall scalar s -> byte_boundary (utf8 s) 0.
Proof.
  intros [|c r Hc _]; [now left|]. right. destruct (first_byte c Hc) as (b & x & E & Hb & _). exists b. rewrite utf8_cons, E. now split.
Qed.
Theorem boundary_bytes s : Forall scalar s -> forall i, boundary s i <-> byte_boundary (utf8 s) i.
Proof.
  intros Hs i. split.
  - intros (a & b & -> & ->). rewrite <- utf8_length. unfold byte_boundary. rewrite utf8_app, nth_error_app2, Nat.sub_diag by lia.
    apply Forall_app in Hs. destruct Hs as [_ Hb]. destruct (byte_boundary_0 b Hb) as [E|H]; [|now right].
    left. rewrite app_length. lia.
  - revert i. induction Hs as [|c s Hc Hs IH]; intros i H.
    + destruct H as [->|(b & H & _)]; [now exists [], []|]. destruct i; discriminate.
    + destruct (Nat.eq_dec i 0) as [->|Ni]; [now exists [], (c :: s)|].
      rewrite utf8_cons in H. destruct (first_byte c Hc) as (b0 & r & E & _ & Hr).
      destruct (Nat.lt_ge_cases i (List.length (utf8_char c))) as [L|L].
      * exfalso. destruct H as [H|(b & H & Hb)]; [rewrite app_length in H; lia|].
        rewrite nth_error_app1 in H by easy. rewrite E in H. destruct i as [|i]; [easy|]. cbn in H. apply nth_error_In in H.
        rewrite Forall_forall in Hr. apply Hr in H. unfold is_cont in H. lia.
      * destruct (IH (i - List.length (utf8_char c))) as (a & b & E1 & E2).
        { destruct H as [H|(b & H & Hb)]; [left; rewrite app_length in H; lia|]. right. exists b. rewrite nth_error_app2 in H by easy. now split. }
        exists (c :: a), b. split; [now rewrite E1|]. cbn [blen]. rewrite <- E2.
        pose proof (utf8_length [c]) as U. unfold utf8 in U. cbn [flat_map blen] in U. rewrite app_nil_r in U. lia.
Qed.
Lemma skipn_utf8 a b : skipn (blen a) (utf8 (a ++ b)) = utf8 b.
Proof. rewrite utf8_app, <- utf8_length, skipn_app, skipn_all, Nat.sub_diag. easy. Qed.
Lemma firstn_utf8 a b : firstn (blen a) (utf8 (a ++ b)) = utf8 a.
Proof. rewrite utf8_app, <- utf8_length, firstn_app, firstn_all, Nat.sub_diag. cbn. now rewrite app_nil_r. Qed.
Lemma slice_result s a b : (exists t, slice s a b = Ok t) \/ slice s a b = Panic.
Proof.
  unfold slice, slice_from, slice_to. destruct (a <=? b); [|now right]. destruct (bskip a s) as [r|]; cbn [bind unwrap]; [|now right].
  destruct (btake (b - a) r); cbn; eauto.
Qed.
Lemma slice_parts s a b t : slice s a b = Ok t <-> exists x z, s = x ++ t ++ z /\ blen x = a /\ b = a + blen t.
Proof.
  split.
  - unfold slice, slice_from, slice_to. destruct (a <=? b) eqn:L; [|discriminate]. apply Nat.leb_le in L.
    destruct (bskip a s) as [r|] eqn:E1; cbn [bind unwrap]; [|discriminate]. destruct (btake (b - a) r) as [u|] eqn:E2; [|discriminate].
    intro H. injection H as <-. apply bskip_inv in E1. destruct E1 as (x & -> & Hx). apply btake_inv in E2. destruct E2 as (z & -> & Hz).
    exists x, z. split; [easy|]. split; [easy|]. lia.
  - intros (x & z & -> & <- & ->). apply slice_app.
Qed.
Theorem slice_bytes s a b t : Forall scalar s ->
  (slice s a b = Ok t <-> a <= b /\ byte_boundary (utf8 s) a /\ byte_boundary (utf8 s) b /\ Forall scalar t /\
   utf8 t = firstn (b - a) (skipn a (utf8 s))).
Proof.
  intro Hs. rewrite <- !boundary_bytes by easy. split.
  - intro H. apply slice_parts in H. destruct H as (x & z & -> & <- & ->).
    split; [lia|]. split; [now exists x, (t ++ z)|]. split; [exists (x ++ t), z; split; [now rewrite <- app_assoc|now rewrite blen_app]|].
    split; [apply Forall_app in Hs; destruct Hs as [_ Hs]; now apply Forall_app in Hs|].
    rewrite skipn_utf8. replace (blen x + blen t - blen x) with (blen t) by lia. now rewrite firstn_utf8.
  - intros (L & (x & y & E & ->) & (x' & z & E' & ->) & Ht & H). apply slice_parts.
    assert (exists u, x' = x ++ u /\ y = u ++ z) as (u & -> & ->).
    { rewrite E in E'. apply app_eq_app in E'. destruct E' as (u & [[-> ->]|[-> ->]]); [|now exists u].
      rewrite blen_app in L. assert (blen u = 0) as Z by lia. destruct u as [|c u]; [|cbn in Z; pose proof (len_utf8_pos c); lia].
      exists []. now rewrite !app_nil_r. }
    rewrite blen_app in *. subst s. rewrite skipn_utf8 in H. replace (blen x + blen u - blen x) with (blen u) in * by lia.
    rewrite firstn_utf8 in H. apply Forall_app in Hs. destruct Hs as [_ Hs]. apply Forall_app in Hs. destruct Hs as [Hu _].
    apply utf8_inj in H; [|easy|easy]. subst u. exists x, z. easy.
Qed.

(** * Searching *)

Lemma from_utf8_app p v : Forall scalar p -> from_utf8 (utf8 p ++ v) = option_map (app p) (from_utf8 v).
Proof.
  induction 1 as [|c p Hc _ IH]; [cbn [utf8 flat_map app]; now destruct (from_utf8 v)|].
  rewrite utf8_cons, <- app_assoc, (from_utf8_shape c) by now apply scalar_shape. rewrite IH. now destruct (from_utf8 v).
Qed.
Lemma utf8_prefix p s v : Forall scalar p -> Forall scalar s -> utf8 s = utf8 p ++ v -> exists r, s = p ++ r /\ v = utf8 r.
Proof.
  intros Hp Hs E. pose proof (from_utf8_utf8 s Hs) as D. rewrite E, from_utf8_app in D by easy.
  destruct (from_utf8 v) as [r|] eqn:Ev; [|discriminate]. injection D as <-. exists r. split; [easy|]. now apply from_utf8_spec in Ev.
Qed.
Lemma utf8_split p s u v : p <> [] -> Forall scalar p -> Forall scalar s -> utf8 s = u ++ utf8 p ++ v ->
  exists a b, s = a ++ p ++ b /\ utf8 a = u /\ utf8 b = v.
Proof.
  intros Np Hp Hs E. assert (boundary s (List.length u)) as (a & r & Er & L).
  { apply boundary_bytes; [easy|]. right. destruct p as [|c p]; [easy|]. inversion Hp as [|? ? Hc Hp']; subst.
    destruct (first_byte c Hc) as (b & x & Ec & Hb & _). exists b. rewrite E, utf8_cons, Ec, nth_error_app2, Nat.sub_diag by lia. now split. }
  subst s. rewrite <- utf8_length in L. rewrite utf8_app in E.
  assert (utf8 a = u /\ utf8 r = utf8 p ++ v) as [Ea E'].
  { apply app_eq_app in E. destruct E as (z & [[E1 E2]|[E1 E2]]); rewrite E1, app_length in L; (assert (z = []) as -> by (destruct z; [easy|cbn in L; lia]));
      rewrite app_nil_r in E1; cbn in E2; easy. }
  apply Forall_app in Hs. destruct Hs as [_ Hr]. destruct (utf8_prefix p r v Hp Hr E') as (b & -> & ->). now exists a, b.
Qed.
Theorem find_bytes p s i : p <> [] -> Forall scalar p -> Forall scalar s ->
  (find_sub p s = Some i <-> stands_at (utf8 p) (utf8 s) i /\ forall j, stands_at (utf8 p) (utf8 s) j -> i <= j).
Proof.
  intros Np Hp Hs.
  assert (F : forall j, find_sub p s = Some j -> stands_at (utf8 p) (utf8 s) j /\ forall k, stands_at (utf8 p) (utf8 s) k -> j <= k).
  { intros j H. apply find_sub_some in H. destruct H as (a & b & E & <- & Hmin). split.
    - exists (utf8 a), (utf8 b). rewrite E, !utf8_app, utf8_length. easy.
    - intros k (u & v & Ek & <-). apply (utf8_split p s u v Np Hp Hs) in Ek. destruct Ek as (a' & b' & E' & <- & <-).
      rewrite utf8_length. now apply Hmin with b'. }
  split; [apply F|]. intros [S M]. destruct (find_sub p s) as [j|] eqn:E.
  - destruct (F j eq_refl) as [S' M']. apply M in S'. apply M' in S. f_equal. lia.
  - exfalso. apply find_sub_none in E. apply E. destruct S as (u & v & Ek & _). apply (utf8_split p s u v Np Hp Hs) in Ek.
    destruct Ek as (a & b & -> & _). now exists a, b.
Qed.
Theorem starts_bytes p s : Forall scalar p -> Forall scalar s ->
  (starts_with p s = true <-> exists v, utf8 s = utf8 p ++ v).
Proof.
  intros Hp Hs. rewrite starts_with_spec. split.
  - intros [r ->]. exists (utf8 r). apply utf8_app.
  - intros [v E]. destruct (utf8_prefix p s v Hp Hs E) as (r & -> & _). now exists r.
Qed.
Theorem ends_bytes p s : Forall scalar p -> Forall scalar s ->
  (ends_with p s = true <-> exists u, utf8 s = u ++ utf8 p).
Proof.
  intros Hp Hs. rewrite ends_with_spec. split.
  - intros [a ->]. exists (utf8 a). apply utf8_app.
  - intros [u E]. destruct p as [|c p]; [exists s; now rewrite app_nil_r|].
    rewrite <- (app_nil_r (utf8 (c :: p))) in E.
    destruct (utf8_split (c :: p) s u [] ltac:(easy) Hp Hs E) as (a & b & -> & _ & Eb).
    destruct b as [|x b]; [exists a; now rewrite app_nil_r|]. rewrite utf8_cons in Eb. pose proof (char_nonempty x). now destruct (utf8_char x).
Qed.
Theorem eq_bytes a b : Forall scalar a -> Forall scalar b -> (str_eqb a b = true <-> utf8 a = utf8 b).
Proof. intros Ha Hb. rewrite str_eqb_eq. split; [now intros ->|now apply utf8_inj]. Qed.

(** Property C79: the operations of the standard library that the model uses are
    as documented. *)
From Coq Require Import List NArith Arith Bool Ascii String Lia.
From Verif Require Import Base BaseFacts Spec SpecDom EscapeFacts SerFacts SpecPattern PatternFacts SpecStd.
Import ListNotations.

(** * Lengths and slices *)

Theorem C79_len : forall s n, blen s = n <-> bytes s n.
Proof.
  assert (forall c n, len_utf8 c = n <-> char_bytes c n) as C.
  { intros c n. unfold len_utf8. split.
    - intros <-. destruct (c <? 128)%N eqn:E1; [apply N.ltb_lt in E1; now constructor|]. apply N.ltb_ge in E1.
      destruct (c <? 2048)%N eqn:E2; [apply N.ltb_lt in E2; now constructor|]. apply N.ltb_ge in E2.
      destruct (c <? 65536)%N eqn:E3; [apply N.ltb_lt in E3; now constructor|]. apply N.ltb_ge in E3. now constructor.
    - inversion 1; subst.
      + assert ((c <? 128)%N = true) as -> by now apply N.ltb_lt. easy.
      + assert ((c <? 128)%N = false) as -> by now apply N.ltb_ge. assert ((c <? 2048)%N = true) as -> by now apply N.ltb_lt. easy.
      + assert ((c <? 128)%N = false) as -> by (apply N.ltb_ge; lia). assert ((c <? 2048)%N = false) as -> by now apply N.ltb_ge.
        assert ((c <? 65536)%N = true) as -> by now apply N.ltb_lt. easy.
      + assert ((c <? 128)%N = false) as -> by (apply N.ltb_ge; lia). assert ((c <? 2048)%N = false) as -> by (apply N.ltb_ge; lia).
        assert ((c <? 65536)%N = false) as -> by now apply N.ltb_ge. easy. }
  induction s as [|c s IH]; intro n; cbn [blen].
  - split; [intros <-; constructor|now inversion 1].
  - split; [intros <-; constructor; [now apply C|now apply IH]|]. inversion 1; subst. f_equal; [now apply C|now apply IH].
Qed.
Theorem C79_slice : forall s i j t, slice s i j = Ok t <->
  exists a b, s = a ++ t ++ b /\ bytes a i /\ bytes (a ++ t) j.
Proof.
  intros s i j t. setoid_rewrite <- C79_len. split.
  - unfold slice. destruct (Nat.leb_spec i j); [|easy]. unfold slice_from, slice_to.
    destruct (bskip i s) as [r|] eqn:E; [|easy]. cbn. destruct (btake (j - i) r) as [u|] eqn:F; [|easy]. intros [= ->].
    apply bskip_inv in E as (a & -> & <-). apply btake_inv in F as (b & -> & F). exists a, b. rewrite blen_app. repeat split; lia.
  - intros (a & b & -> & <- & <-). rewrite blen_app, slice_app; easy.
Qed.
Theorem C79_slice_else : forall s i j, (forall t, slice s i j <> Ok t) -> slice s i j = Panic.
Proof.
  intros s i j H. unfold slice, slice_from, slice_to in *. destruct (i <=? j); [|easy]. destruct (bskip i s) as [r|]; [|easy]. cbn in *.
  destruct (btake (j - i) r) as [u|]; [|easy]. now destruct (H u).
Qed.
Theorem C79_slice_from : forall s i t, slice_from s i = Ok t <-> exists a, s = a ++ t /\ bytes a i.
Proof.
  intros s i t. setoid_rewrite <- C79_len. unfold slice_from. split.
  - destruct (bskip i s) as [r|] eqn:E; [|easy]. intros [= ->]. apply bskip_inv in E as (a & -> & <-). now exists a.
  - intros (a & -> & <-). now rewrite bskip_app.
Qed.
Theorem C79_slice_to : forall s i t, slice_to s i = Ok t <-> exists b, s = t ++ b /\ bytes t i.
Proof.
  intros s i t. setoid_rewrite <- C79_len. unfold slice_to. split.
  - destruct (btake i s) as [r|] eqn:E; [|easy]. intros [= ->]. apply btake_inv in E as (a & -> & <-). now exists a.
  - intros (b & -> & <-). now rewrite btake_app.
Qed.

(** * Searching *)

Theorem C79_eq : forall a b, str_eqb a b = true <-> a = b.
Proof. intros a b. apply str_eqb_eq. Qed.
Theorem C79_starts_with : forall p s, starts_with p s = true <-> exists r, s = p ++ r.
Proof. intros p s. apply starts_with_spec. Qed.
Theorem C79_ends_with : forall p s, ends_with p s = true <-> exists r, s = r ++ p.
Proof. exact ends_with_spec. Qed.
Theorem C79_strip_prefix : forall p s r, strip_prefix p s = Some r <-> s = p ++ r.
Proof. intros p s r. apply strip_prefix_spec. Qed.
Theorem C79_strip_suffix : forall p s r, strip_suffix p s = Some r <-> s = r ++ p.
Proof. exact strip_suffix_spec. Qed.
Lemma find_first p s : forall i, find_sub p s = Some i <-> exists a b, s = a ++ p ++ b /\ first_at p a b /\ blen a = i.
Proof.
  induction s as [|c s IH]; intro i; cbn [find_sub]; destruct (starts_with p _) eqn:E.
  - apply starts_with_spec in E as [r E]. split.
    + intros [= <-]. exists [], r. split; [easy|]. split; [|easy]. intros a' b' _. cbn. lia.
    + intros (a & b & F & _ & <-). now destruct a.
  - split; [easy|]. intros (a & b & F & _). destruct a; [|easy]. exfalso. apply starts_with_false with (r := b) in E. now apply E.
  - apply starts_with_spec in E as [r E]. split.
    + intros [= <-]. exists [], r. split; [easy|]. split; [|easy]. intros a' b' _. cbn. lia.
    + intros (a & b & F & H & <-). rewrite E in F. specialize (H [] r). rewrite <- F in H. destruct a; [easy|].
      specialize (H eq_refl). cbn in H. lia.
  - split.
    + destruct (find_sub p s) as [k|] eqn:F; [|easy]. cbn. intros [= <-]. destruct (proj1 (IH k) eq_refl) as (a & b & -> & H & <-). exists (c :: a), b.
      split; [easy|]. split; [|easy]. intros a' b' G. destruct a' as [|c' a'].
      * exfalso. apply (proj1 (starts_with_false _ _) E b'). exact G.
      * cbn in G. injection G as <- G. apply H in G. cbn. lia.
    + intros (a & b & F & H & <-). destruct a as [|c' a].
      * exfalso. now apply (proj1 (starts_with_false _ _) E b).
      * cbn in F. injection F as <- ->. assert (find_sub p (a ++ p ++ b) = Some (blen a)) as ->; [|easy].
        apply IH. exists a, b. split; [easy|]. split; [|easy]. intros a' b' G. specialize (H (c :: a') b'). cbn in H. rewrite G in H.
        specialize (H eq_refl). lia.
Qed.
Theorem C79_find : forall p s i, find_sub p s = Some i <-> exists a b, s = a ++ p ++ b /\ first_at p a b /\ bytes a i.
Proof. intros p s i. setoid_rewrite <- C79_len. apply find_first. Qed.
Theorem C79_find_none : forall p s, find_sub p s = None <-> absent p s.
Proof.
  intros p s. rewrite find_sub_none. unfold absent, occurs. split.
  - intros H a b ->. apply H. now exists a, b.
  - intros H (a & b & E). now apply (H a b).
Qed.
Theorem C79_contains : forall p s, contains p s = true <-> exists a b, s = a ++ p ++ b.
Proof. exact contains_spec. Qed.
Theorem C79_split_once : forall c s a b, split_once c s = Some (a, b) <-> s = a ++ c :: b /\ ~ In c a.
Proof. exact split_once_some. Qed.
Theorem C79_split_once_none : forall c s, split_once c s = None <-> ~ In c s.
Proof. exact split_once_none. Qed.

(** * Changing *)

Lemma replace_skip from to a : forall s, replace_aux from to (List.length a) (a ++ s) = replace_aux from to 0 s.
Proof. induction a as [|c a IH]; intro s; [easy|]. cbn [List.length app replace_aux]. apply IH. Qed.
Lemma replace_absent from to s : absent from s -> replace_aux from to 0 s = s.
Proof.
  induction s as [|c s IH]; [easy|]. intro H. cbn [replace_aux]. destruct (starts_with from (c :: s)) eqn:E.
  - apply starts_with_spec in E as [r E]. now destruct (H [] r).
  - f_equal. apply IH. intros a b ->. now apply (H (c :: a) b).
Qed.
Lemma replace_first from to a : from <> [] -> forall b, first_at from a b ->
  replace_aux from to 0 (a ++ from ++ b) = a ++ to ++ replace_aux from to 0 b.
Proof.
  intro N. induction a as [|c a IH]; intros b H.
  - cbn [app]. destruct from as [|x f]; [easy|]. cbn [app replace_aux]. assert (starts_with (x :: f) (x :: f ++ b) = true) as ->.
    { apply starts_with_spec. now exists b. }
    replace (List.length (x :: f) - 1) with (List.length f) by (cbn; lia). f_equal. apply replace_skip.
  - cbn [app replace_aux]. destruct (starts_with from _) eqn:E.
    + apply starts_with_spec in E as [r E]. specialize (H [] r E). cbn in H. lia.
    + f_equal. apply IH. intros a' b' G. specialize (H (c :: a') b'). cbn in H. rewrite G in H. specialize (H eq_refl). lia.
Qed.
Lemma replaced_result from to s r : from <> [] -> replaced from to s r -> replace from to s = r.
Proof.
  intros N R. unfold replace. induction R as [s A|a b r F R IH]; [now apply replace_absent|]. rewrite replace_first by easy. now rewrite IH.
Qed.
Lemma replaced_exists from to : from <> [] -> forall n s, List.length s <= n -> exists r, replaced from to s r.
Proof.
  intro N. induction n as [|n IH]; intros s L.
  - destruct s; [|cbn in L; lia]. exists []. apply rp_rest. intros a b E. destruct a; [|easy]. now destruct from.
  - destruct (find_sub from s) as [i|] eqn:F.
    + apply find_first in F as (a & b & -> & F & _). destruct (IH b) as [r R].
      { rewrite !app_length in L. destruct from; [easy|]. cbn in L. lia. }
      exists (a ++ to ++ r). now constructor.
    + exists s. apply rp_rest. now apply C79_find_none.
Qed.
Theorem C79_replace : forall from to s r, from <> [] -> replace from to s = r <-> replaced from to s r.
Proof.
  intros from to s r N. split; [|now apply replaced_result]. intros <-.
  destruct (replaced_exists from to N _ s (Nat.le_refl _)) as [r R]. now rewrite (replaced_result _ _ _ _ N R).
Qed.
Lemma black_white c : is_whitespace c = false <-> ~ In c white_space.
Proof. rewrite <- white_table. now destruct (is_whitespace c). Qed.
Lemma all_white_ws s : all_ws s <-> all_white s.
Proof. unfold all_ws, all_white. rewrite forallb_forall. split; intros H c I; apply white_table; auto. Qed.
Theorem C79_trim : forall s t, trim s = t <-> trims s t.
Proof.
  intros s t. split.
  - intros <-. destruct (trim_spec s) as (a & b & E & A & B & F & L). exists a, b. split; [easy|].
    split; [now apply all_white_ws|]. split; [now apply all_white_ws|]. split.
    + intros c r G. rewrite G in F. now apply black_white.
    + intros c r G. rewrite G, rev_app_distr in L. cbn in L. now apply black_white.
  - intros (a & b & -> & A & B & F & L). apply trim_surrounded; [now apply all_white_ws|now apply all_white_ws| |].
    + destruct t as [|c t]; [easy|]. apply black_white. now apply (F c t).
    + destruct (rev t) as [|c r] eqn:E; [easy|]. apply black_white. apply (L c (rev r)). rewrite <- (rev_involutive t), E. easy.
Qed.

(** * Tables *)

Theorem C79_get : forall m k v, table m -> aget k m = Some v <-> has m k v.
Proof. intros m k v T. split; [apply aget_in|now apply in_aget]. Qed.
Theorem C79_get_none : forall m k, aget k m = None <-> forall v, ~ has m k v.
Proof.
  intros m k. rewrite aget_none. unfold akeys, has. split.
  - intros H v I. apply H. now apply (in_map fst) in I.
  - intros H I. apply in_map_iff in I as ([k' v] & E & I). cbn in E. subst. now apply (H v).
Qed.
Theorem C79_insert : forall m k v, table m -> table (aset k v m) /\
  forall k' v', has (aset k v m) k' v' <-> k' = k /\ v' = v \/ k' <> k /\ has m k' v'.
Proof.
  intros m k v T. assert (table (aset k v m)) as T' by now apply nodup_aset. split; [easy|]. intros k' v'.
  rewrite <- (C79_get _ k' v' T'), <- (C79_get _ k' v' T). destruct (str_eq_dec k' k) as [->|N].
  - rewrite aget_aset_same. split; [intros [= <-]; now left|]. intros [[_ ->]|[N _]]; easy.
  - rewrite aget_aset_other by easy. split; [now right|]. intros [[-> _]|[_ H]]; easy.
Qed.
Theorem C79_remove : forall m k, table m -> table (adel k m) /\
  forall k' v', has (adel k m) k' v' <-> k' <> k /\ has m k' v'.
Proof.
  intros m k T. assert (table (adel k m)) as T' by now apply nodup_adel. split; [easy|]. intros k' v'.
  rewrite <- (C79_get _ k' v' T'), <- (C79_get _ k' v' T). destruct (str_eq_dec k' k) as [->|N].
  - rewrite aget_adel_same by easy. split; [easy|]. now intros [N _].
  - rewrite aget_adel_other by easy. split; [easy|]. now intros [_ H].
Qed.
Theorem C79_contains_key : forall m k, ahas k m = true <-> exists v, has m k v.
Proof.
  intros m k. rewrite ahas_spec. unfold akeys, has. rewrite in_map_iff. split.
  - intros ([k' v] & E & I). cbn in E. subst. now exists v.
  - intros [v I]. now exists (k, v).
Qed.

(** * Vectors *)

Theorem C79_vec_get : forall (A : Type) (l : list A) i x, vget l i = Ok x <-> exists l', removed l i x l'.
Proof.
  intros A l i x. unfold vget, removed. split.
  - destruct (nth_error l i) as [y|] eqn:E; [|easy]. intros [= ->]. apply nth_error_split in E as (a & b & -> & <-). now exists (a ++ b), a, b.
  - intros (_ & a & b & -> & _ & <-). apply vget_app.
Qed.
Theorem C79_vec_remove : forall (A : Type) (l : list A) i x l', vremove l i = Ok (x, l') <-> removed l i x l'.
Proof.
  intros A l i x l'. split.
  - revert i l'. induction l as [|y l IH]; intros i l'; [easy|]. destruct i as [|i]; cbn.
    + intros [= -> ->]. now exists [], l'.
    + destruct (vremove l i) as [[z r]| | |] eqn:E; cbn; try easy. intros [= -> <-]. apply IH in E as (a & b & -> & -> & <-). now exists (y :: a), b.
  - intros (a & b & -> & -> & <-). apply vremove_app.
Qed.
Theorem C79_vec_insert : forall (A : Type) (l : list A) i x l', vinsert l i x = Ok l' <-> removed l' i x l.
Proof.
  intros A l i x l'. split.
  - revert i l'. induction l as [|y l IH]; intros i l'; destruct i as [|i]; cbn; try easy.
    + intros [= <-]. now exists [], [].
    + intros [= <-]. now exists [], (y :: l).
    + destruct (vinsert l i x) as [r| | |] eqn:E; cbn; try easy. intros [= <-]. apply IH in E as (a & b & -> & -> & <-). now exists (y :: a), b.
  - intros (a & b & -> & -> & <-). apply vinsert_app.
Qed.
Theorem C79_vec_set : forall (A : Type) (l : list A) i x l', vset l i x = Ok l' <-> exists y r, removed l i y r /\ removed l' i x r.
Proof.
  intros A l i x l'. split.
  - revert i l'. induction l as [|y l IH]; intros i l'; [easy|]. destruct i as [|i]; cbn.
    + intros [= <-]. exists y, l. split; now exists [], l.
    + destruct (vset l i x) as [r| | |] eqn:E; cbn; try easy. intros [= <-]. apply IH in E as (z & r' & (a & b & -> & -> & <-) & (a' & b' & -> & E & L)).
      exists z, (y :: a ++ b). split; [now exists (y :: a), b|]. exists (y :: a'), b'. split; [easy|]. split; [now rewrite E|]. cbn. now rewrite L.
  - intros (y & r & (a & b & -> & -> & <-) & (a' & b' & -> & E & L)). assert (a' = a /\ b' = b) as [-> ->].
    { revert a' E L. induction a as [|z a IH]; intros [|z' a'] E L; cbn in *; try easy. injection E as <- E. injection L as L.
      destruct (IH a' E L). now subst. }
    apply vset_app.
Qed.
Theorem C79_vec_panics : forall (A : Type) (l : list A) i (x : A),
  (List.length l <= i -> vget l i = Panic /\ vremove l i = Panic /\ vset l i x = Panic) /\
  (List.length l < i -> vinsert l i x = Panic).
Proof.
  intros A l i x. split.
  - intro L. split; [unfold vget; apply nth_error_None in L; now rewrite L|]. split; revert i L; induction l as [|y l IH]; intros i L; try easy;
      destruct i as [|i]; cbn in *; try lia; now rewrite IH by lia.
  - revert i. induction l as [|y l IH]; intros i L; destruct i as [|i]; cbn in *; try lia; try easy. now rewrite IH by lia.
Qed.

(** * Numbers and order *)

Theorem C79_from_str_radix : forall s n, from_str_radix16 s = Some n <->
  (n < 2 ^ 32)%N /\ (hex_number s n \/ exists h, s = lit "+" ++ h /\ hex_number h n).
Proof.
  intros s n. change (2 ^ 32)%N with 4294967296%N. change (lit "+") with [43%N]. split.
  - unfold from_str_radix16. destruct s as [|x s]; [easy|]. destruct (N.eqb_spec x 43) as [->|N].
    + destruct s as [|y s]; [easy|]. intro H. apply hex_digits_number in H as [H L]; [|easy]. split; [easy|]. right. now exists (y :: s).
    + intro H. apply hex_digits_number in H as [H L]; [|easy]. split; [easy|now left].
  - intros [L [H|(h & -> & H)]].
    + destruct (hex_number_not_plus _ _ H) as [P N]. unfold from_str_radix16. destruct s as [|x s]; [easy|].
      destruct (N.eqb_spec x 43) as [->|Nx]; [destruct P; now left|]. now apply hex_digits_number.
    + destruct (hex_number_not_plus _ _ H) as [P N]. cbn [app from_str_radix16]. destruct h as [|y h]; [easy|]. rewrite N.eqb_refl.
      now apply hex_digits_number.
Qed.
Theorem C79_from_u32 : forall n c, char_from_u32 n = Some c <-> n = c /\ scalar c.
Proof. exact char_from_u32_spec. Qed.
Theorem C79_cmp : forall a b, (str_cmp a b = Eq <-> a = b) /\ (str_cmp a b = Lt <-> str_lt a b) /\ (str_cmp a b = Gt <-> str_lt b a).
Proof.
  intros a b. split; [apply str_cmp_eq|]. split; [apply str_cmp_lt|]. rewrite <- str_cmp_lt, (str_cmp_antisym a b).
  now destruct (str_cmp a b).
Qed.

(** * Examples *)

Example C79_replace_example : replaced (lit "aa") (lit "b") (lit "caaaxaa") (lit "cbaxb").
Proof. now apply C79_replace. Qed.
Example C79_trim_example : trims ([0x2003%N] ++ lit " a b " ++ [10%N]) (lit "a b").
Proof. now apply C79_trim. Qed.
Example C79_slice_example : slice ([233%N; 8364%N] ++ lit "x") 2 5 = Ok [8364%N] /\ slice ([233%N; 8364%N] ++ lit "x") 2 4 = Panic.
Proof. now vm_compute. Qed.
Example C79_radix_example : from_str_radix16 (lit "+1F600") = Some 128512%N /\ from_str_radix16 (lit "fffffffff") = None /\
  from_str_radix16 (lit "+") = None /\ from_str_radix16 (lit "-1") = None.
Proof. now vm_compute. Qed.
Example C79_table_example : table [(lit "a", lit "1"); (lit "b", lit "2")].
Proof. repeat constructor; cbn; intuition discriminate. Qed.
Print Assumptions C79_len.
Print Assumptions C79_slice.
Print Assumptions C79_slice_else.
Print Assumptions C79_slice_from.
Print Assumptions C79_slice_to.
Print Assumptions C79_eq.
Print Assumptions C79_starts_with.
Print Assumptions C79_ends_with.
Print Assumptions C79_strip_prefix.
Print Assumptions C79_strip_suffix.
Print Assumptions C79_find.
Print Assumptions C79_find_none.
Print Assumptions C79_contains.
Print Assumptions C79_split_once.
Print Assumptions C79_split_once_none.
Print Assumptions C79_replace.
Print Assumptions C79_trim.
Print Assumptions C79_get.
Print Assumptions C79_get_none.
Print Assumptions C79_insert.
Print Assumptions C79_remove.
Print Assumptions C79_contains_key.
Print Assumptions C79_vec_get.
Print Assumptions C79_vec_remove.
Print Assumptions C79_vec_insert.
Print Assumptions C79_vec_set.
Print Assumptions C79_vec_panics.
Print Assumptions C79_from_str_radix.
Print Assumptions C79_from_u32.
Print Assumptions C79_cmp.

(** Facts about machine integers: nothing overflows. *)
From Coq Require Import List NArith ZArith Arith Bool Ascii String Lia.
From Verif Require Import Base Escape Dom ParseTree Parse BaseFacts Spec SpecDom SpecLex LexFacts Utf8Facts
  EscapeFacts UnescFacts DomFacts Machine SpecMachine.
Import ListNotations.

Definition room (m : machine) (n : nat) : Prop := (N.of_nat n + 8 < words m)%N.

Lemma allocated_room m s : real_machine m -> allocated m s -> room m (blen s).
Proof. unfold real_machine, allocated, room. change (2 ^ 16)%N with 65536%N. lia. Qed.
Lemma room_le m a b : a <= b -> room m b -> room m a.
Proof. unfold room. lia. Qed.

Lemma uadd_ok m a b : (N.of_nat (a + b) < words m)%N -> uadd m a b = Ok (a + b).
Proof. intro H. unfold uadd. apply N.ltb_lt in H. now rewrite H. Qed.
Lemma uadd_room m n a b : room m n -> a + b <= n + 7 -> uadd m a b = Ok (a + b).
Proof. intros R H. apply uadd_ok. unfold room in R. lia. Qed.
Lemma usub_ok m a b : b <= a -> usub m a b = Ok (a - b).
Proof. intro H. unfold usub. apply Nat.leb_le in H. now rewrite H. Qed.

Definition wrap (n : nat) : Z := ((Z.of_nat n + 2147483648) mod 4294967296 - 2147483648)%Z.
Lemma wrap_small n : (Z.of_nat n < 2147483648)%Z -> wrap n = Z.of_nat n.
Proof. intro H. unfold wrap. rewrite Z.mod_small by lia. lia. Qed.
Lemma wrap_zero n : (N.of_nat n < 2 ^ 32)%N -> (wrap n =? 0)%Z = (n =? 0).
Proof.
  change (2 ^ 32)%N with 4294967296%N. intro H. destruct (Nat.eqb_spec n 0) as [->|N]; [reflexivity|].
  apply Z.eqb_neq. unfold wrap. intro E.
  destruct (Z.ltb_spec (Z.of_nat n + 2147483648) 4294967296).
  - rewrite Z.mod_small in E by lia. lia.
  - assert (X : ((Z.of_nat n + 2147483648) mod 4294967296 = Z.of_nat n - 2147483648)%Z).
    { rewrite <- (Z.mod_small (Z.of_nat n - 2147483648) 4294967296) by lia.
      replace (Z.of_nat n + 2147483648)%Z with (Z.of_nat n - 2147483648 + 1 * 4294967296)%Z by lia.
      apply Z_mod_plus_full. }
    lia.
Qed.
Lemma wrap_range n : (-2147483648 <= wrap n <= 2147483647)%Z.
Proof. unfold wrap. pose proof (Z.mod_pos_bound (Z.of_nat n + 2147483648) 4294967296). lia. Qed.

Definition limit (m : machine) : N := if checks m then (2 ^ 31)%N else (2 ^ 32)%N.
Lemma limit_le m : (limit m <= 2 ^ 32)%N.
Proof. unfold limit. destruct (checks m); now vm_compute. Qed.

(** The counters: their value is the ideal number, wrapped. *)
Lemma i32_wrap m z n : (checks m = true -> (-2147483648 <= z <= 2147483647)%Z) ->
  ((z + 2147483648) mod 4294967296 - 2147483648)%Z = wrap n -> i32 m z = Ok (wrap n).
Proof.
  intros H E. unfold i32. destruct ((-2147483648 <=? z) && (z <=? 2147483647))%Z eqn:B.
  - apply andb_true_iff in B. destruct B as [B1 B2]. apply Z.leb_le in B1. apply Z.leb_le in B2.
    rewrite <- E. rewrite Z.mod_small by lia. f_equal. lia.
  - destruct (checks m); [|now rewrite E]. specialize (H eq_refl).
    apply andb_false_iff in B. destruct B as [B|B]; apply Z.leb_gt in B; lia.
Qed.
Lemma i32_succ m n : (N.of_nat (S n) < limit m)%N -> i32 m (wrap n + 1) = Ok (wrap (S n)).
Proof.
  intro H. apply i32_wrap.
  - intro C. unfold limit in H. rewrite C in H. change (2 ^ 31)%N with 2147483648%N in H. rewrite wrap_small by lia. lia.
  - unfold wrap. f_equal.
    replace ((Z.of_nat n + 2147483648) mod 4294967296 - 2147483648 + 1 + 2147483648)%Z
      with ((Z.of_nat n + 2147483648) mod 4294967296 + 1)%Z by lia.
    rewrite Zplus_mod_idemp_l. f_equal. lia.
Qed.
Lemma i32_pred m n : (N.of_nat (S n) < limit m)%N -> i32 m (wrap (S n) - 1) = Ok (wrap n).
Proof.
  intro H. apply i32_wrap.
  - intro C. unfold limit in H. rewrite C in H. change (2 ^ 31)%N with 2147483648%N in H. rewrite wrap_small by lia. lia.
  - unfold wrap. f_equal.
    replace ((Z.of_nat (S n) + 2147483648) mod 4294967296 - 2147483648 - 1 + 2147483648)%Z
      with ((Z.of_nat (S n) + 2147483648) mod 4294967296 + -1)%Z by lia.
    rewrite Zplus_mod_idemp_l. f_equal. lia.
Qed.

(** * Escaping *)

Lemma unescape_entity_m_eq m i j slc buffer cs : (N.of_nat (i + j + 1) < words m)%N ->
  unescape_entity_m m i j slc buffer cs = unescape_entity i j slc buffer cs.
Proof.
  intro H. unfold unescape_entity_m, unescape_entity. rewrite (uadd_ok m i j) by lia. cbn [bind].
  rewrite uadd_ok by lia. reflexivity.
Qed.
Lemma unescape_scan_m_eq m i slc n : room m n -> forall rest j buffer cs, i + j + blen rest <= n ->
  unescape_scan_m m i slc rest j buffer cs = unescape_scan i slc rest j buffer cs.
Proof.
  intro R. induction rest as [|k rest IH]; intros j buffer cs H; [reflexivity|].
  cbn [unescape_scan_m unescape_scan blen] in *.
  destruct (k =? cSemi)%N.
  - rewrite unescape_entity_m_eq by (unfold room in R; pose proof (len_utf8_pos k); lia).
    destruct (unescape_entity i j slc buffer (len_utf8 k)) as [bc| | |]; cbn [bind]; try reflexivity. apply IH. lia.
  - cbn [bind]. apply IH. lia.
Qed.
Lemma unescape_loop_m_eq m n : room m n -> forall fuel buffer last_i, blen buffer <= n ->
  unescape_loop_m m fuel buffer last_i = unescape_loop fuel buffer last_i.
Proof.
  intro R. induction fuel as [|fuel IH]; intros buffer last_i H; [reflexivity|].
  cbn [unescape_loop_m unescape_loop]. destruct (blen buffer <=? last_i); [reflexivity|].
  destruct (slice_from buffer last_i) as [tail| | |] eqn:E; cbn [bind]; try reflexivity.
  destruct (find_sub sAmp tail) as [i0|] eqn:F; [|reflexivity].
  unfold slice_from in E. destruct (bskip last_i buffer) as [r|] eqn:B; [|discriminate]. injection E as ->.
  apply bskip_inv in B. destruct B as (d & -> & <-).
  change sAmp with [amp] in F. apply find_char_some in F. destruct F as (txt & t & -> & _ & <-).
  assert (Eb : d ++ txt ++ amp :: t = (d ++ txt) ++ amp :: t) by now rewrite app_assoc.
  rewrite !blen_app in H. cbn [blen] in H. pose proof (len_utf8_pos amp) as P.
  rewrite (uadd_room m n) by (easy || lia). cbn [bind].
  replace (blen txt + blen d) with (blen (d ++ txt)) by (rewrite blen_app; lia).
  rewrite Eb, slice_from_app. cbn [bind].
  rewrite (unescape_scan_m_eq m (blen (d ++ txt)) (amp :: t) n R) by (cbn [blen]; rewrite blen_app; lia).
  destruct (scan_read (d ++ txt) t) as (q & _ & Nq & Lq & ->). cbn [bind fst snd].
  cbn [blen] in Lq.
  destruct (last_size_in q 1 Nq) as (a & l & -> & ->).
  rewrite (uadd_room m n) by (easy || (pose proof (len_utf8_le4 l); rewrite blen_app; lia)). cbn [bind].
  apply IH. rewrite !blen_app in *. lia.
Qed.
Lemma unescape_m_eq m t : room m (blen t) -> unescape_m m t = unescape t.
Proof. intro R. unfold unescape_m, unescape. now apply unescape_loop_m_eq with (blen t). Qed.

(** * Positions *)

Lemma line_and_column_from_m_eq m : forall s i pos line col,
  (N.of_nat (line + List.length s) < words m)%N -> (N.of_nat (col + List.length s) < words m)%N -> 1 <= line ->
  line_and_column_from_m m s i pos line col = Ok (line_and_column_from s i pos line col).
Proof.
  induction s as [|c s IH]; intros i pos line col H1 H2 H3; [reflexivity|].
  cbn [line_and_column_from_m line_and_column_from List.length] in *.
  rewrite uadd_ok by lia. cbn [bind]. rewrite Nat.add_1_r.
  destruct (c =? cNL)%N.
  - rewrite uadd_ok by lia. cbn [bind]. rewrite Nat.add_1_r. cbn [fst snd]. destruct (pos <=? i); [reflexivity|].
    apply IH; lia.
  - cbn [bind fst snd]. destruct (pos <=? i); [reflexivity|]. apply IH; lia.
Qed.
Lemma line_and_column_m_eq m s pos : room m (blen s) -> line_and_column_m m s pos = Ok (line_and_column s pos).
Proof.
  intro R. unfold line_and_column_m, line_and_column. pose proof (blen_length s). unfold room in R.
  apply line_and_column_from_m_eq; lia.
Qed.
Lemma fail_m_eq {A} m msg s pos : room m (blen s) -> @fail_m A m msg s pos = Err (perr msg s pos).
Proof. intro R. unfold fail_m. rewrite line_and_column_m_eq by easy. reflexivity. Qed.
Lemma at_pos_m_eq {A} m (x : outcome A) s pos : room m (blen s) -> at_pos_m m x s pos = map_err x (at_pos s pos).
Proof.
  intro R. destruct x as [a|e| |]; try reflexivity. cbn [at_pos_m map_err].
  rewrite line_and_column_m_eq by easy. cbn [bind]. now destruct e.
Qed.
Lemma abbreviate_m_eq m t n : abbreviate_m m t n = abbreviate t n.
Proof.
  unfold abbreviate_m, abbreviate. destruct (n <? 4) eqn:E; cbn [orb]; [reflexivity|]. apply Nat.ltb_ge in E.
  destruct (Nat.leb_spec (blen t) n) as [L|L]; [reflexivity|].
  assert (D : 2 <= Nat.div n 2) by (apply (Nat.div_le_mono 4 n 2); lia).
  assert (D' : Nat.div n 2 <= n) by (apply Nat.div_le_upper_bound; lia).
  rewrite usub_ok by lia. cbn [bind]. destruct (slice t 0 (n / 2 - 1)); cbn [bind]; try reflexivity.
  rewrite usub_ok by lia. reflexivity.
Qed.
Lemma real_text_m_eq m t : room m (blen t) -> real_text_m m t = real_text t.
Proof. intro R. unfold real_text_m, real_text. now rewrite unescape_m_eq. Qed.

(** * Finding tags *)

Lemma quote_find_m_eq m p n : room m n -> forall rest from i q, from + i + blen rest <= n ->
  quote_aware_find_from_m m p rest from i q = Ok (quote_aware_find_from p rest (from + i) q).
Proof.
  intro R. induction rest as [|c rest IH]; intros from i q H; [reflexivity|].
  cbn [quote_aware_find_from_m quote_aware_find_from blen] in *. pose proof (len_utf8_pos c).
  destruct q as [q|].
  - rewrite IH by lia. now rewrite Nat.add_assoc.
  - destruct (c =? cDq)%N; [rewrite IH by lia; now rewrite Nat.add_assoc|].
    destruct (c =? cSq)%N; [rewrite IH by lia; now rewrite Nat.add_assoc|].
    rewrite (uadd_room m n) by (easy || lia). cbn [bind]. destruct (starts_with p (c :: rest)); [reflexivity|].
    rewrite IH by lia. now rewrite Nat.add_assoc.
Qed.
Lemma quote_find_bound p : forall rest i q j, quote_aware_find_from p rest i q = Some j -> j <= i + blen rest.
Proof.
  induction rest as [|c rest IH]; intros i q j H; [discriminate|].
  cbn [quote_aware_find_from blen] in *. destruct q as [q|]; [apply IH in H; lia|].
  destruct (c =? cDq)%N; [apply IH in H; lia|]. destruct (c =? cSq)%N; [apply IH in H; lia|].
  destruct (starts_with p (c :: rest)); [injection H as <-; lia|]. apply IH in H; lia.
Qed.
Lemma angles_app a b : angles (a ++ b) = angles a + angles b.
Proof. apply count_occ_app. Qed.
Lemma angles_cons c s : angles (c :: s) = (if (c =? cLt)%N then 1 else 0) + angles s.
Proof.
  unfold angles. cbn [count_occ]. change cLt with lt_. destruct (N.eq_dec c lt_) as [->|N].
  - now rewrite N.eqb_refl.
  - apply N.eqb_neq in N. now rewrite N.
Qed.
Lemma nested_find_m_eq m n : room m n -> forall rest from i d q, from + i + blen rest <= n ->
  (N.of_nat (d + angles rest) < limit m)%N ->
  nested_find_from_m m rest from i (wrap d) q = Ok (nested_find_from rest (from + i) d q).
Proof.
  intro R. pose proof (limit_le m) as Lm. induction rest as [|c rest IH]; intros from i d q H L; [reflexivity|].
  rewrite angles_cons in L. cbn [nested_find_from_m nested_find_from blen] in *. pose proof (len_utf8_pos c).
  destruct q as [q|].
  - rewrite IH by lia. now rewrite Nat.add_assoc.
  - destruct (c =? cDq)%N; [rewrite IH by lia; now rewrite Nat.add_assoc|].
    destruct (c =? cSq)%N; [rewrite IH by lia; now rewrite Nat.add_assoc|].
    destruct (c =? cLt)%N eqn:Ec.
    + rewrite i32_succ by lia. cbn [bind]. rewrite IH by lia. now rewrite Nat.add_assoc.
    + destruct (c =? cGt)%N; [|rewrite IH by lia; now rewrite Nat.add_assoc].
      rewrite wrap_zero by lia. destruct d as [|d]; cbn [Nat.eqb].
      * rewrite (uadd_room m n) by (easy || lia). reflexivity.
      * rewrite i32_pred by lia. cbn [bind]. rewrite IH by lia. now rewrite Nat.add_assoc.
Qed.
Lemma nested_find_bound : forall rest i d q j, nested_find_from rest i d q = Some j -> j <= i + blen rest.
Proof.
  induction rest as [|c rest IH]; intros i d q j H; [discriminate|].
  cbn [nested_find_from blen] in *. destruct q as [q|]; [apply IH in H; lia|].
  destruct (c =? cDq)%N; [apply IH in H; lia|]. destruct (c =? cSq)%N; [apply IH in H; lia|].
  destruct (c =? cLt)%N; [apply IH in H; lia|].
  destruct (c =? cGt)%N; [destruct d; [injection H as <-; lia|]|]; apply IH in H; lia.
Qed.
Lemma find_sub_bound p s i : find_sub p s = Some i -> i <= blen s.
Proof. intro H. apply find_sub_some in H. destruct H as (a & b & -> & <- & _). rewrite !blen_app; lia. Qed.
Lemma end_of_tag_m_eq m n start k o : room m n -> k <= 3 -> (forall i, o = Some i -> i + start <= n) ->
  end_of_tag_m m start k o = Ok (add_opt (start + k) o).
Proof.
  intros R K H. destruct o as [i|]; [|reflexivity]. specialize (H i eq_refl). cbn [end_of_tag_m add_opt option_map].
  rewrite (uadd_room m n) by (easy || lia). cbn [bind]. rewrite (uadd_room m n) by (easy || lia). cbn [bind].
  now rewrite Nat.add_assoc.
Qed.
Lemma slice_from_len s i t : slice_from s i = Ok t -> i + blen t = blen s /\ angles t <= angles s.
Proof.
  unfold slice_from. intro H. destruct (bskip i s) as [r|] eqn:B; [|discriminate]. injection H as ->.
  apply bskip_inv in B. destruct B as (a & -> & <-). rewrite blen_app, angles_app. lia.
Qed.
Lemma slice_len s a b t : slice s a b = Ok t -> blen t <= blen s.
Proof. intro H. apply slice_parts in H. destruct H as (x & z & -> & _). rewrite !blen_app. lia. Qed.

Lemma quote_aware_find_m_eq m n text p from : room m n -> blen text <= n ->
  quote_aware_find_m m text p from = quote_aware_find text p from.
Proof.
  intros R H. unfold quote_aware_find_m, quote_aware_find. destruct (slice_from text from) as [r| | |] eqn:E; cbn [bind]; try reflexivity.
  apply slice_from_len in E. rewrite (quote_find_m_eq m p n R) by lia. now rewrite Nat.add_0_r.
Qed.
Lemma quote_aware_find_bound text p from j : quote_aware_find text p from = Ok (Some j) -> j <= blen text.
Proof.
  unfold quote_aware_find. destruct (slice_from text from) as [r| | |] eqn:E; cbn [bind]; try discriminate.
  intro H. injection H as H. apply quote_find_bound in H. apply slice_from_len in E. lia.
Qed.
Lemma nested_quote_aware_find_close_m_eq m n text from : room m n -> blen text <= n -> (N.of_nat (angles text) < limit m)%N ->
  nested_quote_aware_find_close_m m text from = nested_quote_aware_find_close text from.
Proof.
  intros R H L. unfold nested_quote_aware_find_close_m, nested_quote_aware_find_close.
  destruct (slice_from text from) as [r| | |] eqn:E; cbn [bind]; try reflexivity.
  apply slice_from_len in E. change 0%Z with (wrap 0). rewrite (nested_find_m_eq m n R) by lia. now rewrite Nat.add_0_r.
Qed.
Lemma nested_quote_aware_find_close_bound text from j : nested_quote_aware_find_close text from = Ok (Some j) -> j <= blen text.
Proof.
  unfold nested_quote_aware_find_close. destruct (slice_from text from) as [r| | |] eqn:E; cbn [bind]; try discriminate.
  intro H. injection H as H. apply nested_find_bound in H. apply slice_from_len in E. lia.
Qed.

Theorem next_tag_m_eq m s from : room m (blen s) -> (N.of_nat (angles s) < limit m)%N ->
  next_tag_m m s from = next_tag s from.
Proof.
  intros R L. unfold next_tag_m, next_tag. destruct (slice_from s from) as [tail| | |] eqn:E; cbn [bind]; try reflexivity.
  apply slice_from_len in E. destruct (find_sub (lit "<") tail) as [i|] eqn:F; cbn [add_opt option_map]; [|reflexivity].
  apply find_sub_bound in F. rewrite (uadd_room m (blen s)) by (easy || lia). cbn [bind].
  destruct (slice_from s (i + from)) as [sub| | |] eqn:E'; cbn [bind]; try reflexivity. apply slice_from_len in E'.
  assert (Hs : forall p j, find_sub p sub = Some j -> j + (i + from) <= blen s) by (intros p j H; apply find_sub_bound in H; lia).
  destruct (starts_with (lit "<!--") sub); [now rewrite (end_of_tag_m_eq m (blen s)) by (easy || lia || apply Hs)|].
  destruct (starts_with (lit "<?") sub).
  { rewrite (quote_aware_find_m_eq m (blen s)) by (easy || lia).
    destruct (quote_aware_find sub (lit "?>") 2) as [r| | |] eqn:Q; cbn [bind]; try reflexivity.
    rewrite (end_of_tag_m_eq m (blen s)); [reflexivity|easy|lia|]. intros j ->. apply quote_aware_find_bound in Q. lia. }
  destruct (starts_with (lit "<![CDATA[") sub); [now rewrite (end_of_tag_m_eq m (blen s)) by (easy || lia || apply Hs)|].
  destruct (starts_with (lit "<!") sub).
  { rewrite (nested_quote_aware_find_close_m_eq m (blen s)) by (easy || lia).
    destruct (nested_quote_aware_find_close sub 2) as [r| | |] eqn:Q; cbn [bind]; try reflexivity.
    rewrite (end_of_tag_m_eq m (blen s)); [reflexivity|easy|lia|]. intros j ->. apply nested_quote_aware_find_close_bound in Q. lia. }
  rewrite (quote_aware_find_m_eq m (blen s)) by (easy || lia).
  destruct (quote_aware_find sub (lit ">") 1) as [r| | |] eqn:Q; cbn [bind]; try reflexivity.
  rewrite (end_of_tag_m_eq m (blen s)); [reflexivity|easy|lia|]. intros j ->. apply quote_aware_find_bound in Q. lia.
Qed.

(** * Children *)

Lemma merge_text_loop_m_eq m : forall index fuel l, index <= fuel -> merge_text_loop_m m fuel index l = merge_text_loop index l.
Proof.
  induction index as [|i IH]; intros fuel l H; [now destruct fuel|].
  destruct fuel as [|fuel]; [lia|]. cbn [merge_text_loop_m merge_text_loop Nat.eqb].
  rewrite !usub_ok by lia. cbn [bind]. replace (S i - 1) with i by lia.
  destruct (vget l (S i)) as [a| | |]; cbn [bind]; try reflexivity.
  destruct (is_text a); [|cbn [bind]; apply IH; lia].
  destruct (vget l i) as [b| | |]; cbn [bind]; try reflexivity.
  destruct (is_text b); [|cbn [bind]; apply IH; lia].
  destruct (vremove l (S i)) as [x| | |]; cbn [bind]; try reflexivity.
  destruct (vremove (snd x) i) as [y| | |]; cbn [bind]; try reflexivity.
  destruct (expect (as_text (fst y))) as [f| | |]; cbn [bind]; try reflexivity.
  destruct (expect (as_text (fst x))) as [g| | |]; cbn [bind]; try reflexivity.
  destruct (vinsert (snd y) i (NText (text_concat f g))) as [z| | |]; cbn [bind]; try reflexivity. apply IH. lia.
Qed.
Theorem cleanup_text_nodes_m_eq m l : cleanup_text_nodes_m m l = cleanup_text_nodes l.
Proof.
  unfold cleanup_text_nodes_m, cleanup_text_nodes. destruct l as [|n l]; [reflexivity|].
  rewrite usub_ok by (cbn [List.length]; lia). cbn [bind]. rewrite merge_text_loop_m_eq by lia.
  destruct (merge_text_loop _ (n :: l)) as [l1| | |]; cbn [bind]; try reflexivity.
  destruct l1 as [|n1 l1]; [reflexivity|]. rewrite usub_ok by (cbn [List.length]; lia). reflexivity.
Qed.
Theorem append_m_eq m e n : append_m m e n = append e n.
Proof. unfold append_m, append. now rewrite cleanup_text_nodes_m_eq. Qed.
Theorem insert_m_eq m e i n : insert_m m e i n = insert e i n.
Proof.
  unfold insert_m, insert. destruct (List.length (e_children e) <? i); [reflexivity|].
  destruct (vinsert (e_children e) i n) as [l| | |]; cbn [bind]; try reflexivity.
  destruct (vget l (List.length l - 1)) as [x| | |]; cbn [bind]; try reflexivity.
  destruct (vset l (List.length l - 1) _) as [y| | |]; cbn [bind]; try reflexivity. now rewrite cleanup_text_nodes_m_eq.
Qed.
Theorem set_text_m_eq m e t : set_text_m m e t = set_text e t.
Proof. apply append_m_eq. Qed.
Lemma push_recording_m_eq m : forall nodes i ch idx, (N.of_nat (i + List.length nodes) < words m)%N ->
  push_recording_m m nodes i ch idx = Ok (push_recording nodes i ch idx).
Proof.
  induction nodes as [|c nodes IH]; intros i ch idx H; [reflexivity|]. cbn [push_recording_m push_recording List.length] in *.
  rewrite uadd_ok by lia. cbn [bind]. rewrite Nat.add_1_r. apply IH. lia.
Qed.
Theorem append_all_m_eq m e nodes : (N.of_nat (List.length (e_children e) + List.length nodes) < words m)%N ->
  append_all_m m e nodes = append_all e nodes.
Proof.
  intro H. unfold append_all_m, append_all. rewrite push_recording_m_eq by easy. cbn [bind].
  destruct (push_recording nodes _ (e_children e) []) as [l idx]. cbn [fst snd].
  destruct (apply_at _ _ idx l) as [l1| | |]; cbn [bind]; try reflexivity. now rewrite cleanup_text_nodes_m_eq.
Qed.

Definition weight (l : list node) : nat := List.length (flat_map (fun n => n :: below n) l).
Lemma weight_cons n l : weight (n :: l) = S (List.length (below n)) + weight l.
Proof. unfold weight. cbn [flat_map]. rewrite app_length. reflexivity. Qed.
Lemma weight_filter p l : List.length (filter p l) + weight (filter (fun n => negb (p n)) l) <= weight l.
Proof.
  induction l as [|n l IH]; [reflexivity|]. cbn [filter]. destruct (p n); cbn [negb List.length]; rewrite !weight_cons; lia.
Qed.
Lemma pruned_weight p l l' k : pruned p l l' k -> k <= weight l.
Proof.
  induction 1 as [|n l l' k Hp H IH|n l l' k Hp Hn H IH|e ch' l l' k1 k2 Hp Hc IHc H IH]; rewrite ?weight_cons; try lia.
  cbn [below]. rewrite descendants_eq. fold (weight (e_children e)). lia.
Qed.
Lemma remove_all_count p e e' k : remove_all p e = Ok (e', k) -> k <= List.length (descendants e).
Proof.
  intro H. destruct (remove_all_pruned p e) as (l' & k' & E & P). rewrite H in E. injection E as _ <-.
  apply pruned_weight in P. now rewrite descendants_eq.
Qed.
Definition annotate_m (m : machine) (p : node -> bool) (c : node) : node * outcome (elem * nat) :=
  (c, match c with NElem c' => remove_all_m m p c' | _ => Panic end).
Lemma remove_all_m_unfold m p e : remove_all_m m p e =
  do r <- remove_by_vec (fun a => p (fst a)) (map (annotate_m m p) (e_children e));
  do rec <- collect_removed_m m (fst r) (snd r);
  Ok (set_children e (fst rec), snd rec).
Proof.
  destruct e as [nm ch at_ ns px cx]. cbn [remove_all_m e_children].
  match goal with |- bind (remove_by_vec _ ?x) _ = _ => assert (x = map (annotate_m m p) ch) as -> end.
  { induction ch as [|c ch IH]; [easy|]. cbn [map]. now rewrite IH. }
  reflexivity.
Qed.
Lemma collect_removed_m_eq m p : forall l count,
  (forall c, In (NElem c) l -> remove_all_m m p c = remove_all p c) ->
  (N.of_nat (count + weight l) < words m)%N ->
  collect_removed_m m (map (annotate_m m p) l) count =
  do rest <- collect_removed (map (annotate p) l); Ok (fst rest, count + snd rest).
Proof.
  induction l as [|n l IH]; intros count H B.
  { cbn. now rewrite Nat.add_0_r. }
  rewrite weight_cons in B. cbn [map annotate_m annotate collect_removed_m collect_removed].
  destruct n as [c|s|s|s].
  - rewrite (H c) by now left. destruct (remove_all p c) as [[c' k]| | |] eqn:E; cbn [bind]; try reflexivity.
    cbn [fst snd]. apply remove_all_count in E. cbn [below] in B. rewrite uadd_ok by lia. cbn [bind].
    rewrite IH; [|intros; apply H; now right|lia].
    destruct (collect_removed (map (annotate p) l)) as [[r j]| | |]; cbn [bind fst snd]; try reflexivity.
    now rewrite Nat.add_assoc.
  - rewrite IH; [|intros; apply H; now right|lia]. destruct (collect_removed (map (annotate p) l)) as [[r j]| | |]; reflexivity.
  - rewrite IH; [|intros; apply H; now right|lia]. destruct (collect_removed (map (annotate p) l)) as [[r j]| | |]; reflexivity.
  - rewrite IH; [|intros; apply H; now right|lia]. destruct (collect_removed (map (annotate p) l)) as [[r j]| | |]; reflexivity.
Qed.
Lemma weight_in c l : In (NElem c) l -> List.length (descendants c) <= weight l.
Proof.
  induction l as [|n l IH]; [easy|]. intros [->|H]; rewrite weight_cons; [cbn [below]; lia|]. specialize (IH H). lia.
Qed.
Theorem remove_all_m_eq m p : forall e, (N.of_nat (List.length (descendants e)) < words m)%N ->
  remove_all_m m p e = remove_all p e.
Proof.
  induction e as [e IH] using elem_ind'. intro B. rewrite descendants_eq in B. fold (weight (e_children e)) in B.
  rewrite remove_all_m_unfold, remove_all_unfold, !remove_by_vec_eq. cbn [bind fst snd].
  rewrite !filter_map. cbn [annotate annotate_m fst]. rewrite !map_length. change (fun x => p x) with p.
  pose proof (weight_filter p (e_children e)) as W.
  rewrite collect_removed_m_eq.
  - destruct (collect_removed _) as [[r j]| | |]; reflexivity.
  - intros c Hc. apply filter_In in Hc. destruct Hc as [Hc _]. apply IH; [easy|]. pose proof (weight_in c _ Hc). lia.
  - lia.
Qed.
Theorem remove_all_elements_m_eq m p e : (N.of_nat (List.length (descendants e)) < words m)%N ->
  remove_all_elements_m m p e = remove_all_elements p e.
Proof.
  intro B. rewrite descendants_eq in B. fold (weight (e_children e)) in B. pose proof (weight_filter (elem_pred p) (e_children e)) as W.
  unfold remove_all_elements_m, remove_all_elements. rewrite remove_by_eq. cbn [bind fst snd e_children set_children].
  fold (annotate_m m (elem_pred p)). change (fun c => (c, match c with NElem c' => remove_all (elem_pred p) c' | _ => Panic end)) with (annotate (elem_pred p)).
  change (fun c => (c, match c with NElem c' => remove_all_m m (elem_pred p) c' | _ => Panic end)) with (annotate_m m (elem_pred p)).
  rewrite collect_removed_m_eq.
  - destruct (collect_removed _) as [[r j]| | |]; reflexivity.
  - intros c Hc. apply filter_In in Hc. destruct Hc as [Hc _]. apply remove_all_m_eq. pose proof (weight_in c _ Hc). lia.
  - lia.
Qed.

(** * The parse tree *)

Lemma to_dom_step_m_eq m i data : to_dom_step_m m i data = to_dom_step i data.
Proof.
  unfold to_dom_step_m, to_dom_step. destruct (unwrap (dget i data)) as [n| | |]; cbn [bind]; try reflexivity.
  destruct (unwrap (pt_parent n)) as [pi| | |]; cbn [bind]; try reflexivity.
  destruct (unwrap (dget pi (ddel i data))) as [pn| | |]; cbn [bind]; try reflexivity.
  destruct (expect (as_element (pt_value pn))) as [pe| | |]; cbn [bind]; try reflexivity. now rewrite append_m_eq.
Qed.
Lemma to_dom_loop_m_eq m : forall k data, to_dom_loop_m m k data = to_dom_loop k data.
Proof.
  induction k as [|k IH]; intro data; [reflexivity|]. cbn [to_dom_loop_m to_dom_loop]. rewrite to_dom_step_m_eq.
  destruct (to_dom_step (S k) data); cbn [bind]; [apply IH|reflexivity..].
Qed.
Lemma pt_to_dom_m_eq m t : pt_to_dom_m m t = pt_to_dom t.
Proof. unfold pt_to_dom_m, pt_to_dom. destruct (t_data t); [reflexivity|]. now rewrite to_dom_loop_m_eq. Qed.

(** * Elements *)

Fixpoint total (l : list str) : nat := match l with [] => 0 | s :: l' => blen s + total l' end.
Lemma total_app a b : total (a ++ b) = total a + total b.
Proof. induction a as [|x a IH]; [reflexivity|]. cbn [app total]. lia. Qed.
Lemma total_push b vec : total (push_builder b vec) = blen b + total vec.
Proof. destruct b as [|c b]; [reflexivity|]. cbn [push_builder]. rewrite total_app. cbn [total]. lia. Qed.
Lemma total_split : forall s b vec q, total (quote_aware_split_from s b vec q) <= blen s + blen b + total vec.
Proof.
  induction s as [|c s IH]; intros b vec q; cbn [quote_aware_split_from blen]; [rewrite total_push; lia|].
  destruct q as [q|].
  - etransitivity; [apply IH|]. rewrite blen_app. cbn [blen]. lia.
  - destruct ((c =? cSq)%N || (c =? cDq)%N).
    + etransitivity; [apply IH|]. rewrite blen_app. cbn [blen]. lia.
    + destruct (is_whitespace c).
      * etransitivity; [apply IH|]. rewrite total_push. cbn [blen]. lia.
      * etransitivity; [apply IH|]. rewrite blen_app. cbn [blen]. lia.
Qed.
Lemma total_join : forall n l, List.length l <= n -> total (join_loop l) = total l.
Proof.
  induction n as [|n IH]; intros l H; [destruct l; [reflexivity|cbn in H; lia]|].
  destruct l as [|c [|f1 [|f2 l]]]; [reflexivity|reflexivity| |].
  - cbn [join_loop]. destruct (should_join c f1); cbn [total]; rewrite ?blen_app; lia.
  - assert (E : join_loop (c :: f1 :: f2 :: l) =
      if should_join c f1 then
        if should_join (c ++ f1) f2 then (c ++ f1 ++ f2) :: join_loop l else (c ++ f1) :: join_loop (f2 :: l)
      else c :: join_loop (f1 :: f2 :: l)) by reflexivity.
    rewrite E. cbn [List.length] in H.
    destruct (should_join c f1).
    + destruct (should_join (c ++ f1) f2); cbn [total]; rewrite ?blen_app, IH by (cbn [List.length]; lia); cbn [total]; lia.
    + cbn [total]. rewrite IH by (cbn [List.length]; lia). cbn [total]. lia.
Qed.
Lemma total_components s : total (join_spaced_attributes (quote_aware_split s)) <= blen s.
Proof.
  pose proof (total_split s [] [] None) as H. unfold quote_aware_split. cbn [blen total] in H.
  destruct (quote_aware_split_from s [] [] None) as [|t l]; cbn [join_spaced_attributes total] in *; [lia|].
  rewrite (total_join (List.length l)) by lia. lia.
Qed.

Lemma parse_attrs_m_eq m buffer pos : room m (blen buffer) -> forall comps attrs, total comps <= blen buffer ->
  parse_attrs_m m comps buffer pos attrs = parse_attrs comps buffer pos attrs.
Proof.
  intro R. induction comps as [|kv comps IH]; intros attrs H; [reflexivity|]. cbn [total] in H.
  cbn [parse_attrs_m parse_attrs]. rewrite !fail_m_eq by easy.
  destruct (negb (contains (lit "=") kv)); [reflexivity|].
  destruct (split_once cEq kv) as [[k v]|] eqn:S; [|reflexivity]. cbn [unwrap bind fst snd].
  apply split_once_some in S. destruct S as [-> _]. rewrite blen_app in H. cbn [blen] in H.
  destruct (Nat.eqb_spec (blen v) 0) as [|Nv]; [reflexivity|].
  destruct ((blen v <? 2) || _); [reflexivity|]. rewrite usub_ok by lia. cbn [bind].
  destruct (slice v 1 (blen v - 1)) as [w| | |] eqn:E; cbn [bind]; try reflexivity.
  apply slice_len in E. rewrite unescape_m_eq by (apply room_le with (blen buffer); [lia|easy]).
  destruct (unescape w) as [u| | |]; cbn [bind]; try reflexivity. apply IH. lia.
Qed.
Lemma parse_new_element_m_eq m tag buffer pos parent : room m (blen buffer) -> blen tag <= blen buffer ->
  parse_new_element_m m tag buffer pos parent = parse_new_element tag buffer pos parent.
Proof.
  intros R H. unfold parse_new_element_m, parse_new_element. pose proof (total_components tag) as T.
  destruct (join_spaced_attributes (quote_aware_split tag)) as [|nm comps]; [now rewrite fail_m_eq|].
  cbn [total] in T. rewrite parse_attrs_m_eq by (easy || lia).
  destruct (parse_attrs comps buffer pos []) as [attrs| | |]; cbn [bind]; try reflexivity.
  destruct (split_once cColon nm) as [[a b]|]; [|reflexivity].
  destruct (ahas (sXmlnsC ++ a) attrs); [reflexivity|]. destruct parent; [reflexivity|]. now rewrite fail_m_eq.
Qed.

Lemma trim_len s : blen (trim s) <= blen s.
Proof. destruct (trim_spec s) as (w1 & w2 & E & _). apply (f_equal blen) in E. rewrite !blen_app in E. lia. Qed.
Lemma slice_to_len s i t : slice_to s i = Ok t -> blen t <= blen s.
Proof.
  unfold slice_to. intro H. destruct (btake i s) as [r|] eqn:B; [|discriminate]. injection H as ->.
  apply btake_inv in B. destruct B as (b & -> & _). rewrite blen_app. lia.
Qed.
Lemma strip_tag_len s t : strip_tag s = Ok t -> blen t <= blen s.
Proof.
  unfold strip_tag. intro H.
  destruct (if starts_with (lit "<") s then slice_from s 1 else Ok s) as [a| | |] eqn:A; cbn [bind] in H; try discriminate.
  assert (La : blen a <= blen s) by (destruct (starts_with (lit "<") s); [apply slice_from_len in A; lia|now injection A as ->]).
  destruct (if starts_with (lit "/") a then slice_from a 1 else Ok a) as [b| | |] eqn:B; cbn [bind] in H; try discriminate.
  assert (Lb : blen b <= blen a) by (destruct (starts_with (lit "/") a); [apply slice_from_len in B; lia|now injection B as ->]).
  destruct (if ends_with (lit ">") b then slice_to b (blen b - 1) else Ok b) as [c| | |] eqn:C; cbn [bind] in H; try discriminate.
  assert (Lc : blen c <= blen b) by (destruct (ends_with (lit ">") b); [now apply slice_to_len in C|now injection C as ->]).
  destruct (if ends_with (lit "/") c then slice_to c (blen c - 1) else Ok c) as [d| | |] eqn:D; cbn [bind] in H; try discriminate.
  assert (Ld : blen d <= blen c) by (destruct (ends_with (lit "/") c); [now apply slice_to_len in D|now injection D as ->]).
  injection H as <-. pose proof (trim_len d). lia.
Qed.

(** * The main loops *)

Lemma parse_tag_m_eq m buffer slc pos t : room m (blen buffer) -> blen slc <= blen buffer ->
  parse_tag_m m buffer slc pos t = parse_tag buffer slc pos t.
Proof.
  intros R H. unfold parse_tag_m, parse_tag. rewrite !fail_m_eq, !abbreviate_m_eq, !line_and_column_m_eq, !at_pos_m_eq by easy.
  destruct (starts_with (lit "<!--") slc && ends_with (lit "-->") slc).
  { destruct (4 <? blen slc - 3); [|reflexivity].
    destruct (slice slc 4 (blen slc - 3)) as [x| | |]; cbn [bind]; try reflexivity.
    destruct (comment_new x) as [y| | |]; cbn [bind]; try reflexivity. now rewrite at_pos_m_eq. }
  destruct (starts_with (lit "<![CDATA[") slc).
  { destruct (negb (ends_with (lit "]]>") slc)); [reflexivity|].
    destruct (slice slc 9 (blen slc - 3)) as [x| | |]; cbn [bind]; try reflexivity.
    destruct (cdata_new x) as [y| | |]; cbn [bind]; try reflexivity. now rewrite at_pos_m_eq. }
  destruct (starts_with (lit "<!") slc); [reflexivity|].
  destruct (strip_tag slc) as [d| | |] eqn:E; cbn [bind]; try reflexivity. apply strip_tag_len in E.
  destruct (map_err (check_element_tag slc) (at_pos buffer pos)); cbn [bind]; try reflexivity.
  destruct (starts_with (lit "</") slc).
  - destruct (pt_top_element t) as [[top|]| | |]; cbn [bind]; try reflexivity.
    destruct (negb (str_eqb d (tag_name top))); [now rewrite fail_m_eq|reflexivity].
  - destruct (pt_top_element t) as [top| | |]; cbn [bind]; try reflexivity.
    rewrite parse_new_element_m_eq by (easy || lia).
    destruct (parse_new_element d buffer pos top) as [e| | |]; cbn [bind]; try reflexivity.
    destruct (ends_with (lit "/>") slc); [|reflexivity]. now rewrite at_pos_m_eq.
Qed.
Lemma content_loop_m_eq m buffer sc : room m (blen buffer) -> (N.of_nat (angles buffer) < limit m)%N -> forall fuel span t,
  content_loop_m m fuel buffer sc span t = content_loop fuel buffer sc span t.
Proof.
  intros R L. induction fuel as [|fuel IH]; intros span t; [reflexivity|]. cbn [content_loop_m content_loop].
  rewrite next_tag_m_eq by easy.
  destruct (next_tag buffer (snd span)) as [[[a|] [b|]]| | |]; cbn [bind]; try reflexivity; try (now rewrite fail_m_eq).
  rewrite fail_m_eq by easy. destruct sc; [reflexivity|].
  destruct (slice buffer (snd span) a) as [txt| | |] eqn:S; cbn [bind]; try reflexivity. apply slice_len in S.
  rewrite real_text_m_eq by (apply room_le with (blen buffer); easy).
  destruct (real_text txt) as [rt| | |]; cbn [bind]; try reflexivity.
  assert (E : match rt with None => Ok t | Some content => at_pos_m m (pt_append t (NText content)) buffer a end =
              match rt with None => Ok t | Some content => map_err (pt_append t (NText content)) (at_pos buffer a) end)
    by (destruct rt; [now rewrite at_pos_m_eq|reflexivity]).
  rewrite E. clear E.
  destruct (match rt with None => Ok t | Some content => map_err (pt_append t (NText content)) (at_pos buffer a) end) as [t'| | |];
    cbn [bind]; try reflexivity.
  destruct (slice buffer a b) as [slc| | |] eqn:S'; cbn [bind]; try reflexivity. apply slice_len in S'.
  rewrite parse_tag_m_eq by easy. destruct (parse_tag buffer slc a t') as [t''| | |]; cbn [bind]; try reflexivity. apply IH.
Qed.
Lemma prefix_blen (a b a' b' : str) : a ++ b = a' ++ b' -> blen a = blen a' -> a = a'.
Proof.
  revert a'. induction a as [|c a IH]; intros [|c' a'] E L; cbn [blen] in L; [reflexivity|exfalso..|].
  - pose proof (len_utf8_pos c'). lia.
  - pose proof (len_utf8_pos c). lia.
  - cbn [app] in E. injection E as -> E. f_equal. apply IH; [easy|lia].
Qed.
(** [n] is at most the number of '<' before byte [p]. *)
Definition seen (buffer : str) (p n : nat) : Prop :=
  exists pre suf, buffer = pre ++ suf /\ blen pre = p /\ n <= angles pre.
Lemma seen_angles s p n : seen s p n -> n <= angles s.
Proof. intros (pre & suf & -> & _ & H). rewrite angles_app. lia. Qed.
Lemma seen_later s p n a b txt slc : seen s p n -> slice s p a = Ok txt -> slice s a b = Ok slc -> seen s b n.
Proof.
  intros (pre & suf & E & <- & H) H1 H2. apply slice_parts in H1. destruct H1 as (x & z & E1 & L1 & ->).
  apply slice_parts in H2. destruct H2 as (x' & z' & E2 & L2 & ->).
  assert (x = pre) as -> by (apply (prefix_blen x (txt ++ z) pre suf); congruence).
  assert (x' = pre ++ txt) as ->.
  { apply (prefix_blen x' (slc ++ z') (pre ++ txt) z); [rewrite <- app_assoc; congruence|rewrite blen_app; lia]. }
  exists ((pre ++ txt) ++ slc), z'. rewrite <- (app_assoc _ slc). split; [easy|]. rewrite !blen_app, !angles_app. lia.
Qed.
Lemma seen_comment s p n a b txt slc : seen s p n -> slice s p a = Ok txt -> slice s a b = Ok slc -> starts_with (lit "<!--") slc = true ->
  seen s b (S n).
Proof.
  intros (pre & suf & E & <- & H) H1 H2 B. apply slice_parts in H1. destruct H1 as (x & z & E1 & L1 & ->).
  apply slice_parts in H2. destruct H2 as (x' & z' & E2 & L2 & ->).
  assert (x = pre) as -> by (apply (prefix_blen x (txt ++ z) pre suf); congruence).
  assert (x' = pre ++ txt) as ->.
  { apply (prefix_blen x' (slc ++ z') (pre ++ txt) z); [rewrite <- app_assoc; congruence|rewrite blen_app; lia]. }
  exists ((pre ++ txt) ++ slc), z'. rewrite <- (app_assoc _ slc). split; [easy|]. split; [rewrite !blen_app; lia|].
  apply starts_with_spec in B. destruct B as [r ->]. rewrite !angles_app. change (angles (lit "<!--")) with 1. lia.
Qed.

Lemma prolog_loop_m_eq m buffer : room m (blen buffer) -> (N.of_nat (angles buffer) < limit m)%N -> forall fuel decl dtds n span,
  seen buffer (snd span) n ->
  prolog_loop_m m fuel buffer decl dtds (wrap n) span = prolog_loop fuel buffer decl dtds n span.
Proof.
  intros R L. pose proof (limit_le m) as Lm. induction fuel as [|fuel IH]; intros decl dtds n span K; [reflexivity|]. cbn [prolog_loop_m prolog_loop].
  rewrite next_tag_m_eq by easy.
  destruct (next_tag buffer (snd span)) as [[[a|] [b|]]| | |]; cbn [bind]; try reflexivity; try (now rewrite fail_m_eq).
  destruct (slice buffer (snd span) a) as [txt| | |] eqn:S; cbn [bind]; try reflexivity. pose proof (slice_len _ _ _ _ S) as Lt.
  rewrite real_text_m_eq by (apply room_le with (blen buffer); easy).
  destruct (real_text txt) as [[rt|]| | |]; cbn [bind]; try reflexivity; try (now rewrite fail_m_eq).
  destruct (slice buffer a b) as [slc| | |] eqn:S'; cbn [bind]; try reflexivity.
  assert (K' : seen buffer (snd (a, b)) n) by (now apply (seen_later buffer (snd span) n a b txt slc)).
  rewrite !fail_m_eq by easy.
  destruct (starts_with (lit "<?xml") slc).
  { destruct (negb (fst span =? 0)); [reflexivity|]. destruct (declaration_from_str slc); cbn [bind]; try reflexivity. now apply IH. }
  destruct (starts_with (lit "<!--") slc) eqn:B.
  { pose proof (seen_comment buffer (snd span) n a b txt slc K S S' B) as K2. pose proof (seen_angles _ _ _ K2).
    rewrite wrap_zero by lia. rewrite abbreviate_m_eq.
    destruct (if n =? 0 then do _ <- abbreviate slc 32; Ok tt else Ok tt); cbn [bind]; try reflexivity.
    rewrite i32_succ by lia. cbn [bind]. now apply IH. }
  destruct (starts_with (lit "<!DOCTYPE") slc).
  { destruct (dtd_from_string slc); cbn [bind]; try reflexivity. now apply IH. }
  destruct (starts_with (lit "<!") slc); [now apply IH|].
  destruct (starts_with (lit "</") slc); [reflexivity|].
  destruct (check_element_tag slc); cbn [map_err bind]; reflexivity.
Qed.

Theorem parse_str_m_eq m s : real_machine m -> allocated m s -> few_angles m s -> parse_str_m m s = parse_str s.
Proof.
  intros M A L. pose proof (allocated_room m s M A) as R. assert (L' : (N.of_nat (angles s) < limit m)%N) by exact L.
  unfold parse_str_m, parse_str. change 0%Z with (wrap 0). rewrite prolog_loop_m_eq; [|easy..|exists [], s; easy || (repeat split; cbn; lia)].
  destruct (prolog_loop (S (blen s)) s None [] 0 (0, 0)) as [[[decl dtds] span]| | |]; cbn [bind]; try reflexivity.
  destruct (slice s (fst span) (snd span)) as [slc| | |] eqn:Es; cbn [bind]; try reflexivity. apply slice_len in Es.
  destruct (strip_tag slc) as [d| | |] eqn:D; cbn [bind]; try reflexivity. apply strip_tag_len in D.
  rewrite parse_new_element_m_eq by (easy || lia).
  destruct (parse_new_element d s (fst span) None) as [root| | |]; cbn [bind]; try reflexivity.
  destruct (pt_push pt_new root) as [t| | |]; cbn [bind]; try reflexivity.
  destruct (if ends_with (lit "/>") slc then pt_pop t else Ok t) as [t'| | |]; cbn [bind]; try reflexivity.
  rewrite content_loop_m_eq by easy.
  destruct (content_loop (S (blen s)) s (ends_with (lit "/>") slc) span t') as [t2| | |]; cbn [bind]; try reflexivity.
  destruct (negb (pt_empty_stack t2)); [reflexivity|]. now rewrite pt_to_dom_m_eq.
Qed.
Lemma angles_blen s : angles s <= blen s.
Proof.
  induction s as [|c s IH]; [reflexivity|]. rewrite angles_cons. cbn [blen]. pose proof (len_utf8_pos c).
  destruct (c =? cLt)%N; lia.
Qed.
Theorem parse_str_32 m s : words m = (2 ^ 32)%N -> allocated m s -> parse_str_m m s = parse_str s.
Proof.
  intros W A. apply parse_str_m_eq; [unfold real_machine; rewrite W; now vm_compute|easy|].
  unfold allocated in A. rewrite W in A. pose proof (angles_blen s). unfold few_angles.
  change (2 ^ 32)%N with 4294967296%N in *. change (2 ^ 31)%N with 2147483648%N. destruct (checks m); lia.
Qed.

(** * What happens beyond the limits *)

Lemma repeat_angles_checked m : checks m = true -> forall n from i d tail, (Z.of_nat d <= 2147483647 < Z.of_nat (d + n))%Z ->
  nested_find_from_m m (repeat lt_ n ++ tail) from i (Z.of_nat d) None = Panic.
Proof.
  intro C. induction n as [|n IH]; intros from i d tail H; [lia|]. cbn [repeat app nested_find_from_m].
  change (lt_ =? cDq)%N with false. change (lt_ =? cSq)%N with false. change (lt_ =? cLt)%N with true. cbn iota.
  unfold i32. destruct (Z.leb_spec (-2147483648) (Z.of_nat d + 1)) as [_|]; [|lia].
  destruct (Z.leb_spec (Z.of_nat d + 1) 2147483647); cbn [andb].
  - cbn [bind]. replace (Z.of_nat d + 1)%Z with (Z.of_nat (S d)) by lia. apply IH. lia.
  - rewrite C. reflexivity.
Qed.
Lemma repeat_angles_wrapped m : checks m = false -> forall n from i d tail,
  nested_find_from_m m (repeat lt_ n ++ tail) from i (wrap d) None = nested_find_from_m m tail from (i + n) (wrap (d + n)) None.
Proof.
  intro C. induction n as [|n IH]; intros from i d tail; [now rewrite !Nat.add_0_r|]. cbn [repeat app nested_find_from_m].
  change (lt_ =? cDq)%N with false. change (lt_ =? cSq)%N with false. change (lt_ =? cLt)%N with true. cbn iota.
  rewrite (i32_wrap m _ (S d)).
  - cbn [bind]. rewrite IH. change (len_utf8 lt_) with 1. f_equal; [lia|]. f_equal. lia.
  - congruence.
  - unfold wrap. f_equal.
    replace ((Z.of_nat d + 2147483648) mod 4294967296 - 2147483648 + 1 + 2147483648)%Z
      with ((Z.of_nat d + 2147483648) mod 4294967296 + 1)%Z by lia.
    rewrite Zplus_mod_idemp_l. f_equal. lia.
Qed.
Lemma repeat_angles_ideal : forall n i d tail,
  nested_find_from (repeat lt_ n ++ tail) i d None = nested_find_from tail (i + n) (d + n) None.
Proof.
  induction n as [|n IH]; intros i d tail; [now rewrite !Nat.add_0_r|]. cbn [repeat app nested_find_from].
  change (lt_ =? cDq)%N with false. change (lt_ =? cSq)%N with false. change (lt_ =? cLt)%N with true. cbn iota.
  rewrite IH. change (len_utf8 lt_) with 1. f_equal; lia.
Qed.

(** "<!<<<...<" followed by a tail *)
Definition nested (n : nat) (tail : str) : str := lit "<!" ++ repeat lt_ n ++ tail.
Lemma next_tag_m_nested m n tail : 0 < n -> next_tag_m m (nested n tail) 0 =
  (do start <- uadd m 0 0;
   do r <- nested_find_from_m m (repeat lt_ n ++ tail) 2 0 0 None;
   do e <- end_of_tag_m m start 1 r; Ok (Some start, e)) \/ uadd m 0 0 <> Ok 0.
Proof.
  intro H. destruct (uadd m 0 0) as [z| | |] eqn:U; [|right; discriminate..].
  destruct z; [|right; discriminate]. left. unfold next_tag_m. rewrite slice_from_0. cbn [bind].
  change (find_sub (lit "<") (nested n tail)) with (Some 0). cbv iota. rewrite U. cbn [bind]. rewrite slice_from_0. cbn [bind].
  destruct n as [|n]; [lia|].
  change (starts_with (lit "<!--") (nested (S n) tail)) with false.
  change (starts_with (lit "<?") (nested (S n) tail)) with false.
  change (starts_with (lit "<![CDATA[") (nested (S n) tail)) with false.
  change (starts_with (lit "<!") (nested (S n) tail)) with true. cbv iota.
  unfold nested_quote_aware_find_close_m. change 2 with (blen (lit "<!")) at 1. unfold nested. rewrite slice_from_app. reflexivity.
Qed.
Lemma next_tag_nested n tail : 0 < n -> next_tag (nested n tail) 0 = Ok (Some 0, add_opt 1 (nested_find_from tail (2 + n) n None)).
Proof.
  intro H. unfold next_tag. rewrite slice_from_0. cbn [bind].
  change (find_sub (lit "<") (nested n tail)) with (Some 0). cbn [add_opt option_map plus]. rewrite slice_from_0. cbn [bind].
  destruct n as [|n]; [lia|].
  change (starts_with (lit "<!--") (nested (S n) tail)) with false.
  change (starts_with (lit "<?") (nested (S n) tail)) with false.
  change (starts_with (lit "<![CDATA[") (nested (S n) tail)) with false.
  change (starts_with (lit "<!") (nested (S n) tail)) with true. cbv iota.
  unfold nested_quote_aware_find_close. change 2 with (blen (lit "<!")) at 1. unfold nested. rewrite slice_from_app. cbn [bind].
  rewrite repeat_angles_ideal. reflexivity.
Qed.
Lemma uadd_0 m : (0 < words m)%N -> uadd m 0 0 = Ok 0.
Proof. intro H. apply (uadd_ok m 0 0). exact H. Qed.

(** With overflow checks: a panic. *)
Theorem checked_panics m : (0 < words m)%N -> checks m = true -> forall n tail, (2 ^ 31 <= N.of_nat n)%N ->
  parse_str_m m (nested n tail) = Panic.
Proof.
  intros W C n tail H. change (2 ^ 31)%N with 2147483648%N in H. unfold parse_str_m. cbn [prolog_loop_m snd].
  destruct (next_tag_m_nested m n tail) as [E|E]; [lia| |exfalso; now rewrite uadd_0 in E].
  rewrite E, uadd_0 by easy. cbn [bind]. change 0%Z with (Z.of_nat 0). rewrite (repeat_angles_checked m C) by lia. reflexivity.
Qed.
(** The ideal parser finds no end of the tag. *)
Lemma nested_rejected n tail : 0 < n -> nested_find_from tail (2 + n) n None = None ->
  parse_str (nested n tail) = Err (perr PNoClose (nested n tail) 0).
Proof.
  intros H N. unfold parse_str. cbn [prolog_loop snd]. rewrite next_tag_nested, N by easy. reflexivity.
Qed.
(** Without overflow checks: the counter is 0 again after 2^32 '<'. *)
Definition swallowed (n : nat) : str := nested n (lit "><a/>").
Lemma blen_repeat n : blen (repeat lt_ n) = n.
Proof. induction n as [|n IH]; [reflexivity|]. cbn [repeat blen]. rewrite IH. reflexivity. Qed.
Theorem wrapped_accepts m n : words m = (2 ^ 64)%N -> checks m = false -> N.of_nat n = (2 ^ 32)%N ->
  parse_str_m m (swallowed n) = parse_str (lit "<a/>").
Proof.
  destruct m as [w c]. cbn [words checks]. intros -> -> H. change (2 ^ 32)%N with 4294967296%N in H.
  set (m := mkMachine (2 ^ 64) false).
  set (T := lit "<!" ++ repeat lt_ n ++ lit ">").
  assert (Es : swallowed n = T ++ lit "<a/>") by (unfold swallowed, nested, T; now rewrite <- !app_assoc).
  assert (LT : blen T = n + 3) by (unfold T; rewrite !blen_app, blen_repeat; cbn; lia).
  assert (Ls : blen (swallowed n) = S (S (n + 5))) by (rewrite Es, blen_app, LT; cbn; lia).
  assert (U : forall a b, a + b <= n + 10 -> uadd m a b = Ok (a + b)).
  { intros a b L. apply uadd_ok. subst m. cbn [words]. change (2 ^ 64)%N with 18446744073709551616%N. lia. }
  assert (N1 : next_tag_m m (swallowed n) 0 = Ok (Some 0, Some (n + 3))).
  { unfold swallowed. destruct (next_tag_m_nested m n (lit "><a/>")) as [E|E]; [lia| |exfalso; now rewrite U in E by lia].
    rewrite E, U by lia. cbn [bind]. change 0%Z with (wrap 0). rewrite repeat_angles_wrapped by easy.
    assert (W : wrap (0 + n) = 0%Z) by (unfold wrap; replace (Z.of_nat (0 + n)) with 4294967296%Z by lia; reflexivity).
    rewrite W. change (lit "><a/>") with (cGt :: lit "<a/>"). cbn [nested_find_from_m].
    change (cGt =? cDq)%N with false. change (cGt =? cSq)%N with false. change (cGt =? cLt)%N with false.
    change (cGt =? cGt)%N with true. change (0 =? 0)%Z with true. cbv iota. rewrite U by lia. cbn [bind end_of_tag_m].
    rewrite U by lia. cbn [bind]. rewrite U by lia. cbn [bind]. do 3 f_equal. lia. }
  assert (N2 : next_tag_m m (swallowed n) (n + 3) = Ok (Some (n + 3), Some (n + 7))).
  { unfold next_tag_m. rewrite Es, <- LT, slice_from_app, LT. cbn [bind].
    change (find_sub (lit "<") (lit "<a/>")) with (Some 0). cbv iota. rewrite U by lia. cbn [bind plus].
    rewrite <- LT, slice_from_app, LT. cbn [bind].
    change (starts_with (lit "<!--") (lit "<a/>")) with false. change (starts_with (lit "<?") (lit "<a/>")) with false.
    change (starts_with (lit "<![CDATA[") (lit "<a/>")) with false. change (starts_with (lit "<!") (lit "<a/>")) with false. cbv iota.
    replace (quote_aware_find_m m (lit "<a/>") (lit ">") 1) with (@Ok (option nat) (Some 3)) by (vm_compute; reflexivity).
    cbn [bind end_of_tag_m]. rewrite U by lia. cbn [bind]. rewrite U by lia. cbn [bind]. do 3 f_equal. lia. }
  assert (N3 : next_tag_m m (swallowed n) (n + 7) = Ok (None, None)).
  { unfold next_tag_m. replace (n + 7) with (blen (swallowed n)) by (rewrite Ls; lia).
    unfold slice_from. rewrite bskip_all. reflexivity. }
  assert (S1 : slice (swallowed n) 0 0 = Ok []) by exact (slice_app [] [] (swallowed n)).
  assert (S2 : slice (swallowed n) 0 (n + 3) = Ok T) by (rewrite Es, <- LT; exact (slice_app [] T (lit "<a/>"))).
  assert (S3 : slice (swallowed n) (n + 3) (n + 3) = Ok []).
  { rewrite Es, <- LT. pose proof (slice_app T [] (lit "<a/>")) as X. cbn [blen app] in X. now rewrite Nat.add_0_r in X. }
  assert (S4 : slice (swallowed n) (n + 3) (n + 7) = Ok (lit "<a/>")).
  { rewrite Es, <- LT. replace (n + 7) with (blen T + blen (lit "<a/>")) by (rewrite LT; cbn; lia).
    rewrite <- (app_nil_r (lit "<a/>")) at 1. apply slice_app. }
  unfold parse_str_m. rewrite Ls. cbn [prolog_loop_m snd]. rewrite N1. cbn [bind]. rewrite S1. cbn [bind].
  change (real_text_m m []) with (@Ok (option str) None). cbn [bind]. rewrite S2. cbn [bind].
  destruct n as [|n']; [discriminate H|].
  change (starts_with (lit "<?xml") T) with false. change (starts_with (lit "<!--") T) with false.
  change (starts_with (lit "<!DOCTYPE") T) with false. change (starts_with (lit "<!") T) with true. cbv iota.
  cbn [snd]. rewrite N2. cbn [bind]. rewrite S3. cbn [bind].
  change (real_text_m m []) with (@Ok (option str) None). cbn [bind]. rewrite S4. cbn [bind].
  change (starts_with (lit "<?xml") (lit "<a/>")) with false. change (starts_with (lit "<!--") (lit "<a/>")) with false.
  change (starts_with (lit "<!DOCTYPE") (lit "<a/>")) with false. change (starts_with (lit "<!") (lit "<a/>")) with false.
  change (starts_with (lit "</") (lit "<a/>")) with false. cbv iota.
  replace (check_element_tag (lit "<a/>")) with (@Ok unit tt) by (vm_compute; reflexivity). cbn [bind fst snd].
  rewrite S4. cbn [bind]. replace (strip_tag (lit "<a/>")) with (@Ok str (lit "a")) by (vm_compute; reflexivity). cbn [bind].
  replace (parse_new_element_m m (lit "a") (swallowed (S n')) (S n' + 3) None) with (Ok (mkElem (lit "a") [] [] None None []))
    by (vm_compute; reflexivity).
  cbn [bind]. change (ends_with (lit "/>") (lit "<a/>")) with true. cbv iota.
  match goal with |- bind (pt_push pt_new ?x) _ = _ => set (e := x) end.
  replace (pt_push pt_new e) with (Ok (mkTree [(0, mkPT 0 (NElem e) None [])] (Some 0))) by reflexivity. cbn [bind].
  replace (pt_pop (mkTree [(0, mkPT 0 (NElem e) None [])] (Some 0))) with (Ok (mkTree [(0, mkPT 0 (NElem e) None [])] None)) by reflexivity.
  cbn [bind content_loop_m snd]. rewrite N3. cbn [bind]. vm_compute. reflexivity.
Qed.

(** * The integers *)

Lemma machine_integers m :
  (forall a b, (N.of_nat a < words m)%N -> (N.of_nat b < words m)%N ->
     machine_int (checks m) 0 (Z.of_N (words m)) (Z.of_nat a + Z.of_nat b) (as_int (uadd m a b)) /\
     machine_int (checks m) 0 (Z.of_N (words m)) (Z.of_nat a - Z.of_nat b) (as_int (usub m a b))) /\
  (forall z, machine_int (checks m) (- 2 ^ 31) (2 ^ 31) z (i32 m z)).
Proof.
  split.
  - intros a b La Lb. split; split; intro H.
    + unfold uadd. assert (N.of_nat (a + b) <? words m = true)%N as -> by (apply N.ltb_lt; lia). cbn. f_equal. lia.
    + unfold uadd. assert (N.of_nat (a + b) <? words m = false)%N as -> by (apply N.ltb_ge; lia). destruct (checks m); [easy|].
      exists (Z.of_nat a + Z.of_nat b - Z.of_N (words m))%Z, (-1)%Z. cbn [as_int bind].
      assert (N.of_nat (a + b) mod words m = N.of_nat (a + b) - words m)%N as ->; [symmetry; apply (N.mod_unique _ _ 1); lia|]. split; [f_equal; lia|lia].
    + unfold usub. assert (b <=? a = true) as -> by (apply Nat.leb_le; lia). cbn. f_equal. lia.
    + unfold usub. assert (b <=? a = false) as -> by (apply Nat.leb_gt; lia). destruct (checks m); [easy|].
      exists (Z.of_nat a - Z.of_nat b + Z.of_N (words m))%Z, 1%Z. cbn [as_int bind]. split; [f_equal; lia|lia].
  - intro z. change (- 2 ^ 31)%Z with (-2147483648)%Z. change (2 ^ 31)%Z with 2147483648%Z. unfold i32. split; intro H.
    + assert ((-2147483648 <=? z) && (z <=? 2147483647) = true)%Z as -> by (apply andb_true_iff; split; apply Z.leb_le; lia). easy.
    + assert ((-2147483648 <=? z) && (z <=? 2147483647) = false)%Z as ->.
      { apply andb_false_iff. destruct (Z.leb_spec (-2147483648) z); [right|now left]. apply Z.leb_gt. lia. }
      destruct (checks m); [easy|]. pose proof (Z.mod_pos_bound (z + 2147483648) 4294967296 eq_refl). pose proof (Z.div_mod (z + 2147483648) 4294967296 ltac:(discriminate)).
      exists ((z + 2147483648) mod 4294967296 - 2147483648)%Z, (- ((z + 2147483648) / 4294967296))%Z. split; [easy|]. lia.
Qed.

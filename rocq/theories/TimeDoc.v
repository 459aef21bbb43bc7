(** The time of writing a document. *)
From Coq Require Import List NArith Arith Bool Ascii String Lia.
From Verif Require Import Base BaseFacts Escape Dom DomFacts Spec SpecDom Parse SpecParse DocCheck PrintDoc SpecStack StackFacts DepthFacts
  SpecSize SizeFacts SizeMore Time SpecTime TimeUnesc TimeOut TimeCount.
Import ListNotations.

Lemma size_elem_pos e : 3 <= size_elem e.
Proof. rewrite size_elem_eq. lia. Qed.
Lemma doc_write_le d ind :
  let L := levels (d_root d) in let i := Nat.max 2 (blen ind) in let H := nodes (d_root d) + size_doc d in
  doc_write_t d ind <= 110 * (L * (6 + L * i)) * H + H * H.
Proof.
  intros L i H. unfold doc_write_t, elem_write_t, elem_to_string_with_indent. cbn zeta.
  set (ind' := if validate_indent ind then ind else default_indent).
  assert (V : validate_indent ind' = true) by (unfold ind'; destruct (validate_indent ind) eqn:E; [exact E|reflexivity]). rewrite V.
  assert (M : blen ind' <= i) by (unfold ind', i; destruct (validate_indent ind); [lia|change (blen default_indent) with 2; lia]).
  assert (M2 : blen ind <= i) by (unfold i; lia). clearbody ind'. 
  pose proof (write_le ind' (d_root d) [] false) as W. pose proof (elem_blen ind' (d_root d) [] false) as C. cbn [blen] in W, C. fold L in W, C.
  assert (L1 : 1 <= L) by apply levels_pos. pose proof (size_elem_pos (d_root d)) as S3.
  assert (N1 : 1 <= nodes (d_root d)) by (rewrite nodes_eq; lia).
  assert (Dc : match d_declaration d with None => 1 | Some x => copy_t (declaration_to_string x) + copy_t (declaration_to_string x) end <=
    1 + 4 * match d_declaration d with None => 0 | Some x => blen x + 4 end).
  { destruct (d_declaration d) as [x|]; [|lia]. unfold copy_t, declaration_to_string. rewrite !blen_app.
    change (blen (lit "<?")) with 2. change (blen (lit "?>")) with 2. lia. }
  assert (Dt : sum (fun x => 1 + copy_t x + copy_t x) (d_dtds d) <= 3 * sum (fun x => blen x + 10) (d_dtds d)).
  { rewrite <- sum_mul. apply sum_le. intros x _. unfold copy_t. lia. }
  unfold heft in W. unfold size_doc in H.
  set (dc := match d_declaration d with None => 0 | Some x => blen x + 4 end) in *. set (dt := sum (fun x => blen x + 10) (d_dtds d)) in *.
  set (dcs := match d_declaration d with None => 1 | _ => _ end) in *. set (dts := sum (fun x => 1 + _ + _) (d_dtds d)) in *.
  clearbody dc dt dcs dts. unfold copy_t. set (o := blen (elem_to_string [] ind' false (d_root d))) in *. clearbody o.
  set (w := write_t [] ind' false (d_root d)) in *. clearbody w. set (z := size_elem (d_root d)) in *. set (m := nodes (d_root d)) in *. clearbody z m.
  assert (LM : L * blen ind' <= L * i) by (apply Nat.mul_le_mono_l; exact M). 
  set (K := L * (6 + L * i)).
  assert (K1 : L * (6 + (0 + L * blen ind')) <= K) by (apply Nat.mul_le_mono_l; lia).
  assert (K2 : 6 + L * i <= K) by (unfold K; nia). assert (K3 : i <= K) by (unfold K; nia).
  assert (W2 : w <= 100 * (K * (m + z)) + (m + z) * (m + z)).
  { apply Nat.le_trans with (1 := W). apply Nat.add_le_mono_r. replace (100 * (K * (m + z))) with (100 * K * (m + z)) by ring. apply Nat.mul_le_mono_r. now apply Nat.mul_le_mono_l. }
  assert (C2 : o + 1 <= K * z). { apply Nat.le_trans with (1 := C). rewrite Nat.mul_comm. apply Nat.mul_le_mono_r. lia. }
  clear W C K1 LM. clearbody K i L.
  subst H. assert (P1 : 6 * dc <= K * dc) by (apply Nat.mul_le_mono_r; lia). assert (P2 : 6 * dt <= K * dt) by (apply Nat.mul_le_mono_r; lia).
  assert (P3 : K * 3 <= K * z) by (apply Nat.mul_le_mono_l; lia). assert (P4 : K * 1 <= K * m) by (apply Nat.mul_le_mono_l; lia).
  assert (P5 : (m + z) * (m + z) <= (m + (dc + dt + z)) * (m + (dc + dt + z))) by (apply Nat.mul_le_mono; lia).
  replace (110 * K * (m + (dc + dt + z))) with (110 * (K * m) + 110 * (K * dc) + 110 * (K * dt) + 110 * (K * z)) by ring.
  rewrite Nat.mul_add_distr_l in W2. lia.
Qed.

(** A text of [n] bytes gives a tree that is written in no more than a constant times [n] cubed. *)
Theorem rewrite_le s d ind : parse_str s = Ok d ->
  doc_write_t d ind <= 50 * Nat.max 2 (blen ind) * ((blen s + 1) * (blen s + 1) * (blen s + 1)).
Proof.
  intro H. pose proof (doc_write_le d ind) as W. cbn zeta in W. pose proof (parse_nodes _ _ H) as N. pose proof (parse_size _ _ H) as S.
  pose proof (parsed_depth _ _ H) as D. pose proof (length_le_blen s) as B. unfold str, char in *.
  assert (L1 : 1 <= levels (d_root d)) by apply levels_pos. set (L := levels (d_root d)) in *. clearbody L.
  assert (I : 2 <= Nat.max 2 (blen ind)) by lia. set (i := Nat.max 2 (blen ind)) in *. clearbody i.
  set (h := nodes (d_root d) + size_doc d) in *. set (n := blen s) in *. clearbody n.
  assert (Hh : h <= 2 * n) by (unfold h; lia). clearbody h. assert (D' : 7 * L <= n + 3) by lia. clear - W D' L1 I Hh.
  apply Nat.le_trans with (1 := W). clear W.
  assert (Q1 : L * (6 + L * i) <= i * (L * (L + 3))) by nia.
  assert (Q2 : 49 * (L * (L + 3)) <= (n + 3) * (n + 24)).
  { replace (49 * (L * (L + 3))) with (7 * L * (7 * L + 21)) by ring. apply Nat.mul_le_mono; lia. }
  assert (Q3 : 49 * (L * (6 + L * i)) <= i * ((n + 3) * (n + 24))).
  { apply Nat.le_trans with (49 * (i * (L * (L + 3)))); [now apply Nat.mul_le_mono_l|].
    replace (49 * (i * (L * (L + 3)))) with (i * (49 * (L * (L + 3)))) by ring. now apply Nat.mul_le_mono_l. }
  assert (Q4 : 49 * (L * (6 + L * i)) * h <= i * ((n + 3) * (n + 24)) * (2 * n)) by (apply Nat.mul_le_mono; assumption).
  assert (Q5 : h * h <= 4 * (n * n)) by nia.
  assert (n4 : 4 <= n) by lia.
  assert (Q6 : 220 * (n * ((n + 3) * (n + 24))) + 98 * (n * n) <= 49 * 50 * ((n + 1) * (n + 1) * (n + 1))).
  { assert (A : n * ((n + 3) * (n + 24)) <= 7 * ((n + 1) * (n + 1) * (n + 1))).
    { replace (n * ((n + 3) * (n + 24))) with (n * n * n + 27 * (n * n) + 72 * n) by ring.
      replace ((n + 1) * (n + 1) * (n + 1)) with (n * n * n + 3 * (n * n) + 3 * n + 1) by ring.
      assert (4 * n <= n * n) by nia. assert (4 * (n * n) <= n * n * n) by nia. lia. }
    assert (B : n * n <= (n + 1) * (n + 1) * (n + 1)) by nia. lia. }
  set (cube := (n + 1) * (n + 1) * (n + 1)) in *. set (a := n * ((n + 3) * (n + 24))) in *.
  replace (i * ((n + 3) * (n + 24)) * (2 * n)) with (2 * (i * a)) in Q4 by (unfold a; ring).
  assert (Q7 : i * (220 * a + 98 * (n * n)) <= i * (49 * 50 * cube)) by now apply Nat.mul_le_mono_l.
  rewrite Nat.mul_add_distr_l in Q7. assert (Q8 : 2 * (98 * (n * n)) <= i * (98 * (n * n))) by now apply Nat.mul_le_mono_r.
  replace (110 * (L * (6 + L * i)) * h) with (110 * (L * (6 + L * i) * h)) by ring. replace (49 * (L * (6 + L * i)) * h) with (49 * (L * (6 + L * i) * h)) in Q4 by ring.
  replace (i * (220 * a)) with (220 * (i * a)) in Q7 by ring. replace (i * (49 * 50 * cube)) with (49 * (50 * i * cube)) in Q7 by ring.
  set (x := L * (6 + L * i) * h) in *. set (y := 50 * i * cube) in *. set (ia := i * a) in *. clearbody x y ia. lia.
Qed.

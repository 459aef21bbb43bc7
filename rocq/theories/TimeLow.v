(** Texts that take long. *)
From Coq Require Import List NArith Arith Bool Ascii String Lia.
From Verif Require Import Base BaseFacts Escape Dom DomFacts Spec SpecDom ParseTree Parse SpecParse EscapeFacts LexFacts SpecDoc DocCheck PrintDoc P_Doc SerFacts SpecMean P_Mean SpecStack StackFacts DepthFacts
  TripFacts SpecSize SizeFacts SizeMore Time SpecTime TimeFacts TimeUnesc TimeOut TimeDoc.
Import ListNotations.

Local Arguments sum {A} f l : simpl never.

(** * Deep nesting is written in cubic time *)

Lemma nest_write : forall n e prefix, item_means (nest_item n) (NElem e) ->
  n * n * n <= 3 * write_t prefix default_indent false e + 3 * (n * n).
Proof.
  induction n as [|n IH]; intros e prefix M; [lia|].
  inversion M as [? ? ? ? H C|? ? ? ? ? ? H B| |]; subst. inversion B as [|? ? ? m ? m0 Tm Im Bm X Eb]; subst. inversion Bm as [? ? Tm'|]; subst.
  assert (Z : forall l, text_means [] l -> l = []) by (intros l0 H0; inversion H0 as [|? ? W|? ? W]; [reflexivity|elim W; constructor..]).
  apply Z in Tm. apply Z in Tm'. subst. cbn [app] in Eb.
  destruct m as [c| | |]; [|destruct n; inversion Im..]. pose proof (nest_written n c (prefix ++ default_indent) Im) as G. specialize (IH c (prefix ++ default_indent) Im).
  destruct e as [nm ch at_ ns px ctx]. cbn [e_children] in Eb. subst ch.
  rewrite (write_t_many _ _ _ _ _ _ _ _ _ (NElem c) [] eq_refl) by now right.
  cbn zeta. cbn [existsb Dom.is_text orb]. rewrite sum_cons. change (sum _ []) with 0. unfold child_t, copy_t.
  set (w := write_t _ _ _ c) in *. set (o := blen (elem_to_string _ _ _ c)) in *. clearbody w o. clear - IH G. nia.
Qed.
Theorem deep_slow n : exists d, parse_str (nest n) = Ok d /\ n * n * n <= 3 * doc_write_t d default_indent + 3 * (n * n).
Proof.
  destruct (C47_document_means (nest_source n) (nest_wf n)) as (d & P & _ & _ & M). rewrite nest_print in P.
  exists d. split; [exact P|]. apply (nest_write _ _ []) in M. unfold doc_write_t, elem_write_t.
  change (validate_indent default_indent) with true. replace (validate_indent default_indent) with true by reflexivity. cbv iota zeta. replace (validate_indent default_indent) with true by reflexivity. cbv iota. lia.
Qed.

(** At least so many steps, and this result *)
Definition least {A} (x : timed A) (k : nat) (v : A) : Prop := k <= steps x /\ result x = Ok v.
Lemma least_bind {A B} j k v (w : B) (x : timed A) (f : A -> timed B) : least x j v -> least (f v) k w -> least (tbind x f) (j + k) w.
Proof. intros [H1 H2] [G1 G2]. unfold tbind. rewrite H2. split; cbn; [lia|exact G2]. Qed.
Lemma least_after {A} j k (v : A) : j <= k -> least (after k (Ok v)) j v.
Proof. intro H. now split. Qed.
Lemma least_weak {A} j k (v : A) x : k <= j -> least x j v -> least x k v.
Proof. intros H [H1 H2]. split; [lia|exact H2]. Qed.
Lemma least_spend {A} i j k v (x : timed A) : i <= j -> least x k v -> least (spend j x) (i + k) v.
Proof. intros H [H1 H2]. split; cbn; [lia|exact H2]. Qed.

(** * Many entity references are read in quadratic time *)

Definition amps (k : nat) : str := repeat 38%N k.
Definition ents (k : nat) : str := List.concat (repeat (lit "&amp;") k).
Lemma amps_blen k : blen (amps k) = k.
Proof. induction k as [|k IH]; cbn [amps repeat blen]; [reflexivity|]. change (blen (repeat 38%N k)) with (blen (amps k)). rewrite IH. reflexivity. Qed.
Lemma ents_S k : ents (S k) = lit "&amp" ++ semi :: ents k.
Proof. reflexivity. Qed.
Lemma ents_blen k : blen (ents k) = 5 * k.
Proof. induction k as [|k IH]; [reflexivity|]. rewrite ents_S, blen_app. cbn [blen]. rewrite IH. change (blen (lit "&amp")) with 4. change (len_utf8 semi) with 1. lia. Qed.
Lemma ents_last k : last_size (ents k) 1 = 1.
Proof. induction k as [|k IH]; [reflexivity|]. rewrite ents_S. exact IH. Qed.
Lemma amps_snoc j (s : str) : amps j ++ 38%N :: s = amps (S j) ++ s.
Proof. unfold amps. induction j as [|j IH]; [reflexivity|]. cbn [repeat app]. now rewrite IH. Qed.
Lemma loop_ents : forall m j fuel, S m <= fuel -> least (unescape_loop_t fuel (amps j ++ ents m) j) (m * m) (amps (j + m)).
Proof.
  induction m as [|m IH]; intros j fuel F; (destruct fuel as [|fuel]; [lia|]); cbn [unescape_loop_t]; rewrite blen_app, amps_blen, ents_blen.
  - replace (j + 5 * 0 <=? j) with true by (symmetry; apply Nat.leb_le; lia). cbn [ents repeat List.concat]. rewrite app_nil_r, Nat.add_0_r. apply least_after. lia.
  - replace (j + 5 * S m <=? j) with false by (symmetry; apply Nat.leb_gt; lia).
    assert (E : slice_from (amps j ++ ents (S m)) j = Ok (ents (S m))) by (rewrite <- (amps_blen j) at 2; apply slice_from_app).
    assert (Fi : find_sub sAmp (ents (S m)) = Some 0) by reflexivity.
    rewrite E. assert (G : least (unescape_loop_t fuel (amps (S j) ++ ents m) (S j)) (m * m) (amps (j + S m))).
    { replace (j + S m) with (S j + m) by lia. apply IH. lia. }
    destruct G as [G1 G2].
    assert (Sc : result (unescape_scan_t j (ents (S m)) (ents (S m)) 0 (amps j ++ ents (S m)) 1) = Ok (amps (S j) ++ ents m, 1)).
    { rewrite unescape_scan_t_ok, ents_S. rewrite <- (amps_blen j) at 1. rewrite (scan_first (amps j) (lit "&amp") (ents m) 1);
        [|cbn; intuition discriminate|reflexivity]. change (ref_char (lit "&amp")) with (Some 38%N). cbv iota. change (len_utf8 38%N) with 1. now rewrite ents_last, amps_snoc. }
    apply (least_weak (0 + (0 + (0 + ((2 * m + 1) + m * m))))); [lia|].
    apply (least_bind 0 _ (ents (S m))); [apply least_after; lia|]. apply (least_spend 0); [lia|]. rewrite Fi, Nat.add_0_l, E.
    apply (least_bind 0 _ (ents (S m))); [apply least_after; lia|]. apply (least_bind (2 * m + 1) _ (amps (S j) ++ ents m, 1)).
    + split; [cbn [spend steps]; unfold copy_t; rewrite ents_blen; lia|exact Sc].
    + cbn [fst snd]. rewrite Nat.add_1_r. split; assumption.
Qed.
Theorem unescape_slow k : blen (ents k) = 5 * k /\ unescape (ents k) = Ok (amps k) /\ k * k <= steps (unescape_t (ents k)).
Proof.
  split; [apply ents_blen|]. assert (H : least (unescape_t (ents k)) (k * k) (amps k)).
  { unfold unescape_t. apply (loop_ents k 0). rewrite ents_blen. lia. }
  destruct H as [H1 H2]. rewrite unescape_t_ok in H2. now split.
Qed.

Definition boxed (t : str) : str := lit "<a>" ++ t ++ lit "</a>".
Lemma boxed_prolog t f : result (prolog_loop_t (S f) (boxed t) None [] 0 (0, 0)) = Ok (None, [], (0, 3)).
Proof.
  assert (E : next_tag_t (boxed t) 0 = after (steps (next_tag_t (boxed t) 0)) (Ok (Some 0, Some 3))) by reflexivity.
  cbn [prolog_loop_t snd]. rewrite E. cbn [tbind after result snd fst].
  assert (S1 : slice (boxed t) 0 0 = Ok []) by apply (slice_app [] [] (boxed t)).
  assert (S2 : slice (boxed t) 0 3 = Ok (lit "<a>")) by apply (slice_app [] (lit "<a>") (t ++ lit "</a>")).
  rewrite S1, S2. change (real_text_t []) with (after 2 (Ok (@None str))). cbn [tbind after result spend]. reflexivity.
Qed.
Lemma steps_later {A B} (x : timed A) (f : A -> timed B) v : result x = Ok v -> steps (f v) <= steps (tbind x f).
Proof. intro H. rewrite (steps_bind_ok _ _ _ H). lia. Qed.
Lemma steps_first {A B} (x : timed A) (f : A -> timed B) : steps x <= steps (tbind x f).
Proof. unfold tbind. destruct (result x); cbn; lia. Qed.
Lemma boxed_next t : ~ In cLt t -> result (next_tag_t (boxed t) 3) = Ok (Some (3 + blen t), Some (3 + blen t + 4)).
Proof.
  intro N. unfold next_tag_t. assert (E : slice_from (boxed t) 3 = Ok (t ++ lit "</a>")) by apply (slice_from_app (lit "<a>")).
  rewrite E. cbn [tbind after result spend]. 
  assert (F : find_sub (lit "<") (t ++ lit "</a>") = Some (blen t)) by apply (find_char_app cLt t (lit "/a>") N). rewrite F. cbn [add_opt option_map].
  assert (G : slice_from (boxed t) (blen t + 3) = Ok (lit "</a>")).
  { unfold boxed. rewrite app_assoc. replace (blen t + 3) with (blen (lit "<a>" ++ t)); [apply slice_from_app|]. rewrite blen_app. change (blen (lit "<a>")) with 3. lia. }
  rewrite G. cbn [tbind after result spend]. rewrite (Nat.add_comm (blen t)). 
  transitivity (Ok (Some (3 + blen t), Some (3 + (3 + blen t + 1)))); [reflexivity|]. do 3 f_equal. lia.
Qed.
Lemma boxed_slow t : ~ In cLt t -> is_blank t = false -> steps (unescape_t t) <= steps (parse_str_t (boxed t)).
Proof.
  intros N B. unfold parse_str_t. cbn zeta.
  assert (S2 : slice (boxed t) 0 3 = Ok (lit "<a>")) by apply (slice_app [] (lit "<a>") (t ++ lit "</a>")).
  apply Nat.le_trans with (2 := steps_later _ _ _ (boxed_prolog t _)). cbv beta iota. cbn [fst snd]. rewrite S2.
  refine (Nat.le_trans _ _ _ _ (steps_later _ _ (lit "<a>") _)); [|reflexivity].
  refine (Nat.le_trans _ _ _ _ (steps_later _ _ (lit "a") _)); [|reflexivity].
  assert (R : exists r, result (parse_new_element_t (lit "a") (boxed t) 0 None) = Ok r) by (eexists; reflexivity). destruct R as [r R].
  apply Nat.le_trans with (2 := steps_later _ _ r R).
  assert (P : exists p, result (pt_push_t pt_new r) = Ok p) by (eexists; reflexivity). destruct P as [p P].
  apply Nat.le_trans with (2 := steps_later _ _ p P). change (ends_with (lit "/>") (lit "<a>")) with false.
  refine (Nat.le_trans _ _ _ _ (steps_later _ _ p _)); [|reflexivity]. apply Nat.le_trans with (2 := steps_first _ _).
  cbn [content_loop_t snd]. apply Nat.le_trans with (2 := steps_later _ _ _ (boxed_next t N)). cbv beta iota.
  assert (S3 : slice (boxed t) 3 (3 + blen t) = Ok t) by apply (slice_app (lit "<a>") t (lit "</a>")). rewrite S3.
  refine (Nat.le_trans _ _ _ _ (steps_later _ _ t _)); [|reflexivity]. apply Nat.le_trans with (2 := steps_first _ _).
  unfold real_text_t. rewrite B. cbn [spend steps]. pose proof (steps_first (unescape_t t) (fun s => after 1 (Ok (Some s)))). lia.
Qed.
Lemma ents_plain k : ~ In cLt (ents k).
Proof.
  induction k as [|k IH]; [intros []|]. rewrite ents_S. intro H. apply in_app_or in H as [H|[H|H]]; [cbn in H; intuition discriminate|discriminate|contradiction].
Qed.
Lemma ents_real k : is_blank (ents (S k)) = false.
Proof. reflexivity. Qed.
Definition boxed_source (k : nat) : source := Source None [] [] (CElem (lit "a") [] [] (BEnd (ents k)) []) [].
Lemma boxed_print k : source_print (boxed_source k) = boxed (ents k).
Proof.
  unfold source_print, boxed_source. cbn [x_decl x_prolog x_gap x_root x_after flat_map app item_print body_print]. rewrite app_nil_r.
  unfold head_print, boxed. cbn [flat_map]. rewrite !app_nil_r. cbn [lit app]. rewrite <- ?app_assoc. reflexivity.
Qed.
Lemma boxed_wf k : source_wf (boxed_source k).
Proof.
  assert (T : text_wf (ents k)).
  { split; [intro H; now apply (ents_plain k)|]. right. exists (amps k). apply unescape_slow. }
  assert (A : attrs_wf []) by (split; constructor).
  split; [intros w d H; discriminate H|]. split; [constructor|]. split; [intros w c []|]. split; [constructor|].
  split; [|split; [|intros []]].
  - cbn [x_root boxed_source item_wf body_wf].
    split; [exists None, (lit "a"); exact a_named|]. split; [exact A|]. split; [constructor|]. split; [exact T|constructor].
  - exists (lit "a"), []. split; [right; eexists _, _, _; reflexivity|].
    intros p m H. remember (lit "a") as x eqn:E. remember (Some p) as o eqn:Eo.
    destruct H as [|p' n' X]; [discriminate Eo|]. destruct X as (c & r & -> & _). destruct r; discriminate E.
Qed.
(** Reading an element with [k] entity references in it *)
Theorem parse_slow k : blen (boxed (ents k)) = 5 * k + 7 /\ (exists d, parse_str (boxed (ents k)) = Ok d) /\ k * k <= steps (parse_str_t (boxed (ents k))).
Proof.
  split; [|split].
  - unfold boxed. rewrite !blen_app, ents_blen. change (blen (lit "<a>")) with 3. change (blen (lit "</a>")) with 4. lia.
  - destruct (C47_document_means _ (boxed_wf k)) as (d & P & _). rewrite boxed_print in P. now exists d.
  - destruct k as [|k]; [lia|]. pose proof (boxed_slow _ (ents_plain (S k)) (ents_real k)). pose proof (unescape_slow (S k)) as (_ & _ & U). lia.
Qed.

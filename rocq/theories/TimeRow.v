(** How long tidying up a row of nodes takes, and putting nodes in. *)
From Coq Require Import List NArith Arith Bool Ascii String Lia.
From Verif Require Import Base Escape Dom ParseTree Parse Time BaseFacts Spec SpecDom DomFacts ParsedFacts TimeFacts TimeUnesc TimeElem.
From Verif Require Import SpecSize SizeFacts SizeMore SpecTime TimeDom TimeWide TimeEdit SpecTimeEdit.
Import ListNotations.

Local Arguments map_t : simpl never.
Local Arguments sum {A} f l : simpl never.

Lemma seams_cons n l : seams (n :: l) = (match n, l with NText _, NText _ :: _ => 1 | _, _ => 0 end) + seams l.
Proof. destruct n, l as [|[]]; reflexivity. Qed.
Lemma seams_snoc pre y x : seams ((pre ++ [y]) ++ [x]) = seams (pre ++ [y]) + (if is_text y && is_text x then 1 else 0).
Proof.
  induction pre as [|n pre IH]; [destruct y, x; reflexivity|]. cbn [app]. rewrite !seams_cons, IH.
  destruct n; try reflexivity. destruct pre as [|m pre]; [destruct y; reflexivity|]. cbn [app]. destruct m; lia.
Qed.
(** Only the kinds of the nodes count. *)
Lemma seams_kind l l' : map is_text l = map is_text l' -> seams l = seams l'.
Proof.
  revert l'. induction l as [|n l IH]; intros [|n' l'] H; try discriminate; [reflexivity|]. injection H as H1 H2.
  rewrite !seams_cons, (IH _ H2). f_equal. destruct n, n'; try discriminate; try reflexivity; destruct l as [|[]], l' as [|[]]; try discriminate; reflexivity.
Qed.
Lemma no_seams l : no_adjacent_text l <-> seams l = 0.
Proof.
  split.
  - induction l as [|n l IH]; intro N; [reflexivity|]. rewrite seams_cons, IH by (intros a s t b ->; now apply (N (n :: a) s t b)).
    destruct n as [|s| |]; try reflexivity. destruct l as [|[|t| |] l]; try reflexivity. now destruct (N [] s t l).
  - intros H a s t b ->. induction a as [|n a IH]; cbn [app] in H; rewrite seams_cons in H; [discriminate H|]. apply Nat.eq_add_0 in H as [_ H]. exact (IH H).
Qed.
Definition is_blank (n : node) : bool := match n with NText t => text_is_whitespace t | _ => false end.
Lemma blanks_eq l : blanks l = List.length (filter is_blank l).
Proof. unfold blanks. f_equal. apply filter_ext. intros [|[|c t]| |]; reflexivity. Qed.
Lemma blanks_cons n l : blanks (n :: l) = (if is_blank n then 1 else 0) + blanks l.
Proof. rewrite !blanks_eq. cbn [filter]. now destruct (is_blank n). Qed.
Lemma blanks_app a b : blanks (a ++ b) = blanks a + blanks b.
Proof. rewrite !blanks_eq. rewrite filter_app, app_length. lia. Qed.
Lemma no_blanks l : (forall t, In (NText t) l -> ~ blank t) <-> blanks l = 0.
Proof.
  split.
  - induction l as [|n l IH]; intro N; [reflexivity|]. rewrite blanks_cons, IH by (intros t H; apply N; now right).
    destruct n as [|t| |]; try reflexivity. cbn [is_blank]. now rewrite (proj2 (not_blank t)) by (apply N; now left).
  - intros H t I. apply not_blank. induction l as [|n l IH]; [elim I|]. rewrite blanks_cons in H. destruct I as [->|I]; [|apply IH; [lia|easy]].
    cbn [is_blank] in H. destruct (text_is_whitespace t); [lia|reflexivity].
Qed.
Lemma normal_row l : text_normal l <-> seams l = 0 /\ blanks l = 0.
Proof. rewrite <- no_seams, <- no_blanks. reflexivity. Qed.

(** * The two loops *)

Lemma bytes_mass l : sum text_bytes l + List.length l = sum mass l.
Proof. induction l as [|n l IH]; [reflexivity|]. rewrite !sum_cons. unfold mass at 1. cbn [List.length]. lia. Qed.

Lemma merge_steps : forall pre x suf W, sum mass (pre ++ x :: suf) <= W ->
  steps (merge_text_loop_t (List.length pre) (pre ++ x :: suf)) <= 2 * List.length pre + 1 + seams (pre ++ [x]) * (3 * W + 8).
Proof.
  induction pre as [|y pre IH] using rev_ind; intros x suf W HW; [cbn; lia|].
  rewrite app_length, Nat.add_comm. cbn [List.length plus merge_text_loop_t].
  replace (S (List.length pre)) with (List.length (pre ++ [y])) by (rewrite app_length; cbn; lia).
  rewrite vget_app, steps_bind_after. rewrite seams_snoc.
  destruct (is_text x) eqn:Ex.
  - rewrite <- app_assoc. cbn [app]. rewrite vget_app, steps_bind_after.
    destruct (is_text y) eqn:Ey.
    + destruct x as [|t| |]; try discriminate. destruct y as [|s| |]; try discriminate. cbn [andb].
      pose proof (vremove_app (pre ++ [NText s]) (NText t) suf) as V. rewrite <- app_assoc in V. cbn [app] in V. rewrite V, steps_bind_after. cbn [fst snd].
      rewrite <- app_assoc. cbn [app]. rewrite vremove_app, steps_bind_after. cbn [snd fst expect as_text]. rewrite !steps_bind_after.
      rewrite vinsert_app, steps_bind_after. unfold text_concat in *.
      rewrite <- app_assoc in HW. cbn [app] in HW. rewrite sum_app, !sum_cons in HW. unfold mass in HW at 2 3. cbn [text_bytes] in HW.
      specialize (IH (NText (s ++ t)) suf W).
      rewrite sum_app, sum_cons in IH. unfold mass in IH at 2. cbn [text_bytes] in IH. rewrite blen_app in IH. specialize (IH ltac:(lia)).
      rewrite (seams_kind (pre ++ [NText (s ++ t)]) (pre ++ [NText s])) in IH by now rewrite !map_app.
      pose proof (mass_length suf). unfold shift_t, copy_t. rewrite blen_app, !app_length. cbn [List.length]. lia.
    + specialize (IH y (x :: suf) W). rewrite <- app_assoc in HW. specialize (IH HW). rewrite app_length. cbn [List.length]. cbn [andb]. lia.
  - specialize (IH y (x :: suf) W). rewrite <- app_assoc in HW. specialize (IH HW). rewrite <- app_assoc. cbn [app]. rewrite andb_false_r, app_length. cbn [List.length]. lia.
Qed.

Lemma drop_steps : forall pre x suf W, List.length (pre ++ x :: suf) <= W ->
  steps (drop_blank_loop_t (List.length pre) (pre ++ x :: suf)) <= sum look (pre ++ [x]) + 1 + blanks (pre ++ [x]) * (W + 4).
Proof.
  assert (One : forall pre x suf W, List.length (pre ++ x :: suf) <= W ->
    steps (drop_blank_loop_t (List.length pre) (pre ++ x :: suf)) <= look x + (if is_blank x then W + 4 else 0) +
      match List.length pre with O => 1 | S i => steps (drop_blank_loop_t i (pre ++ if is_blank x then suf else x :: suf)) end).
  { intros pre x suf W H. destruct (is_blank x) eqn:K.
    - destruct x as [|t| |]; try discriminate. cbn [is_blank] in K. unfold look. cbn [text_bytes].
      assert (V : vget (pre ++ NText t :: suf) (List.length pre) = Ok (NText t)) by apply vget_app.
      assert (R : vremove (pre ++ NText t :: suf) (List.length pre) = Ok (NText t, pre ++ suf)) by apply vremove_app.
      assert (Sh : shift_t (pre ++ @NText elem t :: suf) (List.length pre) <= W + 1) by (unfold shift_t; lia).
      assert (E : result (do* t <- after 1 (expect (as_text (@NText elem t)));
               spend (regex_t t)
               (if text_is_whitespace t then do* r <- after (shift_t (pre ++ NText t :: suf) (List.length pre)) (vremove (pre ++ NText t :: suf) (List.length pre)); after 1 (Ok (snd r)) else after 1 (Ok (pre ++ NText t :: suf)))) = Ok (pre ++ suf)).
      { rewrite result_tbind. cbn [after result bind spend expect as_text]. rewrite K, result_tbind, R. reflexivity. }
      destruct (List.length pre) as [|k] eqn:L; cbn [drop_blank_loop_t]; rewrite V, steps_bind_after; cbn [is_text];
        (rewrite (steps_bind_ok _ _ _ E)); cbn [expect as_text]; rewrite steps_bind_after; cbn [spend steps]; rewrite K, R, steps_bind_after; cbn [after steps]; unfold regex_t; lia.
    - assert (K' : keep_node x = true) by (destruct x; try reflexivity; cbn in *; now rewrite K).
      pose proof (drop_round _ _ x (vget_app pre x suf) K'). lia. }
  induction pre as [|y pre IH] using rev_ind; intros x suf W H.
  - specialize (One [] x suf W H). cbn [List.length app] in *. rewrite sum_cons, blanks_cons. change (@sum node look []) with 0. change (blanks []) with 0.
    destruct (is_blank x); lia.
  - specialize (One (pre ++ [y]) x suf W H). rewrite app_length in One at 2. cbn [List.length] in One. rewrite Nat.add_1_r in One.
    rewrite sum_app, sum_cons, blanks_app, blanks_cons. change (@sum node look []) with 0. change (blanks []) with 0.
    rewrite app_length in H. cbn [List.length] in H.
    destruct (is_blank x).
    + specialize (IH y suf W). rewrite <- !app_assoc in One. cbn [app] in One. rewrite <- app_assoc. cbn [app]. rewrite app_length in IH, H. cbn [List.length] in IH, H.
      specialize (IH ltac:(lia)). lia.
    + specialize (IH y (x :: suf) W). rewrite <- !app_assoc in One. cbn [app] in One. rewrite app_length in IH, H. cbn [List.length] in IH, H.
      specialize (IH ltac:(lia)). rewrite <- app_assoc. cbn [app]. lia.
Qed.
Lemma blank_app s t : text_is_whitespace (s ++ t) = true -> text_is_whitespace s = true \/ text_is_whitespace t = true.
Proof.
  destruct s as [|c s]; [now right|]. intro H. left. unfold text_is_whitespace in *. cbn [app] in H.
  change (c :: s ++ t) with ((c :: s) ++ t) in H. rewrite forallb_app in H. now apply andb_true_iff in H as [H _].
Qed.
Lemma merge_blanks l : blanks (merge_text l) <= blanks l.
Proof.
  induction l as [|n l IH]; [reflexivity|]. unfold merge_text in *. cbn [fold_right]. rewrite (blanks_cons n l).
  destruct n as [c|s|c|c]; cbn [merge1]; try (rewrite blanks_cons; cbn [is_blank]; lia).
  destruct (fold_right merge1 [] l) as [|[c|t|c|c] r]; rewrite ?blanks_cons in *; cbn [is_blank] in *; try lia.
  destruct (text_is_whitespace (s ++ t)) eqn:E; [|lia]. apply blank_app in E as [E|E]; rewrite E in *; lia.
Qed.
Lemma cleanup_steps l : steps (cleanup_text_nodes_t l) <= 6 * sum mass l + (seams l + blanks l) * (3 * sum mass l + 8) + 2.
Proof.
  destruct l as [|a l]; [cbn; lia|]. destruct (exists_last_or (a :: l)) as [H|(pre & x & H)]; [easy|].
  assert (E : cleanup_text_nodes_t (pre ++ [x]) =
    do* l1 <- merge_text_loop_t (List.length pre) (pre ++ [x]);
    match l1 with [] => after 1 Panic | _ :: _ => drop_blank_loop_t (List.length l1 - 1) l1 end).
  { unfold cleanup_text_nodes_t. rewrite app_length. cbn [List.length]. rewrite Nat.add_sub. now destruct pre. }
  rewrite H, E. clear E H a l.
  assert (R : result (merge_text_loop_t (List.length pre) (pre ++ [x])) = Ok (merge_text (pre ++ [x]))).
  { rewrite merge_text_loop_t_ok, merge_loop_ok. unfold merge_text. rewrite fold_right_app. do 2 f_equal. now destruct x. }
  rewrite (steps_bind_ok _ _ _ R). pose proof (merge_steps pre x [] _ (le_n _)) as S1.
  pose proof (merge_mass (pre ++ [x])) as M. pose proof (merge_blanks (pre ++ [x])) as B. set (l1 := merge_text (pre ++ [x])) in *.
  assert (S2 : steps (match l1 with [] => after 1 Panic | _ :: _ => drop_blank_loop_t (List.length l1 - 1) l1 end) <= 4 * sum mass l1 + 1 + blanks l1 * (3 * sum mass (pre ++ [x]) + 8)).
  { destruct l1 as [|y r]; [cbn; lia|]. destruct (exists_last_or (y :: r)) as [H|(p1 & x1 & H)]; [easy|]. rewrite H in *.
    rewrite app_length at 1. cbn [List.length]. rewrite Nat.add_sub. pose proof (drop_steps p1 x1 [] _ (le_n _)) as D.
    pose proof (mass_length (p1 ++ [x1])) as L.
    assert (LK : sum look (p1 ++ [x1]) <= 4 * sum mass (p1 ++ [x1])) by (rewrite <- sum_mul; apply sum_le; intros n _; unfold look, mass; lia).
    assert (Q : blanks (p1 ++ [x1]) * (List.length (p1 ++ [x1]) + 4) <= blanks (p1 ++ [x1]) * (3 * sum mass (pre ++ [x]) + 8)) by (apply Nat.mul_le_mono_l; lia). lia. }
  pose proof (mass_length (pre ++ [x])) as L. rewrite app_length in L. cbn [List.length] in L.
  assert (Q : blanks l1 * (3 * sum mass (pre ++ [x]) + 8) <= blanks (pre ++ [x]) * (3 * sum mass (pre ++ [x]) + 8)) by (apply Nat.mul_le_mono_r; exact B). lia.
Qed.

(** * Putting nodes in *)

Lemma apply_le e n : steps (apply_xmlns_context_t (default_namespace e) (e_context e) n) <= 10 * (kept_size e + kept_node n) + 18.
Proof.
  assert (F : fits (kept_size e + kept_node n + 1) e) by (unfold kept_size; constructor; unfold map_t, opt_len; lia).
  pose proof (default_len e) as D. destruct F as [F1 F2 F3 F4]. pose proof (copy_opt_le (default_namespace e)).
  set (B := kept_size e + kept_node n + 1) in *. assert (EB : B = kept_size e + kept_node n + 1) by reflexivity.
  unfold apply_xmlns_context_t. cbn [spend steps]. destruct n as [c|t|t|t]; try (cbn [after steps]; lia).
  rewrite (steps_bind_ok _ _ (set_namespace_context c (default_namespace e) (Some (e_context e)))) by reflexivity.
  assert (Fc : fits B c) by (rewrite EB; cbn [kept_node]; unfold kept_size; constructor; unfold map_t, opt_len; lia).
  cbn [after steps]. pose proof (set_context_steps' c (default_namespace e) (e_context e) B Fc ltac:(lia) F1). lia.
Qed.
Lemma inherited_mass e n : mass (inherited e n) = mass n.
Proof. apply apply_mass. Qed.
Lemma inherited_row e ns : sum mass (map (inherited e) ns) = sum mass ns /\ map is_text (map (inherited e) ns) = map is_text ns /\
  blanks (map (inherited e) ns) = blanks ns.
Proof.
  induction ns as [|n ns (I1 & I2 & I3)]; [easy|]. cbn [map]. rewrite !sum_cons, inherited_mass, I1, I2, !blanks_cons, I3.
  repeat split; now destruct n.
Qed.
Lemma seams_inherited e l ns : seams (l ++ map (inherited e) ns) = seams (l ++ ns).
Proof. apply seams_kind. rewrite !map_app. f_equal. apply inherited_row. Qed.
Lemma apply_at_steps e nodes : forall pre,
  steps (apply_at_t (default_namespace e) (e_context e) (element_indices nodes (List.length pre)) (pre ++ nodes)) <=
  10 * (List.length nodes * kept_size e + sum kept_node nodes) + 20 * List.length nodes + 1.
Proof.
  induction nodes as [|n nodes IH]; intro pre; [cbn; lia|].
  assert (L : S (List.length pre) = List.length (pre ++ [n])) by (rewrite app_length; cbn; lia).
  assert (Q : pre ++ n :: nodes = (pre ++ [n]) ++ nodes) by now rewrite <- app_assoc.
  rewrite sum_cons. cbn [List.length element_indices]. rewrite L.
  destruct (is_element n) eqn:En.
  - cbn [apply_at_t]. rewrite vget_app, steps_bind_after. pose proof (apply_le e n) as A.
    rewrite (steps_bind_ok _ _ (inherited e n)) by apply apply_xmlns_context_t_ok.
    rewrite vset_app, steps_bind_after. 
    specialize (IH (pre ++ [inherited e n])). rewrite <- app_assoc in IH. cbn [app] in IH. rewrite app_length in *. cbn [List.length] in *. lia.
  - specialize (IH (pre ++ [n])). rewrite Q. lia.
Qed.
Lemma append_all_steps e ns : let row := e_children e ++ ns in
  steps (append_all_t e ns) <= 10 * (List.length ns * kept_size e + sum kept_node ns) + 27 * sum mass row + (seams row + blanks row) * (3 * sum mass row + 8) + 5.
Proof.
  intro row. unfold append_all_t. rewrite push_recording_ok. cbn [app spend steps].
  rewrite (steps_bind_ok _ _ (e_children e ++ map (inherited e) ns)) by (rewrite apply_at_t_ok; apply apply_at_ok).
  rewrite (steps_bind_ok _ _ (clean (e_children e ++ map (inherited e) ns))) by (rewrite cleanup_text_nodes_t_ok; apply cleanup_clean).
  cbn [after steps]. pose proof (apply_at_steps e ns (e_children e)) as A. pose proof (cleanup_steps (e_children e ++ map (inherited e) ns)) as C.
  pose proof (inherited_row e ns) as (I1 & I2 & I3).
  rewrite sum_app, I1, <- sum_app, blanks_app, I3, <- blanks_app, seams_inherited in C. fold row in C.
  pose proof (mass_length row) as L. unfold row in L at 1. rewrite app_length in L. lia.
Qed.
Lemma insert_steps e i n : text_normal (e_children e) -> let row := n :: e_children e in
  steps (insert_t e i n) <= 10 * (kept_size e + sum kept_node row) + 18 * sum mass row + 70.
Proof.
  intros N row. unfold insert_t. destruct (List.length (e_children e) <? i) eqn:Hi; [cbn [after steps]; lia|]. apply Nat.ltb_ge in Hi.
  set (a := firstn i (e_children e)). set (b := skipn i (e_children e)).
  assert (E : e_children e = a ++ b) by (symmetry; apply firstn_skipn). assert (Ei : i = List.length a) by (unfold a; rewrite firstn_length; lia).
  clearbody a b. subst i. rewrite E.
  rewrite vinsert_app, steps_bind_after. destruct (exists_last_or (a ++ n :: b)) as [H|(front & last & H)]; [now destruct a|]. rewrite H.
  assert (Hl : List.length (front ++ [last]) - 1 = List.length front) by (rewrite app_length; cbn; lia). rewrite Hl.
  rewrite vget_app, steps_bind_after. rewrite (steps_bind_ok _ _ (inherited e last)) by apply apply_xmlns_context_t_ok.
  pose proof (apply_le e last) as A.
  rewrite vset_app, steps_bind_after. 
  rewrite (steps_bind_ok _ _ (clean (front ++ [inherited e last]))) by (rewrite cleanup_text_nodes_t_ok; apply cleanup_clean).
  cbn [after steps]. pose proof (cleanup_steps (front ++ [inherited e last])) as C.
  pose proof (inherited_row e [last]) as (I1 & I2 & I3). cbn [map] in *.
  rewrite sum_app, I1, <- sum_app, blanks_app, I3, <- blanks_app in C.
  rewrite (seams_kind (front ++ [inherited e last]) (front ++ [last])) in C by (rewrite !map_app; cbn [map]; now rewrite I2).
  rewrite <- H in C. assert (Kl : kept_node last <= sum kept_node row).
  { unfold row. rewrite sum_cons, E, sum_app. assert (S : sum kept_node (a ++ n :: b) = sum kept_node (front ++ [last])) by now rewrite H.
    rewrite !sum_app, !sum_cons in S. lia. }
  assert (M : sum mass (a ++ n :: b) = sum mass row) by (unfold row; rewrite E, sum_cons, !sum_app, sum_cons; lia).
  rewrite M in C. apply normal_row in N as [N1 N2]. rewrite E in N1, N2.
  assert (Bk : blanks (a ++ n :: b) <= 1) by (rewrite blanks_app in *; rewrite blanks_cons; destruct (is_blank n); lia).
  assert (Sm : seams (a ++ n :: b) <= 2).
  { clear - N1. induction a as [|x a IH]; cbn [app] in *.
    - rewrite seams_cons. destruct n, b as [|[]]; lia.
    - rewrite seams_cons in *. destruct a as [|y a]; cbn [app] in *.
      + rewrite seams_cons. destruct x, n, b as [|[]]; lia.
      + specialize (IH ltac:(lia)). destruct x, y; lia. }
  unfold shift_t. assert (Sh : List.length (a ++ b) - List.length a <= sum mass row) by (pose proof (mass_length row); unfold row in *; cbn [List.length] in *; rewrite E in *; lia).
  assert (Q : (seams (a ++ n :: b) + blanks (a ++ n :: b)) * (3 * sum mass row + 8) <= 3 * (3 * sum mass row + 8)) by (apply Nat.mul_le_mono_r; lia). lia.
Qed.

(** * Slow ways *)

(** Texts that are to become one text are copied again and again. *)
Lemma merge_slow c : forall i t, 2 * (i * blen t) + i * i * len_utf8 c <=
  2 * steps (merge_text_loop_t i (repeat (NText [c]) i ++ [NText t])).
Proof.
  induction i as [|i IH]; intro t; [cbn; lia|].
  assert (E : repeat (@NText elem [c]) (S i) ++ [NText t] = repeat (NText [c]) i ++ [NText [c]; NText t]).
  { change (S i) with (1 + i). rewrite Nat.add_comm, repeat_app. cbn [repeat]. now rewrite <- app_assoc. }
  rewrite E. cbn [merge_text_loop_t]. set (pre := repeat (@NText elem [c]) i) in *.
  assert (L : List.length pre = i) by apply repeat_length.
  assert (V0 : vget (pre ++ [NText [c]; NText t]) (S i) = Ok (NText t)).
  { replace (pre ++ [NText [c]; NText t]) with ((pre ++ [NText [c]]) ++ [NText t]) by now rewrite <- app_assoc.
    replace (S i) with (List.length (pre ++ [@NText elem [c]])) by (rewrite app_length; cbn; lia). apply vget_app. }
  assert (V1 : vget (pre ++ [NText [c]; NText t]) i = Ok (NText [c])) by (rewrite <- L; apply vget_app).
  assert (R0 : vremove (pre ++ [NText [c]; NText t]) (S i) = Ok (NText t, pre ++ [NText [c]])).
  { replace (pre ++ [NText [c]; NText t]) with ((pre ++ [NText [c]]) ++ [NText t]) by now rewrite <- app_assoc.
    replace (S i) with (List.length (pre ++ [@NText elem [c]])) by (rewrite app_length; cbn; lia). rewrite vremove_app, app_nil_r. reflexivity. }
  assert (R1 : vremove (pre ++ [NText [c]]) i = Ok (NText [c], pre)) by (rewrite <- L, vremove_app, app_nil_r; reflexivity).
  rewrite V0, steps_bind_after. cbn [is_text]. rewrite V1, steps_bind_after. cbn [is_text]. rewrite R0, steps_bind_after. cbn [fst snd].
  rewrite R1, steps_bind_after. cbn [snd fst expect as_text]. rewrite !steps_bind_after.
  assert (V2 : vinsert pre i (NText (text_concat [c] t)) = Ok (pre ++ [NText ([c] ++ t)])).
  { pose proof (vinsert_app pre (NText (text_concat [c] t)) []) as V. rewrite app_nil_r, L in V. exact V. }
  rewrite V2, steps_bind_after. specialize (IH ([c] ++ t)). rewrite blen_app in IH. unfold copy_t, text_concat. rewrite blen_app. cbn [blen] in *. lia.
Qed.
Lemma texts_slow c e k : e_children e = [] -> k * k <= 2 * steps (append_all_t e (repeat (NText [c]) (S k))).
Proof.
  intro E. unfold append_all_t. rewrite push_recording_ok, E. cbn [app spend steps].
  rewrite (steps_bind_ok _ _ ([] ++ map (inherited e) (repeat (NText [c]) (S k)))) by (rewrite apply_at_t_ok; apply (apply_at_ok _ _ _ [])).
  assert (M : [] ++ map (inherited e) (repeat (NText [c]) (S k)) = repeat (NText [c]) k ++ [NText [c]]).
  { cbn [app]. change (S k) with (1 + k). rewrite Nat.add_comm, repeat_app, map_app. cbn [repeat map]. f_equal. generalize k. induction k0 as [|j IH]; [reflexivity|]. cbn [repeat map]. now rewrite IH. }
  rewrite M. pose proof (merge_slow c k [c]) as S. pose proof (len_utf8_pos c) as P.
  rewrite (steps_bind_ok _ _ (clean (repeat (NText [c]) k ++ [NText [c]]))) by (rewrite cleanup_text_nodes_t_ok; apply cleanup_clean).
  assert (C : steps (merge_text_loop_t k (repeat (NText [c]) k ++ [NText [c]])) <= steps (cleanup_text_nodes_t (repeat (NText [c]) k ++ [NText [c]]))).
  { assert (H : result (cleanup_text_nodes_t (repeat (NText [c]) k ++ [NText [c]])) = Ok (clean (repeat (NText [c]) k ++ [NText [c]]))) by (rewrite cleanup_text_nodes_t_ok; apply cleanup_clean).
    unfold cleanup_text_nodes_t in *. destruct (repeat (NText [c]) k ++ [NText [c]]) as [|x r] eqn:Er; [now destruct k|]. rewrite <- Er in *.
    replace (List.length (repeat (NText [c]) k ++ [NText [c]]) - 1) with k in * by (rewrite app_length, repeat_length; cbn; lia).
    apply bind_inv in H as (a & _ & _ & ->). lia. }
  assert (Q : k * k <= k * k * len_utf8 c) by (rewrite <- (Nat.mul_1_r (k * k)) at 1; apply Nat.mul_le_mono_l; exact P). lia.
Qed.

(** One after the other: each call goes through all the children there are. *)
Lemma appends_slow : forall l e, text_normal (e_children e) -> Forall (fun n => is_text n = false) l ->
  2 * (List.length l * List.length (e_children e)) + List.length l * List.length l <= 2 * steps (appends_t e l) /\
  result (appends_t e l) = append_all e l.
Proof.
  induction l as [|n l IH]; intros e Nm F.
  { split; [cbn; lia|]. rewrite append_all_eq. cbn [map appends_t after result]. rewrite app_nil_r, clean_fixed by easy. now rewrite set_children_id. }
  apply Forall_cons_iff in F as [Fn F]. cbn [appends_t]. pose proof (append_least e n) as L.
  assert (Tn : is_text (inherited e n) = false) by now destruct n.
  assert (N' : text_normal (e_children e ++ [inherited e n])).
  { destruct Nm as [N1 N2]. split.
    - destruct (exists_last_or (e_children e)) as [H|(a & y & H)]; rewrite H in *; [now intros [|x [|y a]] s t b H'|].
      apply adjacent_end; [exact N1|]. now rewrite Tn, andb_false_r.
    - intros t Ht. apply in_app_iff in Ht as [Ht|[Ht|[]]]; [now apply N2|]. rewrite Ht in Tn. discriminate Tn. }
  assert (R : result (append_t e n) = Ok (set_children e (e_children e ++ [inherited e n]))) by (rewrite append_t_ok, append_eq, clean_fixed by easy; reflexivity).
  rewrite (steps_bind_ok _ _ _ R), result_tbind, R. cbn [bind]. set (e1 := set_children e (e_children e ++ [inherited e n])) in *.
  destruct (IH e1 N' F) as [S1 R1]. split.
  - replace (List.length (e_children e1)) with (S (List.length (e_children e))) in S1 by (unfold e1; cbn [e_children set_children]; rewrite app_length; cbn; lia).
    cbn [List.length]. lia.
  - rewrite R1, !append_all_eq. unfold e1. cbn [e_children set_children map]. rewrite <- app_assoc. cbn [app]. reflexivity.
Qed.

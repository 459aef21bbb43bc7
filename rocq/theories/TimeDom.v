(** How long it takes to put a node into an element, and to build the tree. *)
From Coq Require Import List NArith Arith Bool Ascii String Lia.
From Verif Require Import Base Escape Dom ParseTree Parse Time BaseFacts Spec SpecDom DomFacts ParsedFacts TimeFacts TimeUnesc TimeElem.
From Verif Require Import SpecSize SizeFacts SizeMore.
Import ListNotations.

Local Arguments map_t : simpl never.
Local Arguments sum {A} f l : simpl never.

(** A node counts one, and a text its bytes. *)
Definition text_bytes (n : node) : nat := match n with NText t => blen t | _ => 0 end.
Definition mass (n : node) : nat := 1 + text_bytes n.
Lemma mass_length l : List.length l <= sum mass l.
Proof. induction l as [|n l IH]; [cbn; lia|]. rewrite sum_cons. unfold mass at 1. cbn [List.length]. lia. Qed.

(** * Cleaning up after one node *)

Lemma merge_quiet : forall pre x suf, no_adjacent_text (pre ++ [x]) ->
  steps (merge_text_loop_t (List.length pre) (pre ++ x :: suf)) <= 2 * List.length pre + 1.
Proof.
  induction pre as [|y pre IH] using rev_ind; intros x suf N; [cbn; lia|].
  rewrite app_length, Nat.add_comm. cbn [List.length plus merge_text_loop_t].
  replace (S (List.length pre)) with (List.length (pre ++ [y])) by (rewrite app_length; cbn; lia).
  rewrite vget_app, steps_bind_after.
  assert (N' : no_adjacent_text (pre ++ [y])) by (intros a s t b E; apply (N a s t (b ++ [x])); now rewrite E, <- !app_assoc).
  specialize (IH y (x :: suf) N').
  destruct (is_text x) eqn:Ex.
  - rewrite <- app_assoc. cbn [app]. rewrite vget_app, steps_bind_after.
    destruct (is_text y) eqn:Ey.
    + destruct x as [|t| |]; try discriminate. destruct y as [|s| |]; try discriminate.
      destruct (N pre s t []). now rewrite <- app_assoc.
    + rewrite app_length. cbn [List.length]. lia.
  - rewrite <- app_assoc. cbn [app]. rewrite app_length. cbn [List.length]. lia.
Qed.
Lemma adjacent_end pre y x : no_adjacent_text (pre ++ [y]) -> is_text y && is_text x = false -> no_adjacent_text ((pre ++ [y]) ++ [x]).
Proof.
  intros N E a s t b H. destruct b as [|z b _] using rev_ind.
  - assert (H' : (pre ++ [y]) ++ [x] = (a ++ [NText s]) ++ [NText t]) by (rewrite <- (app_assoc a); exact H).
    apply app_inj_tail in H' as [H1 ->]. apply app_inj_tail in H1 as [_ ->]. discriminate.
  - rewrite !app_assoc in H. apply app_inj_tail in H as [H _]. apply (N a s t b). rewrite H. now rewrite <- !app_assoc.
Qed.
Lemma merge_last pre x : no_adjacent_text pre ->
  steps (merge_text_loop_t (List.length pre) (pre ++ [x])) <= 2 * List.length pre + 15 + sum text_bytes (pre ++ [x]) /\
  exists p1 x1, result (merge_text_loop_t (List.length pre) (pre ++ [x])) = Ok (p1 ++ [x1]) /\
    incl p1 pre /\ sum mass (p1 ++ [x1]) <= sum mass (pre ++ [x]).
Proof.
  intro N. rewrite merge_text_loop_t_ok, merge_loop_ok.
  destruct pre as [|y pre _] using rev_ind.
  { cbn [List.length app merge_text_loop_t after steps]. split; [lia|]. exists [], x. now split. }
  destruct (is_text y && is_text x) eqn:E.
  - apply andb_true_iff in E as [Ey Ex]. destruct x as [|t| |]; try discriminate. destruct y as [|s| |]; try discriminate.
    assert (N' : no_adjacent_text (pre ++ [NText (s ++ t)])).
    { revert N. apply no_adjacent_same. now rewrite !map_app. }
    split.
    + rewrite app_length, Nat.add_comm. cbn [List.length plus merge_text_loop_t].
      assert (L : S (List.length pre) = List.length (pre ++ [@NText elem s])) by (rewrite app_length; cbn; lia).
      assert (V0 : vget ((pre ++ [NText s]) ++ [NText t]) (S (List.length pre)) = Ok (NText t)) by (rewrite L; apply vget_app).
      assert (V1 : vget ((pre ++ [NText s]) ++ [NText t]) (List.length pre) = Ok (NText s)) by (rewrite <- app_assoc; apply vget_app).
      assert (R0 : vremove ((pre ++ [NText s]) ++ [NText t]) (S (List.length pre)) = Ok (NText t, pre ++ [NText s])) by (rewrite L, vremove_app, app_nil_r; reflexivity).
      rewrite V0, steps_bind_after. cbn [is_text]. rewrite V1, steps_bind_after. cbn [is_text]. rewrite R0, steps_bind_after. cbn [fst snd].
      rewrite vremove_app, steps_bind_after. cbn [snd fst expect as_text]. rewrite !steps_bind_after.
      rewrite app_nil_r. pose proof (vinsert_app pre (NText (text_concat s t)) []) as V2. rewrite app_nil_r in V2. rewrite V2, steps_bind_after.
      pose proof (merge_quiet pre (NText (s ++ t)) [] N'). rewrite !sum_app, !sum_cons. change (@sum node text_bytes []) with 0. cbn [text_bytes].
      unfold shift_t, copy_t, text_concat in *. rewrite blen_app, !app_length. cbn [List.length]. lia.
    + exists pre, (NText (s ++ t)). rewrite fold_right_app. cbn [fold_right merge1].
      split; [|split].
      * f_equal. change (fold_right merge1 [NText (s ++ t)] pre) with (fold_right merge1 (fold_right merge1 [] [NText (s ++ t)]) pre).
        rewrite <- fold_right_app. now apply merge_id.
      * intros z Hz. apply in_or_app. now left.
      * rewrite !sum_app, !sum_cons. change (@sum node mass []) with 0. unfold mass. cbn [text_bytes]. rewrite blen_app. lia.
  - assert (N' : no_adjacent_text ((pre ++ [y]) ++ [x])) by now apply adjacent_end.
    split.
    + pose proof (merge_quiet (pre ++ [y]) x [] N'). lia.
    + exists (pre ++ [y]), x. split; [|split; [easy|lia]]. f_equal.
      replace [x] with (fold_right merge1 [] [x]) at 1 by now destruct x.
      rewrite <- fold_right_app. now apply merge_id.
Qed.

Definition look (n : node) : nat := 4 + text_bytes n.
Lemma drop_round l k a : vget l k = Ok a -> keep_node a = true ->
  steps (drop_blank_loop_t k l) <= look a + match k with O => 1 | S i => steps (drop_blank_loop_t i l) end.
Proof.
  intros V K. unfold look. destruct k as [|k]; cbn [drop_blank_loop_t]; rewrite V, steps_bind_after;
  (destruct a as [e|t|c|c]; cbn [is_text]; [cbn [steps after tbind result text_bytes]; lia| |cbn [steps after tbind result text_bytes]; lia..]);
  cbn [expect as_text keep_node text_bytes] in *; apply negb_true_iff in K;
  (rewrite (steps_bind_ok _ _ l) by (rewrite result_tbind; cbn [after result bind spend]; rewrite K; reflexivity));
  rewrite steps_bind_after; cbn [spend steps]; rewrite K; cbn [steps after]; unfold regex_t; lia.
Qed.
Lemma drop_quiet : forall pre x suf, Forall (fun n => keep_node n = true) (pre ++ [x]) ->
  steps (drop_blank_loop_t (List.length pre) (pre ++ x :: suf)) <= sum look (pre ++ [x]) + 1.
Proof.
  induction pre as [|y pre IH] using rev_ind; intros x suf F; pose proof F as F0; apply Forall_app in F as [F1 F2]; apply Forall_inv in F2.
  - pose proof (drop_round ([] ++ x :: suf) 0 x (vget_app [] x suf) F2) as R. cbn [app List.length] in *. rewrite sum_cons. change (@sum node look []) with 0. lia.
  - pose proof (drop_round ((pre ++ [y]) ++ x :: suf) (List.length (pre ++ [y])) x (vget_app _ x suf) F2) as R.
    specialize (IH y (x :: suf) F1). rewrite app_length in R at 2. cbn [List.length] in R. rewrite Nat.add_1_r in R.
    rewrite <- app_assoc in R at 2. cbn [app] in R. rewrite sum_app, sum_cons. change (@sum node look []) with 0. lia.
Qed.
Lemma drop_last pre x : Forall (fun n => keep_node n = true) pre ->
  steps (drop_blank_loop_t (List.length pre) (pre ++ [x])) <= sum look (pre ++ [x]) + 5.
Proof.
  intro F. destruct (keep_node x) eqn:K.
  { assert (Forall (fun n => keep_node n = true) (pre ++ [x])) by (apply Forall_app; split; [exact F|now constructor]).
    pose proof (drop_quiet pre x [] H). lia. }
  destruct x as [|t| |]; try discriminate. cbn [keep_node] in K. apply negb_false_iff in K.
  rewrite sum_app, sum_cons. change (@sum node look []) with 0. unfold look at 2. cbn [text_bytes].
  assert (V : vget (pre ++ [NText t]) (List.length pre) = Ok (NText t)) by apply vget_app.
  assert (R : vremove (pre ++ [NText t]) (List.length pre) = Ok (NText t, pre)) by (rewrite vremove_app, app_nil_r; reflexivity).
  assert (Sh : shift_t (pre ++ [@NText elem t]) (List.length pre) = 2) by (unfold shift_t; rewrite app_length; cbn [List.length]; lia).
  destruct pre as [|y pre _] using rev_ind.
  - cbn [List.length app drop_blank_loop_t] in *. rewrite V, steps_bind_after. cbn [is_text expect as_text]. 
    rewrite (steps_bind_ok _ _ []).
    + rewrite steps_bind_after. cbn [spend steps]. rewrite K, R, steps_bind_after. cbn [after steps]. unfold regex_t. cbn in Sh |- *. lia.
    + rewrite result_tbind. cbn [after result bind spend]. rewrite K, result_tbind, R. reflexivity.
  - remember (pre ++ [y]) as q eqn:Eq. assert (L : List.length q = S (List.length pre)) by (subst; rewrite app_length; cbn; lia).
    rewrite L in *. cbn [drop_blank_loop_t]. rewrite V, steps_bind_after. cbn [is_text expect as_text].
    rewrite (steps_bind_ok _ _ q).
    + rewrite steps_bind_after. cbn [spend steps]. rewrite K, R, steps_bind_after. cbn [after steps]. unfold regex_t.
      rewrite Eq in F. pose proof (drop_quiet pre y [] F) as D. rewrite <- Eq in D. rewrite Sh. lia.
    + rewrite result_tbind. cbn [after result bind spend]. rewrite K, result_tbind, R. reflexivity.
Qed.
Lemma normal_keep l : text_normal l -> Forall (fun n => keep_node n = true) l.
Proof.
  intros [_ B]. apply Forall_forall. intros [e|t|c|c] Hn; cbn [keep_node]; try reflexivity.
  apply negb_true_iff, not_blank. now apply B.
Qed.
Lemma cleanup_last pre x : text_normal pre -> steps (cleanup_text_nodes_t (pre ++ [x])) <= 8 * sum mass (pre ++ [x]) + 20.
Proof.
  intro N. pose proof (normal_keep _ N) as F. destruct N as [N _].
  assert (E : cleanup_text_nodes_t (pre ++ [x]) =
    do* l1 <- merge_text_loop_t (List.length pre) (pre ++ [x]);
    match l1 with [] => after 1 Panic | _ :: _ => drop_blank_loop_t (List.length l1 - 1) l1 end).
  { unfold cleanup_text_nodes_t. rewrite app_length. cbn [List.length]. rewrite Nat.add_sub. now destruct pre. }
  rewrite E. destruct (merge_last pre x N) as (S1 & p1 & x1 & R & I & M). rewrite (steps_bind_ok _ _ _ R).
  assert (D : match p1 ++ [x1] with [] => after 1 Panic | _ :: _ => drop_blank_loop_t (List.length (p1 ++ [x1]) - 1) (p1 ++ [x1]) end
    = drop_blank_loop_t (List.length p1) (p1 ++ [x1])).
  { rewrite app_length. cbn [List.length]. rewrite Nat.add_sub. now destruct p1. }
  rewrite D. assert (F1 : Forall (fun n => keep_node n = true) p1).
  { apply Forall_forall. intros n Hn. rewrite Forall_forall in F. apply F, I, Hn. }
  pose proof (drop_last p1 x1 F1) as S2. 
  assert (L1 : sum look (p1 ++ [x1]) <= 4 * sum mass (p1 ++ [x1])).
  { rewrite <- sum_mul. apply sum_le. intros n _. unfold look, mass. lia. }
  assert (L2 : sum text_bytes (pre ++ [x]) <= sum mass (pre ++ [x])) by (apply sum_le; intros n _; unfold mass; lia).
  pose proof (mass_length (pre ++ [x])) as L3. rewrite app_length in L3. lia.
Qed.

(** * Adding a node *)

Lemma merge_mass l : sum mass (merge_text l) <= sum mass l.
Proof.
  induction l as [|n l IH]; [cbn; lia|]. unfold merge_text in *. cbn [fold_right]. rewrite sum_cons.
  destruct n as [e|s|s|s]; cbn [merge1]; try (rewrite sum_cons; lia).
  destruct (fold_right merge1 [] l) as [|[e|t|t|t] r]; rewrite !sum_cons in *; unfold mass in *; cbn [text_bytes] in *; rewrite ?blen_app; lia.
Qed.
Lemma filter_mass f l : sum mass (filter f l) <= sum mass l.
Proof. induction l as [|n l IH]; [cbn; lia|]. cbn [filter]. destruct (f n); rewrite !sum_cons; lia. Qed.
Lemma clean_mass l : sum mass (clean l) <= sum mass l.
Proof. unfold clean. pose proof (filter_mass keep_node (merge_text l)). pose proof (merge_mass l). lia. Qed.
Lemma apply_mass df ctx n : mass (apply_xmlns_context df ctx n) = mass n.
Proof. now destruct n. Qed.

Definition node_fits (B : nat) (n : node) : Prop := match n with NElem e => fits B e | _ => True end.
Lemma set_context_steps' e df ctx B : fits B e -> opt_len df <= B -> map_t ctx <= B ->
  steps (set_namespace_context_t e df (Some ctx)) <= 6 + 8 * B.
Proof.
  intros F Hd Hx.
  assert (E : steps (set_namespace_context_t e df (Some ctx)) = steps (set_namespace_context_t (set_children e []) df (Some ctx))).
  { destruct e as [nm ch at_ ns [p|] c], ns as [ns|], df; reflexivity. }
  rewrite E. assert (H : steps (set_namespace_context_t (set_children e []) df (Some ctx)) <= 6 + 3 * B + 5 * B); [|lia].
  destruct e as [nm ch at_ ns p c]. destruct F as [F1 F2 F3 F4]. cbn in F1, F2, F3, F4.
  apply set_context_steps; [exact F1| |reflexivity|exact Hd|exact Hx].
  constructor; cbn; [rewrite map_t_eq; rewrite map_t_eq in F1; change (sum entry []) with 0; lia|lia..].
Qed.
Lemma append_le B e n : fits B e -> node_fits B n -> text_normal (e_children e) ->
  steps (append_t e n) <= 10 * B + 8 * (sum mass (e_children e) + mass n) + 30 /\
  forall r, append e n = Ok r -> exists l, r = set_children e l /\ text_normal l /\ sum mass l <= sum mass (e_children e) + mass n.
Proof.
  intros F Fn N. unfold append_t, append.
  assert (A : result (apply_xmlns_context_t (default_namespace e) (e_context e) n) = Ok (apply_xmlns_context (default_namespace e) (e_context e) n))
    by apply apply_xmlns_context_t_ok.
  rewrite (steps_bind_ok _ _ _ A). rewrite cleanup_clean. cbn [bind].
  set (n' := apply_xmlns_context (default_namespace e) (e_context e) n) in *.
  assert (C : result (cleanup_text_nodes_t (e_children e ++ [n'])) = Ok (clean (e_children e ++ [n']))) by (rewrite cleanup_text_nodes_t_ok; apply cleanup_clean).
  rewrite (steps_bind_ok _ _ _ C).
  pose proof (cleanup_last (e_children e) n' N) as S1. assert (Mn : mass n' = mass n) by apply apply_mass.
  rewrite sum_app, sum_cons in S1. change (@sum node mass []) with 0 in S1.
  pose proof (default_len e) as D. destruct F as [F1 F2 F3 F4]. pose proof (copy_opt_le (default_namespace e)).
  assert (S2 : steps (apply_xmlns_context_t (default_namespace e) (e_context e) n) <= 1 + 2 * B + 7 + 8 * B).
  { unfold apply_xmlns_context_t. cbn [spend steps]. destruct n as [c|t|t|t]; try (cbn [after steps]; lia).
    rewrite (steps_bind_ok _ _ (set_namespace_context c (default_namespace e) (Some (e_context e)))) by reflexivity.
    cbn [after steps]. pose proof (set_context_steps' c (default_namespace e) (e_context e) B Fn ltac:(lia) F1). lia. }
  split; [cbn [after steps]; lia|]. intros r [= <-]. exists (clean (e_children e ++ [n'])). split; [easy|]. split; [apply clean_normal|].
  pose proof (clean_mass (e_children e ++ [n'])) as K. rewrite sum_app, sum_cons in K. change (@sum node mass []) with 0 in K. lia.
Qed.

(** * The arena *)

Definition bulk (n : node) : nat := match n with NElem e => 1 + sum mass (e_children e) | _ => mass n end.
Definition load (d : list (nat * ptnode)) : nat := sum (fun kv => bulk (pt_value (snd kv))) d.
Definition roomy (B : nat) (d : list (nat * ptnode)) : Prop :=
  Forall (fun kv => match pt_value (snd kv) with NElem e => fits B e /\ text_normal (e_children e) | _ => True end) d.
Lemma load_cons kv d : load (kv :: d) = bulk (pt_value (snd kv)) + load d.
Proof. reflexivity. Qed.
Lemma dget_roomy B i d n : roomy B d -> dget i d = Some n -> match pt_value n with NElem e => fits B e /\ text_normal (e_children e) | _ => True end.
Proof.
  unfold dget. induction 1 as [|[k v] d H F IH]; cbn [mget]; [discriminate|]. destruct (i =? k); [intros [= <-]; exact H|exact IH].
Qed.
Lemma dget_load i d n : dget i d = Some n -> bulk (pt_value n) <= load d.
Proof.
  unfold dget. induction d as [|[k v] d IH]; cbn [mget]; [discriminate|]. rewrite load_cons.
  destruct (i =? k); [intros [= <-]; cbn [snd]; lia|]. intro H. specialize (IH H). lia.
Qed.
Lemma ddel_load i d n : dget i d = Some n -> load (ddel i d) + bulk (pt_value n) = load d.
Proof.
  unfold dget, ddel. induction d as [|[k v] d IH]; cbn [mget mdel]; [discriminate|]. rewrite load_cons.
  destruct (i =? k); [intros [= <-]; cbn [snd]; lia|]. intro H. specialize (IH H). rewrite load_cons. lia.
Qed.
Lemma ddel_roomy B i d : roomy B d -> roomy B (ddel i d).
Proof. unfold ddel. induction 1 as [|[k v] d H F IH]; cbn [mdel]; [constructor|]. destruct (i =? k); [exact F|now constructor]. Qed.
Lemma dset_load i v d : load (dset i v d) <= load d + bulk (pt_value v).
Proof.
  unfold dset. induction d as [|[k w] d IH]; cbn [mset]; rewrite load_cons; cbn [snd]; [lia|].
  destruct (i =? k); rewrite load_cons; cbn [snd]; lia.
Qed.
Lemma dset_load' i v d n : dget i d = Some n -> load (dset i v d) + bulk (pt_value n) = load d + bulk (pt_value v).
Proof.
  unfold dset, dget. induction d as [|[k w] d IH]; cbn [mset mget]; [discriminate|]. rewrite load_cons. cbn [snd].
  destruct (i =? k); rewrite load_cons; cbn [snd]; [intros [= <-]; lia|]. intro H. specialize (IH H). lia.
Qed.
Lemma dset_roomy B i v d : roomy B d -> match pt_value v with NElem e => fits B e /\ text_normal (e_children e) | _ => True end -> roomy B (dset i v d).
Proof.
  intros R H. unfold dset. induction R as [|[k w] d K F IH]; cbn [mset]; [now repeat constructor|].
  destruct (i =? k); constructor; assumption.
Qed.
Lemma roomy_mono B C d : B <= C -> roomy B d -> roomy C d.
Proof. intro L. apply Forall_impl. intros [k v]. destruct (pt_value (snd (k, v))); try easy. intros [F N]. split; [now apply (fits_mono B)|exact N]. Qed.

Lemma to_dom_step_le B i d : roomy B d ->
  steps (to_dom_step_t i d) <= 10 * B + 10 * load d + 40 /\
  forall d', to_dom_step i d = Ok d' -> roomy B d' /\ load d' <= load d.
Proof.
  intro R. unfold to_dom_step_t, to_dom_step.
  destruct (dget i d) as [n|] eqn:En; cbn [unwrap]; [|split; [cbn; lia|discriminate]]. rewrite steps_bind_after. cbn [bind].
  pose proof (dget_roomy B i d n R En) as Rn. pose proof (ddel_load i d n En) as Ld. pose proof (ddel_roomy B i d R) as Rd.
  set (d1 := ddel i d) in *. cbn [spend steps].
  set (value := match pt_value n with NElem e => NElem (reverse_children e) | v => v end).
  assert (Hv : mass value <= bulk (pt_value n) /\ node_fits B value /\ match pt_value n with NElem e => 1 + List.length (e_children e) | _ => 1 end <= 1 + bulk (pt_value n)).
  { unfold value. destruct (pt_value n) as [e|t|t|t]; cbn [bulk node_fits]; try (unfold mass; cbn [text_bytes]; split; [lia|split; [exact I|lia]]).
    unfold mass. cbn [text_bytes]. split; [lia|]. split.
    - destruct Rn as [[F1 F2 F3 F4] _]. destruct e. constructor; assumption.
    - pose proof (mass_length (e_children e)) as M. unfold mass in M. lia. }
  destruct Hv as (V1 & V2 & V3).
  destruct (pt_parent n) as [pi|]; cbn [unwrap]; [|split; [cbn [tbind after result steps]; lia|discriminate]]. rewrite steps_bind_after. cbn [bind].
  destruct (dget pi d1) as [p|] eqn:Ep; cbn [unwrap]; [|split; [cbn [tbind after result steps]; lia|discriminate]]. rewrite steps_bind_after. cbn [bind].
  pose proof (dget_roomy B pi d1 p Rd Ep) as Rp. pose proof (dget_load pi d1 p Ep) as Lp.
  destruct (pt_value p) as [pe|t|t|t] eqn:Ev; cbn [as_element expect]; try (split; [cbn [tbind after result steps]; lia|discriminate]).
  rewrite steps_bind_after. cbn [bind]. destruct Rp as [Fp Np]. pose proof (append_le B pe value Fp V2 Np) as [A1 A2]. cbn [bulk] in Lp.
  destruct (append pe value) as [r| | |] eqn:Ea; cbn [bind].
  2,3,4: split; [unfold tbind; rewrite append_t_ok, Ea; cbn [steps]; lia|discriminate].
  rewrite (steps_bind_ok _ _ r) by (rewrite append_t_ok; exact Ea). cbn [after steps]. split; [lia|]. intros d' [= <-].
  destruct (A2 r eq_refl) as (l & -> & Nl & Ml).
  pose proof (dset_load' pi (mkPT (pt_id p) (NElem (set_children pe l)) (pt_parent p) (pt_children p)) d1 p Ep) as Ls.
  cbn [pt_value] in Ls. rewrite Ev in Ls. cbn [bulk] in Ls. split.
  - apply dset_roomy; [exact Rd|]. cbn [pt_value]. destruct Fp as [F1 F2 F3 F4]. destruct pe. split; [constructor; assumption|exact Nl].
  - replace (e_children (set_children pe l)) with l in Ls by now destruct pe. lia.
Qed.
Lemma to_dom_loop_le B W : forall k d, roomy B d -> load d <= W ->
  steps (to_dom_loop_t k d) <= k * (10 * B + 10 * W + 40) + 1 /\
  forall d', to_dom_loop k d = Ok d' -> roomy B d' /\ load d' <= W.
Proof.
  induction k as [|k IH]; intros d R L.
  - cbn [to_dom_loop_t to_dom_loop after steps]. split; [lia|]. now intros d' [= <-].
  - cbn [to_dom_loop_t to_dom_loop]. pose proof (to_dom_step_le B (S k) d R) as [S1 S2].
    destruct (to_dom_step (S k) d) as [d1| | |] eqn:E; cbn [bind].
    2,3,4: split; [unfold tbind; rewrite to_dom_step_t_ok, E; cbn [steps]; nia|discriminate].
    rewrite (steps_bind_ok _ _ d1) by (rewrite to_dom_step_t_ok; exact E). destruct (S2 d1 eq_refl) as [R1 L1].
    destruct (IH d1 R1 ltac:(lia)) as [I1 I2]. split; [|exact I2]. nia.
Qed.
Lemma bulk_pos n : 1 <= bulk n.
Proof. destruct n; cbn [bulk]; unfold mass; lia. Qed.
Lemma load_length d : List.length d <= load d.
Proof. induction d as [|kv d IH]; [cbn; lia|]. rewrite load_cons. pose proof (bulk_pos (pt_value (snd kv))). cbn [List.length]. lia. Qed.
Lemma to_dom_le B W t : roomy B (t_data t) -> load (t_data t) <= W ->
  steps (pt_to_dom_t t) <= W * (10 * B + 10 * W + 40) + W + 10.
Proof.
  intros R L. unfold pt_to_dom_t. pose proof (load_length (t_data t)) as Ln.
  destruct (t_data t) as [|kv d] eqn:Et; [cbn [after steps]; lia|]. rewrite <- Et in *.
  destruct (to_dom_loop_le B W (List.length (t_data t) - 1) (t_data t) R L) as [S1 S2].
  assert (Q : (List.length (t_data t) - 1) * (10 * B + 10 * W + 40) <= W * (10 * B + 10 * W + 40)) by (apply Nat.mul_le_mono_r; lia).
  destruct (to_dom_loop (List.length (t_data t) - 1) (t_data t)) as [d1| | |] eqn:E.
  2,3,4: unfold tbind; rewrite to_dom_loop_t_ok, E; cbn [steps]; lia.
  rewrite (steps_bind_ok _ _ d1) by (rewrite to_dom_loop_t_ok; exact E). destruct (S2 d1 eq_refl) as [R1 L1].
  destruct (dget 0 d1) as [p|] eqn:Ep; cbn [unwrap]; [|cbn [tbind after result steps]; lia]. rewrite steps_bind_after.
  pose proof (dget_load 0 d1 p Ep) as Lp.
  destruct (pt_value p) as [e|c|c|c]; cbn [as_element expect]; try (cbn [tbind after result steps]; lia).
  rewrite steps_bind_after. cbn [after steps bulk] in *. pose proof (mass_length (e_children e)). lia.
Qed.

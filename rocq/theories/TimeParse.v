(** How long reading takes. *)
From Coq Require Import List NArith Arith Bool Ascii String Lia.
From Verif Require Import Base Escape Dom ParseTree Parse Time BaseFacts Spec SpecDom DomFacts EscapeFacts SpecEsc UnescFacts MachineFacts PosFacts TimeFacts TimeUnesc TimeElem TimeDom TimeWide.
From Verif Require Import SpecSize SizeFacts SizeMore SpecTime.
Import ListNotations.

Local Arguments map_t : simpl never.
Local Arguments sum {A} f l : simpl never.

(** * The next tag *)

Definition gone (o : option nat) (i : nat) (rest : str) : nat := match o with Some j => j - i | None => blen rest end.
Lemma quote_find_steps p : forall rest i q,
  steps (quote_aware_find_from_t p rest i q) <= 2 + gone (quote_aware_find_from p rest i q) i rest /\
  match quote_aware_find_from p rest i q with Some j => i <= j | None => True end.
Proof.
  induction rest as [|c rest IH]; intros i q; [cbn; lia|].
  pose proof (len_utf8_pos c) as L.
  assert (R : forall q', (1 + steps (quote_aware_find_from_t p rest (i + len_utf8 c) q') <= 2 + gone (quote_aware_find_from p rest (i + len_utf8 c) q') i (c :: rest)) /\
    match quote_aware_find_from p rest (i + len_utf8 c) q' with Some j => i <= j | None => True end).
  { intro q'. specialize (IH (i + len_utf8 c) q') as [I1 I2]. destruct (quote_aware_find_from p rest (i + len_utf8 c) q'); cbn [gone blen] in *; lia. }
  cbn [quote_aware_find_from_t quote_aware_find_from]. cbn [spend steps].
  destruct q as [q|]; [apply R|]. destruct (c =? cDq)%N; [apply R|]. destruct (c =? cSq)%N; [apply R|].
  destruct (starts_with p (c :: rest)); [cbn; lia|]. apply R.
Qed.
Lemma nested_find_steps : forall rest i d q,
  steps (nested_find_from_t rest i d q) <= 2 + gone (nested_find_from rest i d q) i rest /\
  match nested_find_from rest i d q with Some j => i <= j | None => True end.
Proof.
  induction rest as [|c rest IH]; intros i d q; [cbn; lia|].
  pose proof (len_utf8_pos c) as L.
  assert (R : forall d' q', (1 + steps (nested_find_from_t rest (i + len_utf8 c) d' q') <= 2 + gone (nested_find_from rest (i + len_utf8 c) d' q') i (c :: rest)) /\
    match nested_find_from rest (i + len_utf8 c) d' q' with Some j => i <= j | None => True end).
  { intros d' q'. specialize (IH (i + len_utf8 c) d' q') as [I1 I2]. destruct (nested_find_from rest (i + len_utf8 c) d' q'); cbn [gone blen] in *; lia. }
  cbn [nested_find_from_t nested_find_from]. cbn [spend steps].
  destruct q as [q|]; [apply R|]. destruct (c =? cDq)%N; [apply R|]. destruct (c =? cSq)%N; [apply R|]. destruct (c =? cLt)%N; [apply R|].
  destruct (c =? cGt)%N; [destruct d; [cbn; lia|apply R]|]. apply R.
Qed.
Definition ahead (r : outcome (option nat * option nat)) (s : str) (from : nat) : nat :=
  match r with Ok (Some a, Some b) => b - from | _ => 2 * blen s end.
Lemma next_tag_steps s from : steps (next_tag_t s from) <= 15 + 2 * ahead (next_tag s from) s from.
Proof.
  unfold next_tag_t, next_tag.
  destruct (slice_from s from) as [tail| | |] eqn:E; try (cbn; lia). rewrite steps_bind_after. cbn [bind spend steps].
  apply slice_from_len in E as [E _].
  destruct (find_sub (lit "<") tail) as [i|] eqn:Ei; cbn [add_opt option_map].
  2: { unfold find_t. rewrite Ei. cbn [after steps ahead]. lia. }
  assert (F : find_t (lit "<") tail = 2 + i) by (unfold find_t; rewrite Ei; change (blen (lit "<")) with 1; lia).
  apply find_sub_bound in Ei. rewrite F.
  set (start := i + from).
  destruct (slice_from s start) as [sub| | |] eqn:Es; try (cbn [tbind after result steps bind ahead]; lia).
  rewrite steps_bind_after. cbn [bind spend steps]. apply slice_from_len in Es as [Es _].
  assert (Z : start = i + from) by reflexivity.
  pose proof (find_t_le (lit "-->") sub) as B1. pose proof (find_t_le (lit "]]>") sub) as B2.
  destruct (starts_with (lit "<!--") sub).
  { cbn [after steps]. unfold find_t in *. destruct (find_sub (lit "-->") sub) as [j|]; cbn [add_opt option_map ahead]; change (blen (lit "-->")) with 3 in *; lia. }
  destruct (starts_with (lit "<?") sub).
  { unfold quote_aware_find_t, quote_aware_find. destruct (slice_from sub 2) as [r| | |] eqn:Er; try (cbn [tbind after result steps bind ahead]; lia).
    apply slice_from_len in Er as [Er _].
    cbn [bind]. pose proof (quote_find_steps (lit "?>") r 2 None) as [Q1 Q2].
    rewrite (steps_bind_ok _ _ (quote_aware_find_from (lit "?>") r 2 None)) by (rewrite result_tbind; cbn [after result bind]; apply quote_aware_find_from_t_ok).
    rewrite steps_bind_after. cbn [after steps]. unfold gone in Q1. destruct (quote_aware_find_from (lit "?>") r 2 None) as [j|]; cbn [add_opt option_map ahead]; lia. }
  destruct (starts_with (lit "<![CDATA[") sub).
  { cbn [after steps]. unfold find_t in *. destruct (find_sub (lit "]]>") sub) as [j|]; cbn [add_opt option_map ahead]; change (blen (lit "]]>")) with 3 in *; lia. }
  destruct (starts_with (lit "<!") sub).
  { unfold nested_quote_aware_find_close_t, nested_quote_aware_find_close. destruct (slice_from sub 2) as [r| | |] eqn:Er; try (cbn [tbind after result steps bind ahead]; lia).
    apply slice_from_len in Er as [Er _].
    cbn [bind]. pose proof (nested_find_steps r 2 0 None) as [Q1 Q2].
    rewrite (steps_bind_ok _ _ (nested_find_from r 2 0 None)) by (rewrite result_tbind; cbn [after result bind]; apply nested_find_from_t_ok).
    rewrite steps_bind_after. cbn [after steps]. unfold gone in Q1. destruct (nested_find_from r 2 0 None) as [j|]; cbn [add_opt option_map ahead]; lia. }
  unfold quote_aware_find_t, quote_aware_find. destruct (slice_from sub 1) as [r| | |] eqn:Er; try (cbn [tbind after result steps bind ahead]; lia).
  apply slice_from_len in Er as [Er _].
  cbn [bind]. pose proof (quote_find_steps (lit ">") r 1 None) as [Q1 Q2].
  rewrite (steps_bind_ok _ _ (quote_aware_find_from (lit ">") r 1 None)) by (rewrite result_tbind; cbn [after result bind]; apply quote_aware_find_from_t_ok).
  rewrite steps_bind_after. cbn [after steps]. unfold gone in Q1. destruct (quote_aware_find_from (lit ">") r 1 None) as [j|]; cbn [add_opt option_map ahead]; lia.
Qed.

(** * At most [k] steps, and [P] of the value *)

Definition within {A} (x : timed A) (k : nat) (P : A -> Prop) : Prop := steps x <= k /\ forall v, result x = Ok v -> P v.
Lemma within_bind {A B} (x : timed A) (f : A -> timed B) a b P Q :
  within x a P -> (forall v, P v -> within (f v) b Q) -> within (tbind x f) (a + b) Q.
Proof.
  intros [S1 R1] H. unfold within, tbind. destruct (result x) as [v|e| |] eqn:E; cbn [steps result]; [|split; [lia|discriminate]..].
  destruct (H v (R1 v eq_refl)) as [S2 R2]. split; [lia|exact R2].
Qed.
Lemma within_weak {A} (x : timed A) a b (P Q : A -> Prop) : within x a P -> a <= b -> (forall v, P v -> Q v) -> within x b Q.
Proof. intros [S R] L H. split; [lia|auto]. Qed.
Lemma within_after {A} k (r : outcome A) (P : A -> Prop) : (forall v, r = Ok v -> P v) -> within (after k r) k P.
Proof. intro H. now split. Qed.
Lemma within_spend {A} k (x : timed A) a P : within x a P -> within (spend k x) (k + a) P.
Proof. intros [S R]. split; [cbn [spend steps]; lia|exact R]. Qed.
Lemma within_fail {A} m buffer pos (P : A -> Prop) : within (fail_t m buffer pos) (blen buffer + 1) P.
Proof. split; [|discriminate]. pose proof (position_le buffer 0 pos). unfold fail_t. cbn [after steps]. lia. Qed.
Lemma within_map_err {A} (x : timed A) f buffer pos a P : within x a P -> within (map_err_t x f buffer pos) (a + (blen buffer + 1)) P.
Proof.
  intros [S R]. pose proof (position_le buffer 0 pos). unfold within, map_err_t. cbn [steps result].
  destruct (result x) as [v|e| |] eqn:E; cbn [map_err]; (split; [lia|]); [exact R|discriminate..].
Qed.
Lemma bind_within {A B} k (x : timed A) (f : A -> timed B) a P Q :
  within x a P -> a <= k -> (forall v, P v -> within (f v) (k - a) Q) -> within (tbind x f) k Q.
Proof. intros H L F. replace k with (a + (k - a)) by lia. now apply (within_bind _ _ _ _ P). Qed.
Lemma spend_within {A} k j (x : timed A) P : j <= k -> within x (k - j) P -> within (spend j x) k P.
Proof. intros L H. replace k with (j + (k - j)) by lia. now apply within_spend. Qed.
Lemma after_within {A} k j (r : outcome A) (P : A -> Prop) : j <= k -> (forall v, r = Ok v -> P v) -> within (after j r) k P.
Proof. intros L H. now split. Qed.
Lemma fail_within {A} k m buffer pos (P : A -> Prop) : blen buffer + 1 <= k -> within (fail_t m buffer pos) k P.
Proof. intro L. apply (within_weak _ (blen buffer + 1) _ P); [apply within_fail|exact L|auto]. Qed.
Lemma within_if {A} (c : bool) (x y : timed A) a b P : within x a P -> within y b P -> within (if c then x else y) (Nat.max a b) P.
Proof. intros [S1 R1] [S2 R2]. destruct c; split; [lia|exact R1|lia|exact R2]. Qed.

(** * One tag *)

Lemma real_text_within t : within (real_text_t t) (26 * ((blen t + 1) * (blen t + 1)) + blen t + 4)
  (fun r => match r with None => True | Some c => blen c <= blen t /\ 1 <= blen t end).
Proof.
  split.
  - unfold real_text_t. cbn [spend steps]. pose proof (unescape_t_le t) as U. unfold regex_t. destruct (is_blank t); [cbn [after steps]; lia|].
    unfold tbind. destruct (result (unescape_t t)); cbn [steps after]; lia.
  - rewrite real_text_t_ok. unfold real_text. destruct (is_blank t) eqn:E; [now intros v [= <-]|].
    destruct (unescape t) as [c| | |] eqn:U; cbn [bind]; try discriminate. intros v [= <-]. split; [now apply unescape_len|].
    destruct t as [|x t]; [discriminate|]. cbn [blen]. pose proof (len_utf8_pos x). lia.
Qed.

Definition kept (B W : nat) (t : ptree) : Prop := roomy B (t_data t) /\ load (t_data t) <= W /\ wide (t_data t) = 0.
Lemma kept_mono B C W X t : B <= C -> W <= X -> kept B W t -> kept C X t.
Proof. intros L1 L2 (R & L & Z0). split; [now apply (roomy_mono B)|]. split; [lia|exact Z0]. Qed.
Definition fresh (B : nat) (n : node) : Prop := match n with NElem e => fits B e /\ e_children e = [] | _ => True end.
Lemma fresh_ok B n : fresh B n -> sq_node n = 0 /\ bulk n = mass n /\ match n with NElem e => fits B e /\ text_normal (e_children e) | _ => True end.
Proof.
  destruct n as [e|c|c|c]; cbn [fresh bulk]; try (intros _; split; [reflexivity|]; split; [reflexivity|exact I]). intros [F E].
  split; [cbn [sq_node]; now rewrite squares_eq, E|]. rewrite E. split; [reflexivity|]. split; [exact F|].
  split; [intros a s t b H; now destruct a|intros s []].
Qed.
Lemma add_child_kept B W d pos id d' : roomy B d -> load d <= W -> wide d = 0 -> pt_add_child d pos id = Ok d' -> roomy B d' /\ load d' <= W /\ wide d' = 0.
Proof.
  intros R L Z0. unfold pt_add_child. destruct (dget pos d) as [p|] eqn:E; cbn [unwrap bind]; [|discriminate]. intros [= <-].
  pose proof (dget_roomy _ _ _ _ R E). pose proof (dset_load' pos (mkPT (pt_id p) (pt_value p) (pt_parent p) (pt_children p ++ [id])) d p E) as K.
  pose proof (dset_wide' pos (mkPT (pt_id p) (pt_value p) (pt_parent p) (pt_children p ++ [id])) d p E) as K'.
  cbn [pt_value] in K, K'. split; [now apply dset_roomy|lia].
Qed.
Lemma pt_append_within B W t n : kept B W t -> fresh B n -> within (pt_append_t t n) 6 (kept B (W + mass n)).
Proof.
  intros (R & L & Z0) F. apply within_after. intros t'. unfold pt_append. destruct (t_pos t) as [pos|]; [|discriminate].
  destruct (pt_add_child (t_data t) pos (List.length (t_data t))) as [d| | |] eqn:E; cbn [bind]; try discriminate. intros [= <-].
  destruct (add_child_kept B W _ _ _ _ R L Z0 E) as (R1 & L1 & Z1). destruct (fresh_ok B n F) as (Q & M & F'). unfold kept. cbn [t_data].
  pose proof (dset_load (List.length (t_data t)) (mkPT (List.length (t_data t)) n (Some pos) []) d) as K. cbn [pt_value] in K.
  pose proof (dset_wide (List.length (t_data t)) (mkPT (List.length (t_data t)) n (Some pos) []) d) as K'. cbn [pt_value] in K'.
  split; [now apply dset_roomy|lia].
Qed.
Lemma pt_push_within B W t e : kept B W t -> fresh B (NElem e) -> within (pt_push_t t e) 6 (kept B (W + 1)).
Proof.
  intros (R & L & Z0) F. apply within_after. intros t'. destruct (fresh_ok B _ F) as (Q & M & F'). change (mass (NElem e)) with 1 in M.
  unfold pt_push. destruct (t_pos t) as [pos|].
  - destruct (pt_add_child (t_data t) pos (List.length (t_data t))) as [d| | |] eqn:E; cbn [bind]; try discriminate. intros [= <-].
    destruct (add_child_kept B W _ _ _ _ R L Z0 E) as (R1 & L1 & Z1). unfold kept. cbn [t_data].
    pose proof (dset_load (List.length (t_data t)) (mkPT (List.length (t_data t)) (NElem e) (Some pos) []) d) as K. cbn [pt_value] in K.
    pose proof (dset_wide (List.length (t_data t)) (mkPT (List.length (t_data t)) (NElem e) (Some pos) []) d) as K'. cbn [pt_value] in K'.
    split; [now apply dset_roomy|lia].
  - intros [= <-]. unfold kept. cbn [t_data]. pose proof (dset_load 0 (mkPT 0 (NElem e) None []) (t_data t)) as K. cbn [pt_value] in K.
    pose proof (dset_wide 0 (mkPT 0 (NElem e) None []) (t_data t)) as K'. cbn [pt_value] in K'.
    split; [now apply dset_roomy|lia].
Qed.
Lemma pt_pop_within B W t : kept B W t -> within (pt_pop_t t) 2 (kept B W).
Proof.
  intro K. apply within_after. intros t'. unfold pt_pop. destruct (t_pos t) as [pos|]; [|discriminate].
  destruct (dget pos (t_data t)); cbn [unwrap bind]; [|discriminate]. now intros [= <-].
Qed.
Lemma pt_top_within B W t : kept B W t -> within (pt_top_element_t t) 2 (fun o => match o with None => True | Some e => fits B e end).
Proof.
  intros (R & L & _). apply within_after. intros o. unfold pt_top_element. destruct (t_pos t) as [pos|]; [|now intros [= <-]].
  destruct (dget pos (t_data t)) as [p|] eqn:E; cbn [unwrap bind]; [|discriminate]. pose proof (dget_roomy _ _ _ _ R E) as K.
  destruct (pt_value p) as [e|c|c|c]; cbn [as_element expect bind]; try discriminate. intros [= <-]. apply K.
Qed.
Lemma new_element_within s buffer pos parent B : match parent with None => True | Some p => fits B p end ->
  within (parse_new_element_t s buffer pos parent) (160 * (blen s * blen s) + 100 * blen s + 12 * B + 3 * blen buffer + 100)
    (fun e => fresh (B + 2 * blen s + 1) (NElem e)).
Proof. intro P. destruct (parse_new_element_le s buffer pos parent B P) as [S R]. split; [exact S|]. now rewrite parse_new_element_t_ok. Qed.

Lemma parse_tag_within buffer slc a t B W : kept B W t ->
  within (parse_tag_t buffer slc a t) (160 * (blen slc * blen slc) + 120 * blen slc + 20 * B + 5 * blen buffer + 200)
    (kept (B + 2 * blen slc + 1) (W + 1)).
Proof.
  intro K. set (L := blen slc). set (n := blen buffer). unfold parse_tag_t.
  assert (K1 : forall t', kept B W t' -> kept (B + 2 * L + 1) (W + 1) t') by (intros; apply (kept_mono B _ W); [lia..|assumption]).
  assert (K2 : forall t', kept B (W + 1) t' -> kept (B + 2 * L + 1) (W + 1) t') by (intros; apply (kept_mono B _ (W + 1)); [lia..|assumption]).
  assert (Cm : forall s, blen s <= L -> within (comment_new_t s) (2 + 2 * L) (fun _ => True)).
  { intros s Hs. split; [|trivial]. pose proof (find_t_le (lit "-->") s). unfold comment_new_t, copy_t. cbn [after steps]. lia. }
  assert (Cd : forall s, blen s <= L -> within (cdata_new_t s) (2 + 2 * L) (fun _ => True)).
  { intros s Hs. split; [|trivial]. pose proof (find_t_le (lit "]]>") s). unfold cdata_new_t, copy_t. cbn [after steps]. lia. }
  assert (Sl : forall x y, within (after 1 (slice slc x y)) 1 (fun s => blen s <= L)).
  { intros x y. apply within_after. intros s E. apply slice_len' in E. unfold L. lia. }
  assert (Fl : forall m, within (@fail_t ptree m buffer a) (n + 1) (kept (B + 2 * L + 1) (W + 1))) by (intro m; apply within_fail).
  apply spend_within; [lia|].
  destruct (starts_with (lit "<!--") slc && ends_with (lit "-->") slc).
  { cbv zeta. destruct (4 <? blen slc - 3).
    - eapply bind_within; [apply Sl|lia|]. intros c Hc. eapply bind_within; [apply Cm; exact Hc|lia|]. intros c' _.
      eapply within_weak; [apply within_map_err, (pt_append_within B W _ _ K); exact I|fold n; lia|exact K2].
    - destruct (4 =? blen slc - 3); [|eapply within_weak; [apply Fl|lia|auto]].
      eapply bind_within; [apply (Cm []); cbn; lia|lia|]. intros c' _.
      eapply within_weak; [apply (pt_append_within B W _ _ K); exact I|lia|exact K2]. }
  destruct (starts_with (lit "<![CDATA[") slc).
  { destruct (negb (ends_with (lit "]]>") slc)); [eapply within_weak; [apply Fl|lia|auto]|].
    eapply bind_within; [apply Sl|lia|]. intros c Hc. eapply bind_within; [apply Cd; exact Hc|lia|]. intros c' _.
    eapply within_weak; [apply within_map_err, (pt_append_within B W _ _ K); exact I|fold n; lia|exact K2]. }
  destruct (starts_with (lit "<!") slc).
  { pose proof (position_le buffer 0 a). fold n in H.
    eapply bind_within; [apply within_after with (P := fun _ => True); trivial|unfold copy_t; fold L; lia|]. intros w _.
    apply after_within; [unfold copy_t; fold L; lia|discriminate]. }
  eapply bind_within.
  { unfold strip_tag_t. apply (within_after _ _ (fun d => blen d <= L)). intros d E. now apply strip_tag_len in E. }
  { unfold copy_t. fold L. lia. }
  intros d Hd. cbn beta in Hd. replace (8 + copy_t slc + copy_t slc) with (10 + 2 * L) by (unfold copy_t; fold L; lia).
  eapply bind_within.
  { apply within_map_err. unfold check_element_tag_t. apply within_after with (P := fun _ => True). trivial. }
  { unfold regex_t. fold L n. lia. }
  intros _u _. replace (regex_t slc + (blen buffer + 1)) with (2 + L + n) by (unfold regex_t; fold L n; lia).
  destruct (starts_with (lit "</") slc).
  - eapply bind_within; [apply (pt_top_within B W _ K)|lia|]. intros [active|] Ha; [|eapply within_weak; [apply Fl|lia|auto]].
    pose proof (tag_name_len active) as T. destruct Ha as [_ _ H3 H4].
    apply spend_within; [unfold copy_t; lia|].
    destruct (negb (str_eqb d (tag_name active))).
    + apply spend_within; [unfold copy_t; fold L; lia|]. eapply within_weak; [apply Fl|unfold copy_t; fold L; lia|auto].
    + eapply within_weak; [apply (pt_pop_within B W _ K)|unfold copy_t; lia|exact K1].
  - eapply bind_within; [apply (pt_top_within B W _ K)|lia|]. intros top Ht. cbn beta in Ht.
    assert (Q : blen d * blen d <= L * L) by (apply Nat.mul_le_mono; lia).
    eapply bind_within; [apply (new_element_within d buffer a top B Ht)|fold n; lia|]. intros e He. fold n.
    assert (He' : fresh (B + 2 * L + 1) (NElem e)).
    { destruct He as [F E]. split; [|exact E]. apply (fits_mono (B + 2 * blen d + 1)); [lia|exact F]. }
    assert (Kt : kept (B + 2 * L + 1) W t) by (apply (kept_mono B _ W); [lia..|exact K]).
    destruct (ends_with (lit "/>") slc).
    + eapply within_weak; [apply within_map_err, (pt_append_within _ W _ _ Kt He')|fold n; lia|auto].
    + eapply within_weak; [apply (pt_push_within _ W _ _ Kt He')|lia|auto].
Qed.

(** * The loops *)

Lemma slice_exact s a b t : slice s a b = Ok t -> blen t = b - a.
Proof.
  unfold slice. destruct (Nat.leb_spec a b); [|discriminate]. destruct (slice_from s a) as [r| | |]; cbn [bind]; try discriminate.
  unfold slice_to. destruct (btake (b - a) r) as [x|] eqn:E; [|discriminate]. intros [= <-]. now apply btake_inv in E as (y & _ & E).
Qed.
Lemma next_tag_within s p : within (next_tag_t s p) (15 + 2 * ahead (next_tag s p) s p) (fun r => next_tag s p = Ok r).
Proof. split; [apply next_tag_steps|]. intros v H. now rewrite next_tag_t_ok in H. Qed.
(** What is spent between two positions is paid for by the bytes between them. *)
Lemma tally K n p b : p <= b -> b <= n -> K * ((n + 1) * (n + 1 - p)) = K * ((n + 1) * (b - p)) + K * ((n + 1) * (n + 1 - b)).
Proof. intros H1 H2. rewrite <- Nat.mul_add_distr_l, <- Nat.mul_add_distr_l. do 2 f_equal. lia. Qed.
Lemma square_le x M d : x <= d -> x <= M -> x * x <= M * d.
Proof. intros. rewrite (Nat.mul_comm M). now apply Nat.mul_le_mono. Qed.

Lemma content_within s sc : forall fuel st p t, p <= blen s -> kept (3 * p) (2 * p) t ->
  within (content_loop_t fuel s sc (st, p) t) (610 * ((blen s + 1) * (blen s + 1 - p))) (kept (3 * blen s) (2 * blen s)).
Proof.
  set (n := blen s). induction fuel as [|fuel IH]; intros st p t Hp K; cbn [content_loop_t].
  { split; [apply Nat.le_0_l|discriminate]. }
  cbn [snd]. pose proof (next_tag_within s p) as Nt.
  assert (Q0 : n + 1 <= (n + 1) * (n + 1 - p)) by (rewrite <- (Nat.mul_1_r (n + 1)) at 1; apply Nat.mul_le_mono_l; lia).
  destruct (next_tag s p) as [[[a|] [b|]]| | |] eqn:E; cbn [ahead] in Nt; fold n in Nt.
  2,3,4,5,6,7: eapply bind_within; [exact Nt|lia|]; intros v [= <-].
  2: apply fail_within; fold n; lia.
  2,3: apply after_within; [lia|]; intros t' [= <-]; apply (kept_mono (3 * p) _ (2 * p)); [lia..|exact K].
  pose proof (next_tag_progress _ _ _ _ E) as (H1 & H2 & H3). fold n in H3. clear E.
  rewrite (tally 610 n p b) by lia. remember (610 * ((n + 1) * (n + 1 - b))) as R eqn:ER.
  assert (Q1 : (a - p + 1) * (a - p + 1) <= (n + 1) * (a - p + 1)) by (apply square_le; lia).
  assert (Q2 : (b - a) * (b - a) <= (n + 1) * (b - a)) by (apply square_le; lia).
  assert (Q3 : (n + 1) * (a - p + 1) <= (n + 1) * (b - p)) by (apply Nat.mul_le_mono_l; lia).
  assert (Q4 : (n + 1) * (b - a) + (n + 1) * (a - p) = (n + 1) * (b - p)) by (rewrite <- Nat.mul_add_distr_l; f_equal; lia).
  assert (Q5 : n + 1 <= (n + 1) * (b - p)) by (rewrite <- (Nat.mul_1_r (n + 1)) at 1; apply Nat.mul_le_mono_l; lia).
  assert (Q6 : b - p <= (n + 1) * (b - p)) by (rewrite <- (Nat.mul_1_l (b - p)) at 1; apply Nat.mul_le_mono_r; lia).
  eapply bind_within; [exact Nt|lia|]. intros v [= <-].
  destruct sc; [apply fail_within; fold n; lia|].
  eapply bind_within; [apply (within_after _ _ (fun x => blen x = a - p)); intros x Ex; now apply slice_exact in Ex|lia|]. intros x Hx.
  eapply bind_within; [apply real_text_within|rewrite Hx; lia|]. intros rt Hrt. cbn beta in Hrt. rewrite Hx in *.
  eapply bind_within with (a := 7 + n) (P := kept (3 * p) (2 * a)); [|lia|].
  { destruct rt as [c|].
    - eapply within_weak; [apply within_map_err, (pt_append_within _ _ _ (NText c) K); exact I|fold n; lia|].
      intros t'. apply kept_mono; [lia|]. unfold mass. cbn [text_bytes]. lia.
    - apply after_within; [lia|]. intros t' [= <-]. apply (kept_mono (3 * p) _ (2 * p)); [lia..|exact K]. }
  intros t1 K1.
  eapply bind_within; [apply (within_after _ _ (fun x => blen x = b - a)); intros y Ey; now apply slice_exact in Ey|lia|]. intros y Hy.
  cbn beta in Hy. set (X1 := (n + 1) * (b - p)) in *. set (X2 := (n + 1) * (b - a)) in *. set (X3 := (n + 1) * (a - p + 1)) in *.
  set (X4 := (n + 1) * (a - p)) in *. set (X5 := (a - p + 1) * (a - p + 1)) in *. pose proof (parse_tag_within s y a t1 (3 * p) (2 * a) K1) as T.
  rewrite Hy in T. fold n in T. set (X6 := (b - a) * (b - a)) in *. clearbody X1 X2 X3 X4 X5 X6.
  eapply bind_within; [exact T|lia|]. intros t2 K2. cbn beta in K2.
  eapply within_weak; [apply (IH a b t2); [lia|]|rewrite <- ER; lia|auto].
  apply (kept_mono (3 * p + 2 * (b - a) + 1) _ (2 * a + 1)); [lia..|exact K2].
Qed.

Lemma dtd_size s d : dtd_from_string s = Ok d -> copy_t d <= blen s.
Proof.
  unfold dtd_from_string. destruct (_ && _); [|discriminate]. destruct (strip_prefix (lit "<!DOCTYPE") (trim s)) as [x|] eqn:E1; cbn [unwrap bind]; [|discriminate].
  destruct (strip_suffix (lit ">") x) as [y|] eqn:E2; cbn [unwrap]; [|discriminate]. intros [= <-].
  apply strip_suffix_spec in E2. apply strip_prefix_spec in E1. pose proof (trim_len s) as T. rewrite E1, E2, !blen_app in T. change (blen (lit ">")) with 1 in T. unfold copy_t. lia.
Qed.
Definition found (n p : nat) (dtds : list str) (r : option str * list str * (nat * nat)) : Prop :=
  let '(_, l, (a, b)) := r in p <= a /\ a < b /\ b <= n /\ sum copy_t l <= sum copy_t dtds + (a - p).
Lemma prolog_within s : forall fuel decl dtds w st p, p <= blen s ->
  within (prolog_loop_t fuel s decl dtds w (st, p)) (80 * ((blen s + 1) * (blen s + 1 - p))) (found (blen s) p dtds).
Proof.
  set (n := blen s). induction fuel as [|fuel IH]; intros decl dtds w st p Hp; cbn [prolog_loop_t].
  { split; [apply Nat.le_0_l|discriminate]. }
  cbn [snd fst]. pose proof (next_tag_within s p) as Nt.
  assert (Q0 : n + 1 <= (n + 1) * (n + 1 - p)) by (rewrite <- (Nat.mul_1_r (n + 1)) at 1; apply Nat.mul_le_mono_l; lia).
  destruct (next_tag s p) as [[[a|] [b|]]| | |] eqn:E; cbn [ahead] in Nt; fold n in Nt.
  2,3,4,5,6,7: eapply bind_within; [exact Nt|lia|]; intros v [= <-].
  2: apply fail_within; fold n; lia.
  2,3: apply after_within; [lia|discriminate].
  pose proof (next_tag_progress _ _ _ _ E) as (H1 & H2 & H3). fold n in H3. clear E.
  assert (Q7 : n + 1 <= (n + 1) * (n + 1 - b)) by (rewrite <- (Nat.mul_1_r (n + 1)) at 1; apply Nat.mul_le_mono_l; lia).
  rewrite (tally 80 n p b) by lia.
  assert (Q1 : (a - p + 1) * (a - p + 1) <= (n + 1) * (b - p)) by (apply square_le; lia).
  assert (Q5 : n + 1 <= (n + 1) * (b - p)) by (rewrite <- (Nat.mul_1_r (n + 1)) at 1; apply Nat.mul_le_mono_l; lia).
  assert (Q6 : b - p <= (n + 1) * (b - p)) by (rewrite <- (Nat.mul_1_l (b - p)) at 1; apply Nat.mul_le_mono_r; lia).
  assert (IH' : forall decl dtds w, within (prolog_loop_t fuel s decl dtds w (a, b)) (80 * ((n + 1) * (n + 1 - b))) (found n b dtds)) by (intros; apply IH; exact H3).
  remember ((n + 1) * (n + 1 - b)) as R eqn:ER. remember ((n + 1) * (b - p)) as X1 eqn:E1. remember ((a - p + 1) * (a - p + 1)) as X5 eqn:E5.
  assert (Fi : forall l, sum copy_t l <= sum copy_t dtds + (b - a) -> forall r, found n b l r -> found n p dtds r).
  { intros l Hl [[dd l'] [a' b']]. unfold found. lia. }
  eapply bind_within; [exact Nt|lia|]. intros v [= <-].
  eapply bind_within; [apply (within_after _ _ (fun x => blen x = a - p)); intros x Ex; now apply slice_exact in Ex|lia|]. intros x Hx. cbn beta in Hx.
  pose proof (real_text_within x) as T. rewrite Hx, <- E5 in T.
  eapply bind_within; [exact T|lia|]. intros [c|] _; [apply fail_within; fold n; lia|].
  eapply bind_within; [apply (within_after _ _ (fun x => blen x = b - a)); intros y Ey; now apply slice_exact in Ey|lia|]. intros y Hy. cbn beta in Hy.
  assert (Cy : copy_t y = 1 + (b - a)) by (unfold copy_t; lia).
  apply spend_within; [lia|].
  destruct (starts_with (lit "<?xml") y).
  { destruct (negb (st =? 0)); [apply fail_within; fold n; lia|].
    eapply bind_within; [unfold declaration_from_str_t; apply within_after with (P := fun _ => True); trivial|lia|]. intros d _.
    eapply within_weak; [apply IH'|lia|apply Fi; lia]. }
  destruct (starts_with (lit "<!--") y).
  { eapply bind_within with (a := 2 + copy_t y) (P := fun _ => True); [|lia|intros _ _; eapply within_weak; [apply IH'|lia|apply Fi; lia]].
    destruct (w =? 0); [|apply after_within; [lia|trivial]].
    eapply bind_within; [apply within_after with (P := fun _ => True); trivial|lia|]. intros _ _. apply after_within; [lia|trivial]. }
  destruct (starts_with (lit "<!DOCTYPE") y).
  { eapply bind_within; [unfold dtd_from_string_t; apply within_after with (P := fun d => copy_t d <= b - a); intros d Ed; apply dtd_size in Ed; lia|lia|]. intros d Hd. cbn beta in Hd.
    eapply within_weak; [apply IH'|lia|apply Fi]. rewrite sum_app, sum_cons. change (sum copy_t []) with 0. lia. }
  destruct (starts_with (lit "<!") y).
  { apply spend_within; [lia|]. eapply within_weak; [apply IH'|lia|apply Fi; lia]. }
  destruct (starts_with (lit "</") y); [apply fail_within; fold n; lia|].
  eapply bind_within; [apply within_map_err; unfold check_element_tag_t; apply within_after with (P := fun _ => True); trivial|unfold regex_t; fold n; lia|]. intros _ _.
  apply after_within; [unfold regex_t; fold n; lia|]. intros r [= <-]. unfold found. lia.
Qed.

Lemma parse_str_within s : within (parse_str_t s) (1000 * ((blen s + 1) * (blen s + 1))) (fun _ => True).
Proof.
  set (n := blen s). unfold parse_str_t. set (M := (n + 1) * (n + 1)).
  assert (EM : M = n * n + 2 * n + 1) by (unfold M; lia).
  pose proof (prolog_within s (S (blen s)) None [] 0 0 0 ltac:(lia)) as P. fold n in P. rewrite Nat.sub_0_r in P. fold M in P.
  eapply bind_within; [exact P|lia|]. intros [[decl dtds] [a b]] (H1 & H2 & H3 & H4). change (sum copy_t []) with 0 in H4. cbn [fst snd].
  eapply bind_within; [apply (within_after _ _ (fun x => blen x = b - a)); intros y Ey; now apply slice_exact in Ey|lia|]. intros y Hy. cbn beta in Hy.
  eapply bind_within.
  { unfold strip_tag_t. apply (within_after _ _ (fun d => blen d <= b - a)). intros d E. apply strip_tag_len in E. lia. }
  { unfold copy_t. lia. }
  intros d Hd. cbn beta in Hd. replace (8 + copy_t y + copy_t y) with (10 + 2 * (b - a)) by (unfold copy_t; lia).
  assert (Qd : blen d * blen d <= n * n) by (apply Nat.mul_le_mono; lia).
  eapply bind_within; [apply (new_element_within d s a None 0 I)|fold n; lia|]. intros root Hr. fold n.
  assert (K0 : kept (0 + 2 * blen d + 1) 0 pt_new) by (split; [constructor|split; [apply le_n|reflexivity]]).
  eapply bind_within; [apply (pt_push_within _ _ _ _ K0 Hr)|lia|]. intros t1 K1.
  eapply bind_within with (a := 2) (P := kept (3 * b) (2 * b)); [|lia|].
  { assert (K1' : kept (3 * b) (2 * b) t1) by (apply (kept_mono (0 + 2 * blen d + 1) _ (0 + 1)); [lia..|exact K1]).
    destruct (ends_with (lit "/>") y); [apply (pt_pop_within _ _ _ K1')|apply after_within; [lia|now intros v [= <-]]]. }
  intros t2 K2. pose proof (content_within s (ends_with (lit "/>") y) (S (blen s)) a b t2 H3 K2) as C. fold n in C.
  assert (Qc : (n + 1) * (n + 1 - b) <= M) by (apply Nat.mul_le_mono_l; lia).
  remember ((n + 1) * (n + 1 - b)) as X eqn:EX. clearbody M.
  eapply bind_within; [exact C|lia|]. intros t3 (R3 & L3 & _).
  destruct (negb (pt_empty_stack t3)); [apply after_within; [lia|discriminate]|].
  pose proof (to_dom_le _ _ _ R3 L3) as D.
  eapply bind_within; [split; [exact D|intros v _; exact I]|lia|]. intros e _. apply after_within; [lia|trivial].
Qed.
Theorem parse_str_steps s : steps (parse_str_t s) <= 1000 * ((blen s + 1) * (blen s + 1)).
Proof. apply parse_str_within. Qed.

(** * A lower bound: every child looks at those before it *)

Theorem parse_str_squares s d : parse_str s = Ok d -> squares (d_root d) <= 2 * steps (parse_str_t s).
Proof.
  intro H. rewrite <- parse_str_t_ok in H. unfold parse_str_t in *. set (n := blen s) in *.
  pose proof (prolog_within s (S n) None [] 0 0 0 ltac:(lia)) as P. fold n in P.
  apply bind_inv in H as ([[decl dtds] [a b]] & E1 & H & ->). apply P in E1. destruct E1 as (H1 & H2 & H3 & H4). cbn [fst snd] in *.
  apply bind_inv in H as (y & Ey & H & ->). cbn [after result] in Ey. apply slice_exact in Ey.
  apply bind_inv in H as (g & Eg & H & ->). cbn [strip_tag_t after result] in Eg. apply strip_tag_len in Eg.
  apply bind_inv in H as (root & Er & H & ->). apply (new_element_within g s a None 0 I) in Er.
  assert (K0 : kept (0 + 2 * blen g + 1) 0 pt_new) by (split; [constructor|split; [apply le_n|reflexivity]]).
  apply bind_inv in H as (t1 & Et & H & ->). apply (pt_push_within _ _ _ _ K0 Er) in Et.
  assert (K1 : kept (3 * b) (2 * b) t1) by (apply (kept_mono (0 + 2 * blen g + 1) _ (0 + 1)); [lia..|exact Et]).
  apply bind_inv in H as (t2 & E2 & H & ->).
  assert (K2 : kept (3 * b) (2 * b) t2).
  { destruct (ends_with (lit "/>") y); [now apply (pt_pop_within _ _ _ K1) in E2|]. cbn [after result] in E2. now injection E2 as <-. }
  apply bind_inv in H as (t3 & E3 & H & ->). apply (content_within s _ (S n) a b t2 H3 K2) in E3. destruct E3 as (_ & _ & Z3).
  destruct (negb (pt_empty_stack t3)); [discriminate|].
  apply bind_inv in H as (e & Ee & H & ->). rewrite pt_to_dom_t_ok in Ee. apply to_dom_wide in Ee.
  cbn [after result] in H. injection H as <-. cbn [d_root doc_new_with_decl_dtd]. lia.
Qed.

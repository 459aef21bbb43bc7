(** How long [unescape] takes. *)
From Coq Require Import List NArith Arith Bool Ascii String Lia.
From Verif Require Import Base Escape Dom ParseTree Parse Time BaseFacts Spec EscapeFacts SpecEsc UnescFacts TimeFacts.
Import ListNotations.

Lemma steps_bind_le {A B} (x : timed A) (f : A -> timed B) a b :
  steps x <= a -> (forall v, result x = Ok v -> steps (f v) <= b) -> steps (tbind x f) <= a + b.
Proof. intros H1 H2. unfold tbind. destruct (result x) as [v|e| |] eqn:E; cbn; [specialize (H2 v eq_refl)|..]; lia. Qed.
Lemma steps_bind_ok {A B} (x : timed A) (f : A -> timed B) v : result x = Ok v -> steps (tbind x f) = steps x + steps (f v).
Proof. intro E. unfold tbind. rewrite E. reflexivity. Qed.
Lemma steps_bind_after {A B} k (v : A) (f : A -> timed B) : steps (tbind (after k (Ok v)) f) = k + steps (f v).
Proof. reflexivity. Qed.
Lemma length_le_blen (s : str) : List.length s <= blen s.
Proof. induction s as [|c s IH]; cbn [List.length blen]; [lia|]. pose proof (len_utf8_pos c). lia. Qed.

(** * Digits after a reference *)

Definition radix_run (s : str) : nat := match s with c :: s' => if (c =? 43)%N then digits_read s' else digits_read s | [] => 0 end.
Definition run (t : str) : nat := match t with c :: h => if (c =? 35)%N then radix_run h else 0 | [] => 0 end.
Fixpoint weight (s : str) : nat :=
  match s with
  | [] => 0
  | c :: s' => (if (c =? amp)%N then 1 + run s' else 0) + weight s'
  end.
Lemma digits_app a b : digits_read a <= digits_read (a ++ b).
Proof. induction a as [|c a IH]; cbn [digits_read app]; [lia|]. destruct (hex_digit c); lia. Qed.
Lemma radix_run_app a b : radix_run a <= radix_run (a ++ b).
Proof. destruct a as [|c a]; cbn [radix_run app]; [lia|]. destruct (c =? 43)%N; [apply digits_app|apply (digits_app (c :: a))]. Qed.
Lemma radix_t_run h b : radix_t h <= 2 + radix_run (h ++ b).
Proof. pose proof (radix_run_app h b). unfold radix_t. unfold radix_run in H at 1. destruct h; lia. Qed.
Lemma weight_len : forall n s, List.length s <= n -> digits_read s + weight s <= List.length s.
Proof.
  induction n as [|n IH]; intros s L; destruct s as [|c s]; cbn [List.length digits_read weight] in *; try lia.
  pose proof (IH s ltac:(lia)) as K. destruct (N.eqb_spec c amp) as [->|N].
  - change (hex_digit amp) with (@None N). cbv iota. destruct s as [|h s]; cbn [run weight List.length] in *; [lia|].
    destruct (N.eqb_spec h 35) as [->|]; [|lia]. change (35 =? amp)%N with false in *. cbv iota in *.
    cbn [digits_read] in K. change (hex_digit 35%N) with (@None N) in K. pose proof (IH s ltac:(lia)) as K1.
    destruct s as [|p s]; cbn [radix_run] in *; [cbn in *; lia|].
    destruct (N.eqb_spec p 43) as [->|]; [|lia]. cbn [weight List.length] in *. change (43 =? amp)%N with false in *.
    pose proof (IH s ltac:(lia)). cbv iota in *. lia.
  - destruct (hex_digit c); lia.
Qed.
Lemma weight_blen s : weight s <= blen s.
Proof. pose proof (weight_len _ s (le_n _)). pose proof (length_le_blen s). lia. Qed.
Lemma weight_app a b : weight b <= weight (a ++ b).
Proof. induction a as [|c a IH]; cbn [app weight]; lia. Qed.

(** * The inner loop *)

Lemma string_insert_t_steps d mid s ins : steps (string_insert_t (d ++ mid ++ s) (blen d) (blen d + blen mid) ins) = 5 + 2 * blen s + blen ins.
Proof.
  pose proof (string_insert_app d mid s ins) as H. unfold string_insert_t. unfold string_insert in H.
  rewrite app_assoc, <- blen_app, slice_from_app in *. cbn [bind] in H. rewrite steps_bind_after.
  destruct (truncate ((d ++ mid) ++ s) (blen d)) as [f| | |] eqn:E; try discriminate.
  unfold copy_t. cbn [steps after tbind result]. lia.
Qed.
Lemma entity_t_radix h b k : steps (spend (radix_t h) (after k (Ok b) : timed (str * nat))) <= 2 + radix_run h + k.
Proof. cbn [steps spend after]. pose proof (radix_t_run h []). rewrite app_nil_r in H. lia. Qed.

Lemma run_prefix t h s : amp :: t = (lit "&#" ++ h) ++ s -> radix_run h <= run t.
Proof. cbn [lit list_ascii_of_string map app]. intro E. injection E as ->. cbn [run]. change (N_of_ascii "#" =? 35)%N with true. apply radix_run_app. Qed.
Lemma entity_t_after i pre s t buf cs : amp :: t = pre ++ s -> In semi pre ->
  steps (unescape_entity_t i (blen pre) (amp :: t) buf cs) <= 10 + run t.
Proof.
  intros E Hin. unfold unescape_entity_t. rewrite E, slice_to_app, steps_bind_after.
  assert (forall x, ~ In semi x -> str_eqb pre x = false) as Hx.
  { intros x Hx. apply str_eqb_neq. intros ->. easy. }
  rewrite !Hx by (cbn; intuition discriminate). rewrite !steps_bind_after.
  destruct (starts_with (lit "&#") pre) eqn:S; [|cbn; lia].
  apply starts_with_spec in S as [h ->]. pose proof (run_prefix t h s E) as R.
  change 2 with (blen (lit "&#")) at 1. rewrite slice_from_app, steps_bind_after.
  apply in_app_or in Hin as [Hin|Hin]; [cbn in Hin; intuition discriminate|].
  rewrite from_radix_semi by easy. pose proof (entity_t_radix h (buf, cs) 1). lia.
Qed.
Lemma scan_t_after i t buf : forall rest pre cs, amp :: t = pre ++ rest -> In semi pre ->
  steps (unescape_scan_t i (amp :: t) rest (blen pre) buf cs) <= 1 + List.length rest * (11 + run t).
Proof.
  induction rest as [|k rest IH]; intros pre cs E Hin; [cbn; lia|].
  cbn [unescape_scan_t List.length].
  assert (K : result (if (k =? cSemi)%N then unescape_entity_t i (blen pre) (amp :: t) buf (len_utf8 k) else after 1 (Ok (buf, len_utf8 k))) = Ok (buf, len_utf8 k)).
  { destruct (k =? cSemi)%N; [|easy]. rewrite unescape_entity_t_ok. now apply entity_after with (s := k :: rest). }
  rewrite (steps_bind_ok _ _ _ K). cbn [fst snd spend steps].
  replace (blen pre + len_utf8 k) with (blen (pre ++ [k])) by (rewrite blen_app; cbn [blen]; lia).
  pose proof (IH (pre ++ [k]) (len_utf8 k) ltac:(rewrite <- app_assoc; exact E) ltac:(apply in_or_app; now left)) as H.
  assert (steps (if (k =? cSemi)%N then unescape_entity_t i (blen pre) (amp :: t) buf (len_utf8 k) else after 1 (Ok (buf, len_utf8 k))) <= 10 + run t).
  { destruct (k =? cSemi)%N; [|cbn; lia]. now apply (entity_t_after i pre (k :: rest)). }
  lia.
Qed.
Lemma entity_t_first d pre s t cs : amp :: t = pre ++ semi :: s ->
  steps (unescape_entity_t (blen d) (blen pre) (amp :: t) (d ++ pre ++ semi :: s) cs) <= 20 + run t + 2 * blen s.
Proof.
  intro E. unfold unescape_entity_t. rewrite E, slice_to_app, steps_bind_after.
  replace (blen d + blen pre + 1) with (blen d + blen (pre ++ [semi])) by (rewrite blen_app; cbn; lia).
  assert (forall ins, result (string_insert_t (d ++ pre ++ semi :: s) (blen d) (blen d + blen (pre ++ [semi])) ins) = Ok (d ++ ins ++ s)) as Hins.
  { intro ins. rewrite string_insert_t_ok, <- string_insert_app with (mid := pre ++ [semi]). now rewrite <- !app_assoc. }
  assert (forall ins, steps (string_insert_t (d ++ pre ++ semi :: s) (blen d) (blen d + blen (pre ++ [semi])) ins) = 5 + 2 * blen s + blen ins) as Sins.
  { intro ins. rewrite <- (string_insert_t_steps d (pre ++ [semi]) s ins). now rewrite <- !app_assoc. }
  destruct (str_eqb pre (lit "&amp")) eqn:E1.
  { apply str_eqb_eq in E1. rewrite (steps_bind_ok _ _ _ (Hins _)), Sins. rewrite E1. cbn. lia. }
  rewrite steps_bind_after.
  destruct (str_eqb pre (lit "&lt")) eqn:E2.
  { apply str_eqb_eq in E2. rewrite (steps_bind_ok _ _ _ (Hins _)), Sins. rewrite E2. cbn. lia. }
  rewrite steps_bind_after.
  destruct (str_eqb pre (lit "&gt")) eqn:E3.
  { apply str_eqb_eq in E3. rewrite (steps_bind_ok _ _ _ (Hins _)), Sins. rewrite E3. cbn. lia. }
  rewrite steps_bind_after.
  destruct (str_eqb pre (lit "&apos")) eqn:E4.
  { apply str_eqb_eq in E4. rewrite (steps_bind_ok _ _ _ (Hins _)), Sins. rewrite E4. cbn. lia. }
  rewrite steps_bind_after.
  destruct (str_eqb pre (lit "&quot")) eqn:E5.
  { apply str_eqb_eq in E5. rewrite (steps_bind_ok _ _ _ (Hins _)), Sins. rewrite E5. cbn. lia. }
  rewrite steps_bind_after.
  destruct (starts_with (lit "&#") pre) eqn:E6; [|cbn; lia].
  apply starts_with_spec in E6 as [h ->]. pose proof (run_prefix t h (semi :: s) E) as R.
  change 2 with (blen (lit "&#")) at 1. rewrite slice_from_app, steps_bind_after.
  pose proof (radix_t_run h []) as Q. rewrite app_nil_r in Q. cbn [spend steps].
  destruct (from_str_radix16 h) as [n|]; [|cbn [steps spend after]; lia].
  destruct (char_from_u32 n) as [c|]; [|cbn [steps spend after]; lia].
  rewrite (steps_bind_ok _ _ _ (Hins _)), Sins. cbn [after steps blen]. pose proof (len_utf8_le4 c). lia.
Qed.
Lemma scan_t_le d t : steps (unescape_scan_t (blen d) (amp :: t) (amp :: t) 0 (d ++ amp :: t) 1) <= (2 + blen t) * (22 + run t).
Proof.
  assert (S : forall p2 p1 s cs, ~ In semi p2 -> amp :: t = p1 ++ p2 ++ s ->
    steps (unescape_scan_t (blen d) (amp :: t) (p2 ++ s) (blen p1) (d ++ amp :: t) cs) =
    2 * List.length p2 + steps (unescape_scan_t (blen d) (amp :: t) s (blen (p1 ++ p2)) (d ++ amp :: t) (last_size p2 cs))).
  { induction p2 as [|k p2 IH]; intros p1 s cs Hn E; [now rewrite app_nil_r|].
    cbn [app unescape_scan_t last_size List.length]. destruct (N.eqb_spec k cSemi) as [->|Hk]; [destruct Hn; now left|].
    rewrite steps_bind_after. cbn [spend steps fst snd].
    replace (blen p1 + len_utf8 k) with (blen (p1 ++ [k])) by (rewrite blen_app; cbn [blen]; lia).
    rewrite IH; [|intro; apply Hn; now right|now rewrite <- app_assoc]. rewrite <- app_assoc. cbn [app]. lia. }
  pose proof (length_le_blen t) as Lt. destruct (split_semi t) as [[[a b] [E Hns]]|Hns]; cbn [fst snd] in *.
  - assert (Et : amp :: t = (amp :: a) ++ semi :: b) by now rewrite E.
    assert (~ In semi (amp :: a)) as Hn by (intros [F|F]; [discriminate|easy]).
    pose proof (S (amp :: a) [] (semi :: b) 1 Hn Et) as H0. rewrite <- Et, app_nil_l in H0. change (blen []) with 0 in H0. rewrite H0. clear H0.
    cbn [unescape_scan_t]. change (semi =? cSemi)%N with true. cbv iota.
    assert (K : exists bc, result (unescape_entity_t (blen d) (blen (amp :: a)) (amp :: t) (d ++ amp :: t) (len_utf8 semi)) = Ok bc).
    { rewrite unescape_entity_t_ok, Et, entity_first by easy. destruct (ref_char (amp :: a)); eexists; reflexivity. }
    destruct K as [bc K]. rewrite (steps_bind_ok _ _ _ K). cbn [spend steps].
    pose proof (entity_t_first d (amp :: a) b t (len_utf8 semi) Et) as H1. rewrite <- Et in H1.
    replace (blen (amp :: a) + len_utf8 semi) with (blen ((amp :: a) ++ [semi])) by (rewrite blen_app; cbn [blen]; lia).
    pose proof (scan_t_after (blen d) t (fst bc) b ((amp :: a) ++ [semi]) (snd bc) ltac:(rewrite <- app_assoc; exact Et)
      ltac:(apply in_or_app; right; now left)) as H2.
    rewrite E in Lt at 1. rewrite app_length in Lt. cbn [List.length] in *.
    assert (blen b <= blen t) by (rewrite E, blen_app; cbn [blen]; lia).
    pose proof (length_le_blen b). set (r := run t) in *. set (n := blen t) in *.
    assert (List.length b * (11 + r) <= n * (11 + r)) by (apply Nat.mul_le_mono_r; lia). lia.
  - pose proof (S (amp :: t) [] [] 1 ltac:(intros [F|F]; [discriminate|easy]) ltac:(now rewrite app_nil_r)) as H.
    rewrite app_nil_r in H. change (blen []) with 0 in H. rewrite H. cbn [unescape_scan_t after steps List.length]. lia.
Qed.

(** * The outer loop *)

Lemma find_t_one c s : find_t [c] s <= 5 + blen s.
Proof.
  unfold find_t. destruct (find_sub [c] s) as [i|] eqn:E; [|lia].
  apply find_char_some in E as (a & b & -> & _ & <-). rewrite blen_app. cbn [blen]. lia.
Qed.
Lemma find_t_amp s : find_t [amp] s <= 1 + blen s.
Proof.
  unfold find_t. destruct (find_sub [amp] s) as [i|] eqn:E; [|lia].
  apply find_char_some in E as (a & b & -> & _ & <-). rewrite blen_app. cbn [blen]. change (len_utf8 amp) with 1. lia.
Qed.
Lemma unescape_loop_t_le M : forall fuel d tl, blen tl <= M ->
  steps (unescape_loop_t fuel (d ++ tl) (blen d)) <= 26 * (M + 1) * weight tl + M + 3.
Proof.
  induction fuel as [|fuel IH]; intros d tl L; [cbn [unescape_loop_t tbind result unwrap steps after]; lia|].
  cbn [unescape_loop_t]. destruct (_ <=? _); [cbn [unescape_loop_t tbind result unwrap steps after]; lia|].
  rewrite slice_from_app, steps_bind_after. cbn [spend steps]. change sAmp with [amp].
  pose proof (find_t_amp tl) as F. destruct (find_sub [amp] tl) as [i0|] eqn:E; [|cbn [unescape_loop_t tbind result unwrap steps after]; lia].
  apply find_char_some in E as (p & t & -> & Hp & <-).
  replace (blen p + blen d) with (blen (d ++ p)) by (rewrite blen_app; lia). rewrite (app_assoc d p), slice_from_app, steps_bind_after.
  destruct (scan_read (d ++ p) t) as (q & R & Nq & Lq & K). rewrite <- (unescape_scan_t_ok) in K.
  assert (K' : result (spend (copy_t (amp :: t)) (unescape_scan_t (blen (d ++ p)) (amp :: t) (amp :: t) 0 ((d ++ p) ++ amp :: t) 1)) = Ok ((d ++ p) ++ q, last_size q 1)) by exact K.
  rewrite (steps_bind_ok _ _ _ K'). cbn [spend steps fst snd]. clear K K'.
  pose proof (scan_t_le (d ++ p) t) as St.
  rewrite blen_app in L. cbn [blen] in L. change (len_utf8 amp) with 1 in L.
  rewrite (blen_app p) in F. cbn [blen] in F. change (len_utf8 amp) with 1 in F.
  assert (Wt : 1 + run t + weight t <= weight (p ++ amp :: t)).
  { pose proof (weight_app p (amp :: t)). cbn [weight] in H. change (amp =? amp)%N with true in H. cbv iota in H. lia. }
  assert (Rest : steps (unescape_loop_t fuel ((d ++ p) ++ q) (blen (d ++ p) + last_size q 1)) <= 26 * (M + 1) * weight t + M + 3).
  { destruct fuel as [|fuel']; [cbn [unescape_loop_t tbind result unwrap steps after]; lia|]. set (i := blen (d ++ p) + last_size q 1).
    destruct (bskip i ((d ++ p) ++ q)) as [v|] eqn:B.
    2: { cbn [unescape_loop_t]. destruct (_ <=? _); [cbn [unescape_loop_t tbind result unwrap steps after]; lia|]. unfold slice_from. rewrite B. cbn. lia. }
    apply bskip_inv in B as (u & Eu & Lu). rewrite Eu, <- Lu.
    assert (Hv : exists w, t = w ++ v).
    { unfold i in Lu. destruct (last_size_in q 1 Nq) as (a & l & Eq & El).
      assert (exists w, q = w ++ v /\ blen w = last_size q 1) as (w & Ew & Lw).
      { apply app_eq_app in Eu as (x & [[E1 E2]|[E1 E2]]).
        - rewrite E1, blen_app in Lu. pose proof (last_size_pos q 1 (le_n _)). lia.
        - exists x. split; [exact E2|]. rewrite E1, (blen_app (d ++ p)) in Lu. lia. }
      destruct w as [|c w]. { cbn in Lw. pose proof (last_size_pos q 1 (le_n _)). lia. }
      clear -R Ew. inversion R as [nm c' s He E1 E2|s Hs E1 E2]; subst.
      - cbn [app] in E2. injection E2 as _ ->. exists (nm ++ [semi] ++ w). now rewrite <- !app_assoc.
      - cbn [app] in E2. injection E2 as _ ->. now exists w. }
    destruct Hv as [w Ew]. pose proof (IH u v) as H. rewrite Ew.
    assert (blen v <= M) by (rewrite Ew, blen_app in L; lia). specialize (H H0).
    pose proof (weight_app w v). assert (26 * (M + 1) * weight v <= 26 * (M + 1) * weight (w ++ v)) by (apply Nat.mul_le_mono_l; lia). lia. }
  unfold copy_t. cbn [blen]. change (len_utf8 amp) with 1.
  assert ((2 + blen t) * (22 + run t) <= (M + 1) * (22 + run t)) by (apply Nat.mul_le_mono_r; lia).
  assert (26 * (M + 1) * (1 + run t + weight t) <= 26 * (M + 1) * weight (p ++ amp :: t)) by (apply Nat.mul_le_mono_l; lia).
  nia.
Qed.
Theorem unescape_t_le s : steps (unescape_t s) <= 26 * (blen s + 1) * (blen s + 1).
Proof.
  pose proof (unescape_loop_t_le (blen s) (S (blen s)) [] s (le_n _)) as H. cbn [app blen] in H. unfold unescape_t.
  pose proof (weight_blen s). assert (26 * (blen s + 1) * weight s <= 26 * (blen s + 1) * blen s) by (apply Nat.mul_le_mono_l; lia). lia.
Qed.

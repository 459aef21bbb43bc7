(** How long a start tag takes, and how large what is made of it is. *)
From Coq Require Import List NArith Arith Bool Ascii String Lia.
From Verif Require Import Base Escape Dom ParseTree Parse Time BaseFacts Spec EscapeFacts SpecEsc UnescFacts MachineFacts TimeFacts TimeUnesc.
From Verif Require Import SpecSize SizeFacts SizeMore.
Import ListNotations.

Lemma find_t_le p s : find_t p s <= 1 + blen s.
Proof.
  unfold find_t. destruct (find_sub p s) as [i|] eqn:E; [|lia].
  apply find_sub_some in E as (a & b & -> & E & _). rewrite !blen_app. lia.
Qed.
Lemma position_le : forall s i p, line_and_column_steps s i p <= 1 + blen s.
Proof.
  induction s as [|c s IH]; intros i p; cbn [line_and_column_steps blen]; [lia|]. pose proof (len_utf8_pos c).
  destruct (p <=? i); [lia|]. specialize (IH (i + len_utf8 c) p). lia.
Qed.

(** * Tables *)

Definition opt_len (o : option str) : nat := match o with None => 0 | Some s => blen s end.
Definition entry (kv : str * str) : nat := 1 + blen (fst kv) + blen (snd kv).
Lemma map_t_eq m : map_t m = 1 + sum entry m.
Proof. reflexivity. Qed.
Lemma copy_opt_le o : copy_opt_t o <= 1 + opt_len o.
Proof. destruct o; cbn; unfold copy_t; lia. Qed.
Lemma aset_size k v : forall m, sum entry (aset k v m) <= sum entry m + (1 + blen k + blen v).
Proof.
  induction m as [|[k' v'] m IH]; unfold aset in *; cbn [mset]; [rewrite sum_cons; cbn; lia|].
  destruct (str_eqb k k') eqn:E; rewrite !sum_cons.
  - apply str_eqb_eq in E. subst. unfold entry at 1. cbn [fst snd]. lia.
  - lia.
Qed.
Lemma aget_size k m v : aget k m = Some v -> blen v <= sum entry m.
Proof.
  unfold aget. induction m as [|[k' v'] m IH]; cbn [mget]; [discriminate|]. rewrite sum_cons.
  destruct (str_eqb k k'); [intros [= ->]; unfold entry; cbn; lia|]. intro H. apply IH in H. lia.
Qed.
Lemma aget_opt k m : opt_len (aget k m) <= sum entry m.
Proof. destruct (aget k m) as [v|] eqn:E; cbn; [now apply aget_size in E|lia]. Qed.
Lemma context_size : forall a c, sum entry (fold_left xmlns_context_step a c) <= sum entry c + sum entry a.
Proof.
  induction a as [|kv a IH]; intro c; cbn [fold_left]; [cbn; lia|]. rewrite sum_cons. specialize (IH (xmlns_context_step c kv)).
  enough (sum entry (xmlns_context_step c kv) <= sum entry c + entry kv) by lia.
  unfold xmlns_context_step. destruct (starts_with _ _); [|lia]. destruct (split_once cColon (fst kv)) as [[x p]|] eqn:E; [|lia].
  apply split_once_some in E as [E _]. pose proof (aset_size p (snd kv) c). unfold entry at 3. rewrite E, blen_app. cbn [blen]. lia.
Qed.
Lemma inherit_size : forall p c, sum entry (inherit_context c p) <= sum entry c + sum entry p.
Proof.
  unfold inherit_context. induction p as [|kv p IH]; intro c; cbn [fold_left]; [cbn; lia|]. rewrite sum_cons.
  specialize (IH (inherit_step c kv)). unfold inherit_step in *. destruct (ahas (fst kv) c); [lia|].
  pose proof (aset_size (fst kv) (snd kv) c). unfold entry at 3. lia.
Qed.

(** * Components of a tag *)

Definition comp (w : str) : nat := 1 + blen w.
Lemma push_builder_size b v : sum comp (push_builder b v) <= sum comp v + 2 * blen b.
Proof.
  destruct b as [|c b]; cbn [push_builder]; [lia|]. rewrite sum_app, sum_cons. unfold comp at 2.
  change (sum comp []) with 0. cbn [blen]. pose proof (len_utf8_pos c). lia.
Qed.
Lemma split_size_from : forall s b v q, sum comp (quote_aware_split_from s b v q) <= sum comp v + 2 * blen b + 2 * blen s.
Proof.
  induction s as [|c s IH]; intros b v q; cbn [quote_aware_split_from blen]; [pose proof (push_builder_size b v); lia|].
  assert (N : forall q', sum comp (quote_aware_split_from s (b ++ [c]) v q') <= sum comp v + 2 * blen b + 2 * (len_utf8 c + blen s)).
  { intro q'. specialize (IH (b ++ [c]) v q'). rewrite blen_app in IH. cbn [blen] in IH. lia. }
  destruct q as [q|]; [apply N|]. destruct ((c =? cSq)%N || (c =? cDq)%N); [apply N|]. destruct (is_whitespace c); [|apply N].
  specialize (IH [] (push_builder b v) None). pose proof (push_builder_size b v). cbn [blen] in IH. lia.
Qed.
Lemma comp_eq w : comp w = 1 + blen w.
Proof. reflexivity. Qed.
Lemma join_loop_eq a b c l : join_loop (a :: b :: c :: l) =
  if should_join a b then if should_join (a ++ b) c then (a ++ b ++ c) :: join_loop l else (a ++ b) :: join_loop (c :: l)
  else a :: join_loop (b :: c :: l).
Proof. reflexivity. Qed.
Lemma join_loop_size : forall n l, List.length l <= n -> sum comp (join_loop l) <= sum comp l.
Proof.
  induction n as [|n IH]; intros l L; [destruct l; [cbn; lia|cbn in L; lia]|].
  destruct l as [|a [|b [|c l]]]; cbn [List.length] in L.
  - cbn. lia.
  - cbn. lia.
  - cbn [join_loop]. destruct (should_join a b); [|lia]. rewrite !sum_cons, !comp_eq, blen_app. cbn. lia.
  - pose proof (IH (b :: c :: l) ltac:(cbn; lia)) as I2. pose proof (IH (c :: l) ltac:(cbn; lia)) as I1. pose proof (IH l ltac:(lia)) as I0.
    rewrite join_loop_eq. destruct (should_join a b); [destruct (should_join (a ++ b) c)|].
    + rewrite !sum_cons, !comp_eq, !blen_app in *. unfold str, char in *. lia.
    + rewrite (sum_cons _ (a ++ b)), (sum_cons _ a), (sum_cons _ b), !comp_eq, blen_app. unfold str, char in *. lia.
    + rewrite (sum_cons _ a), (sum_cons _ a (b :: c :: l)). unfold str, char in *. lia.
Qed.
Lemma components_size s : sum comp (join_spaced_attributes (quote_aware_split s)) <= 2 * blen s.
Proof.
  pose proof (split_size_from s [] [] None) as H. change (sum comp []) with 0 in H. cbn [blen] in H. unfold quote_aware_split, join_spaced_attributes.
  destruct (quote_aware_split_from s [] [] None) as [|a l]; [cbn; lia|]. pose proof (join_loop_size _ l (le_n _)).
  rewrite sum_cons in *. lia.
Qed.
Lemma split_size s : sum copy_t (quote_aware_split s) <= 2 * blen s.
Proof. pose proof (split_size_from s [] [] None) as H. change (sum comp []) with 0 in H. cbn [blen] in H. exact H. Qed.

(** * Attributes *)

Lemma unescape_len s r : unescape s = Ok r -> blen r <= blen s.
Proof. intro H. destruct (unescape_total s) as [(r' & E & L)|E]; rewrite H in E; [injection E as ->; exact L|discriminate]. Qed.
Lemma slice_len' s a b t : slice s a b = Ok t -> blen t <= blen s - a.
Proof.
  unfold slice. destruct (a <=? b); [|discriminate]. destruct (slice_from s a) as [r| | |] eqn:E; cbn [bind]; try discriminate.
  intro H. apply slice_to_len in H. apply slice_from_len in E. lia.
Qed.
Lemma parse_attrs_le buffer pos : forall comps attrs,
  steps (parse_attrs_t comps buffer pos attrs) <= 40 * (sum comp comps * sum comp comps) + 2 + blen buffer /\
  forall r, parse_attrs comps buffer pos attrs = Ok r -> sum entry r <= sum entry attrs + sum comp comps.
Proof.
  induction comps as [|kv comps IH]; intro attrs; cbn [parse_attrs_t parse_attrs]; [cbn; split; [lia|intros r [= ->]; lia]|].
  rewrite sum_cons. pose proof (find_t_le [cEq] kv) as F. set (S := sum comp comps) in *. set (n := blen buffer) in *.
  assert (P : forall m, steps (@fail_t amap m buffer pos) <= n + 1) by (intro m; pose proof (position_le buffer 0 pos); unfold fail_t; cbn [steps after]; lia).
  assert (C1 : comp kv = 1 + blen kv) by reflexivity.
  assert (C2 : comp kv <= (comp kv + S) * (comp kv + S)) by nia.
  destruct (negb (contains (lit "=") kv)). { split; [|discriminate]. cbn [spend steps]. specialize (P PAttrForm). lia. }
  destruct (split_once cEq kv) as [[k v]|] eqn:E; cbn [unwrap fst snd bind].
  2: { cbn [spend steps]. split; [|discriminate]. unfold tbind. cbn [after result steps]. lia. }
  apply split_once_some in E as [-> _]. rewrite blen_app in F. cbn [blen] in F. change (len_utf8 cEq) with 1 in F.
  assert (Ec : comp (k ++ cEq :: v) = 2 + blen k + blen v) by (unfold comp; rewrite blen_app; cbn [blen]; change (len_utf8 cEq) with 1; lia).
  cbn [spend steps]. rewrite steps_bind_after. cbn [fst snd].
  destruct (blen v =? 0). { split; [|discriminate]. specialize (P PAttrNoContent). lia. }
  destruct ((blen v <? 2) || negb ((starts_with [cDq] v && ends_with [cDq] v) || (starts_with [cSq] v && ends_with [cSq] v)))%bool.
  { split; [|discriminate]. specialize (P PAttrQuote). lia. }
  destruct (slice v 1 (blen v - 1)) as [v1| | |] eqn:Ev; cbn [bind].
  2,3,4: split; [unfold tbind; cbn [after result steps]; lia|discriminate].
  apply slice_len' in Ev. rewrite steps_bind_after. pose proof (unescape_t_le v1) as U. unfold copy_t, key_t.
  assert (Q : 26 * (blen v1 + 1) * (blen v1 + 1) <= 26 * ((2 + blen k + blen v) * (2 + blen k + blen v))).
  { assert ((blen v1 + 1) * (blen v1 + 1) <= (2 + blen k + blen v) * (2 + blen k + blen v)) by (apply Nat.mul_le_mono; lia). lia. }
  rewrite Ec in *. set (a := 2 + blen k + blen v) in *.
  destruct (unescape v1) as [v2| | |] eqn:Eu; cbn [bind].
  - assert (K : result (spend (1 + blen v1) (unescape_t v1)) = Ok v2) by (cbn [spend result]; now rewrite unescape_t_ok).
    rewrite (steps_bind_ok _ _ _ K). cbn [spend steps]. specialize (IH (aset k v2 attrs)) as [IH1 IH2]. split.
    + assert (40 * (a * a) + 40 * (S * S) <= 40 * ((a + S) * (a + S))) by nia. assert (a <= a * a) by nia. lia.
    + intros r Hr. specialize (IH2 r Hr). pose proof (aset_size k v2 attrs). apply unescape_len in Eu. lia.
  - unfold tbind. cbn [spend result]. rewrite unescape_t_ok, Eu. cbn [steps spend]. split; [|discriminate]. nia.
  - unfold tbind. cbn [spend result]. rewrite unescape_t_ok, Eu. cbn [steps spend]. split; [|discriminate]. nia.
  - unfold tbind. cbn [spend result]. rewrite unescape_t_ok, Eu. cbn [steps spend]. split; [|discriminate]. nia.
Qed.
Lemma convert_attrs_le : forall g a, steps (convert_attrs_t g a) <= 1 + 4 * sum entry g /\
  forall r, convert_attrs g a = Ok r -> sum entry r <= sum entry a + sum entry g.
Proof.
  induction g as [|[k v] g IH]; intro a; cbn [convert_attrs_t convert_attrs]; [cbn; split; [lia|intros r [= ->]; lia]|].
  rewrite sum_cons. assert (entry (k, v) = 1 + blen k + blen v) as -> by reflexivity. unfold check_attr_name, copy_t, regex_t, key_t. destruct (name_regex k); cbn [bind].
  - rewrite steps_bind_after. cbn [spend steps]. specialize (IH (aset k v a)) as [IH1 IH2]. split; [lia|].
    intros r Hr. specialize (IH2 r Hr). pose proof (aset_size k v a). lia.
  - unfold tbind. cbn [after result steps]. split; [lia|discriminate].
Qed.
Lemma context_steps_le a : context_steps a <= 1 + 5 * sum entry a.
Proof.
  unfold context_steps. rewrite <- sum_mul. apply le_n_S. apply sum_le. intros [k v] _. unfold entry. cbn [fst snd].
  pose proof (find_t_le [cColon] k). unfold copy_t, key_t. destruct (starts_with sXmlnsC k); lia.
Qed.

(** * New elements *)

(** Everything kept with a new element, apart from its attributes, is at most [B]. *)
Record fits (B : nat) (e : elem) : Prop := {
  fits_context : map_t (e_context e) <= B;
  fits_xmlns : opt_len (e_xmlns e) <= B;
  fits_prefix : opt_len (e_prefix e) <= B;
  fits_name : blen (e_name e) <= B
}.
Lemma fits_mono B C e : B <= C -> fits B e -> fits C e.
Proof. intros L [H1 H2 H3 H4]. constructor; lia. Qed.
Lemma default_len e : opt_len (default_namespace e) <= opt_len (e_xmlns e).
Proof. unfold default_namespace. destruct (e_prefix e); cbn; lia. Qed.
Lemma tag_name_len e : blen (tag_name e) <= 1 + opt_len (e_prefix e) + blen (e_name e).
Proof.
  unfold tag_name, tag_name_of. destruct (e_prefix e) as [p|]; cbn [opt_len]; [|lia].
  rewrite blen_app. cbn [blen]. change (len_utf8 cColon) with 1. lia.
Qed.

Local Arguments map_t : simpl never.
Local Arguments sum {A} f l : simpl never.
Local Arguments set_namespace_context : simpl never.
Lemma set_context_fits e df ctx A B : map_t (e_context e) <= A -> fits (A + B) (set_context e []) -> e_children e = [] -> opt_len df <= B ->
  match ctx with None => True | Some c => map_t c <= B end ->
  fits (A + B) (set_namespace_context e df ctx) /\ e_children (set_namespace_context e df ctx) = [] /\
  e_prefix (set_namespace_context e df ctx) = e_prefix e.
Proof.
  intros H1 [_ H2 H3 H4] Hc Hd Hx. unfold set_namespace_context. destruct e as [nm ch at_ ns p c]. cbn in *.
  rewrite map_t_eq in *.
  assert (I : match ctx with None => sum entry c | Some x => sum entry (inherit_context c x) end + 1 <= A + B).
  { destruct ctx as [x|]; [|lia]. rewrite map_t_eq in Hx. pose proof (inherit_size x c). lia. }
  destruct p as [p|]; cbn in *.
  - destruct ctx as [x|]; cbn; (destruct ns as [ns|]; cbn; (split; [|easy])); constructor; cbn; rewrite ?map_t_eq in *; try lia;
      try (pose proof (aget_opt p (inherit_context c x)); lia); try (pose proof (aget_opt p c); lia); cbn in H2; lia.
  - destruct ns as [ns|]; cbn; [destruct ctx as [x|]; cbn in *; (split; [|easy]); constructor; cbn in *; rewrite ?map_t_eq in *; lia|].
    destruct ctx as [x|]; cbn in *; destruct df as [df|]; cbn in *; (split; [|easy]); constructor; cbn in *; rewrite ?map_t_eq in *; lia.
Qed.
Lemma set_context_steps e df ctx A B : map_t (e_context e) <= A -> fits (A + B) (set_context e []) -> e_children e = [] -> opt_len df <= B ->
  match ctx with None => True | Some c => map_t c <= B end ->
  steps (set_namespace_context_t e df ctx) <= 6 + 3 * A + 5 * B.
Proof.
  intros K1 F Hc Hd Hx. pose proof (set_context_fits e df ctx A B K1 F Hc Hd Hx) as (F' & _). unfold set_namespace_context_t. cbn [after steps].
  pose proof (copy_opt_le (default_namespace e)). pose proof (default_len e). pose proof (copy_opt_le (e_xmlns (set_namespace_context e df ctx))).
  destruct F as [_ K2 K3 K4]; destruct e as [nm ch at_ ns p c]; cbn in K2, K3, K4; cbn [e_xmlns e_prefix] in *; destruct F' as [G1 G2 G3 G4].
  assert (match ctx with None => 1 | Some p => 1 + sum (fun kv => key_t (fst kv) + key_t (fst kv)) p end <= 1 + 2 * B).
  { destruct ctx as [x|]; [|lia]. rewrite map_t_eq in Hx.
    assert (sum (fun kv => key_t (fst kv) + key_t (fst kv)) x <= sum (fun kv => 2 * entry kv) x) by (apply sum_le; intros kv _; unfold entry, key_t; lia).
    rewrite sum_mul in *. lia. }
  destruct p as [p|]; cbn [opt_len] in *; [assert (key_t p = 1 + blen p) by reflexivity|]; lia.
Qed.

Lemma element_new_le nm attrs xmlns prefix : 
  steps (element_new_t nm None (Some attrs) xmlns prefix None) <= 24 + 2 * blen nm + 2 * opt_len prefix + opt_len xmlns + 10 * sum entry attrs /\
  forall e, element_new nm None (Some attrs) xmlns prefix None = Ok e ->
    map_t (e_context e) <= 1 + sum entry attrs /\ opt_len (e_xmlns e) <= opt_len xmlns + (match xmlns with None => sum entry attrs | Some _ => 0 end) /\
    e_prefix e = prefix /\ e_name e = nm /\ e_children e = [].
Proof.
  unfold element_new_t, element_new, check_elem_name. destruct (name_regex nm); cbn [bind].
  2: { split; [|discriminate]. unfold tbind, copy_t, regex_t. cbn [after result steps]. lia. }
  rewrite steps_bind_after. pose proof (convert_attrs_le attrs []) as [C1 C2]. change (sum entry []) with 0 in C2.
  destruct (convert_attrs attrs []) as [at_| | |] eqn:E; cbn [bind].
  2,3,4: split; [|discriminate]; unfold tbind; rewrite convert_attrs_t_ok, E; cbn [after result steps]; unfold copy_t, regex_t; lia.
  specialize (C2 at_ eq_refl). rewrite (steps_bind_ok _ _ at_) by (rewrite convert_attrs_t_ok; exact E).
  rewrite steps_bind_after || cbn [spend steps]. rewrite steps_bind_after. cbn [after steps].
  pose proof (context_steps_le at_). pose proof (copy_opt_le prefix).
  set (x := match xmlns with Some x => Some x | None => _ end).
  assert (opt_len x <= opt_len xmlns + (match xmlns with None => sum entry attrs | Some _ => 0 end)).
  { unfold x. destruct xmlns; [cbn; lia|]. cbn [opt_len]. destruct prefix as [p|]; [pose proof (aget_opt (sXmlnsC ++ p) at_)|pose proof (aget_opt sXmlns at_)]; lia. }
  pose proof (copy_opt_le x). unfold copy_t, regex_t. split; [destruct xmlns; cbn [opt_len] in *; lia|]. intros e [= <-].
  pose proof (context_size at_ []) as K. change (sum entry []) with 0 in K. fold (xmlns_context_from_attributes at_) in K.
  cbn [e_context e_xmlns e_prefix e_name e_children]. rewrite map_t_eq. repeat split; lia.
Qed.
Lemma parse_new_element_le s buffer pos parent B : match parent with None => True | Some p => fits B p end ->
  steps (parse_new_element_t s buffer pos parent) <= 160 * (blen s * blen s) + 100 * blen s + 12 * B + 3 * blen buffer + 100 /\
  forall e, parse_new_element s buffer pos parent = Ok e -> fits (B + 2 * blen s + 1) e /\ e_children e = [].
Proof.
  intro P. unfold parse_new_element_t, parse_new_element. cbn [spend steps].
  pose proof (components_size s) as Cs. pose proof (split_size s) as Ss. set (D := blen s) in *. set (n := blen buffer) in *.
  assert (F : forall A m, steps (@fail_t A m buffer pos) <= n + 1) by (intros A m; pose proof (position_le buffer 0 pos); unfold fail_t; cbn [steps after]; lia).
  assert (Cp : copy_t s = 1 + D) by reflexivity.
  destruct (join_spaced_attributes (quote_aware_split s)) as [|nm comps]; [split; [specialize (F elem PEmptyTag); lia|discriminate]|].
  rewrite sum_cons, comp_eq in Cs.
  pose proof (parse_attrs_le buffer pos comps []) as [A1 A2]. change (sum entry []) with 0 in A2. fold n in A1.
  assert (Q : 40 * (sum comp comps * sum comp comps) <= 160 * (D * D)).
  { assert (sum comp comps * sum comp comps <= (2 * D) * (2 * D)) by (apply Nat.mul_le_mono; lia). lia. }
  destruct (parse_attrs comps buffer pos []) as [attrs| | |] eqn:Ea; cbn [bind].
  2,3,4: split; [unfold tbind; rewrite parse_attrs_t_ok, Ea; cbn [steps]; lia|discriminate].
  specialize (A2 attrs eq_refl).
  rewrite (steps_bind_ok _ _ attrs) by (rewrite parse_attrs_t_ok; exact Ea). cbn [spend steps].
  set (df := match parent with None => None | Some p => default_namespace p end).
  set (ctx := match parent with None => None | Some p => Some (get_namespace_context p) end).
  assert (Hd : opt_len df <= B).
  { unfold df. destruct parent as [p|]; [|cbn; lia]. pose proof (default_len p). destruct P. lia. }
  assert (Hx : match ctx with None => True | Some c => map_t c <= B end) by (unfold ctx; destruct parent as [p|]; [apply P|exact I]).
  pose proof (copy_opt_le df).
  assert (Hm : match ctx with None => 1 | Some c => map_t c end <= 1 + B) by (destruct ctx; lia).
  pose proof (find_t_le [cColon] nm) as Fc.
  assert (T : forall x : timed (str * option str * option str),
    steps x <= 6 * blen nm + 50 + B + 2 * D + n ->
    (forall a b c, result x = Ok (a, b, c) -> blen a + opt_len c <= blen nm /\ opt_len b <= B + 2 * D) ->
    160 * (D * D) + 2 + n + (copy_opt_t df + match ctx with None => 1 | Some c => map_t c end) + steps (do* nxp <- x; let '(nm, xmlns, prefix) := nxp in
       do* e <- element_new_t nm None (Some attrs) xmlns prefix None;
       set_namespace_context_t e df ctx) <= 160 * (D * D) + 95 * D + 12 * B + 3 * n + 98 /\
    forall e, (do nxp <- result x; let '(nm, xmlns, prefix) := nxp in
      do e <- element_new nm None (Some attrs) xmlns prefix None;
      Ok (set_namespace_context e df ctx)) = Ok e -> fits (B + 2 * D + 1) e /\ e_children e = []).
  { intros x X1 X2. destruct (result x) as [[[a b] c]| | |] eqn:Ex; cbn [bind].
    2,3,4: split; [unfold tbind; rewrite Ex; cbn [steps]; lia|discriminate].
    rewrite (steps_bind_ok _ _ _ Ex). destruct (X2 a b c eq_refl) as [X3 X4].
    pose proof (element_new_le a attrs b c) as [E1 E2].
    destruct (element_new a None (Some attrs) b c None) as [e| | |] eqn:Ee; cbn [bind].
    2,3,4: split; [unfold tbind; rewrite element_new_t_ok, Ee; cbn [steps]; lia|discriminate].
    rewrite (steps_bind_ok _ _ e) by (rewrite element_new_t_ok; exact Ee).
    destruct (E2 e eq_refl) as (G1 & G2 & G3 & G4 & G5).
    assert (Fe : fits (1 + 2 * D + B) (set_context e [])).
    { destruct e as [n0 ch at_ ns p c0]. cbn in *. subst. constructor; cbn; [rewrite map_t_eq; change (sum entry []) with 0; lia|destruct b; cbn in *; lia|lia|lia]. }
    pose proof (set_context_steps e df ctx (1 + 2 * D) B ltac:(lia) Fe G5 Hd Hx).
    pose proof (set_context_fits e df ctx (1 + 2 * D) B ltac:(lia) Fe G5 Hd Hx) as (R1 & R2 & _).
    split; [lia|]. intros r [= <-]. split; [|exact R2]. eapply fits_mono; [|exact R1]. lia. }
  destruct (split_once cColon nm) as [[a b]|] eqn:Ec.
  - apply split_once_some in Ec as [-> _]. rewrite blen_app in Fc, Cs, T. cbn [blen] in Fc, Cs, T. change (len_utf8 cColon) with 1 in Fc, Cs, T.
    set (pk := sXmlnsC ++ a).
    assert (Lp : blen pk = 6 + blen a) by (unfold pk; rewrite blen_app; reflexivity).
    assert (La : copy_t a = 1 + blen a) by reflexivity. assert (Lk : copy_t pk = 1 + blen pk) by reflexivity. assert (Ly : key_t pk = 1 + blen pk) by reflexivity.
    destruct (ahas pk attrs); [|destruct ctx as [c|] eqn:Ectx].
    + match goal with |- context [tbind ?x _] => specialize (T x) end.
      pose proof (aget_opt pk attrs). pose proof (copy_opt_le (aget pk attrs)). destruct T as [T1 T2].
      * cbn [spend steps after]. lia.
      * cbn [spend result after]. intros ? ? ? [= <- <- <-]. cbn [opt_len]. lia.
      * split; [lia|exact T2].
    + match goal with |- context [tbind ?x _] => specialize (T x) end. rewrite map_t_eq in Hx.
      pose proof (aget_opt pk c). pose proof (copy_opt_le (aget pk c)). destruct T as [T1 T2].
      * cbn [spend steps after]. lia.
      * cbn [spend result after]. intros ? ? ? [= <- <- <-]. cbn [opt_len]. lia.
      * split; [lia|exact T2].
    + match goal with |- context [tbind ?x _] => specialize (T x) end. destruct T as [T1 T2].
      * cbn [spend steps]. specialize (F (str * option str * option str)%type (PUndefPrefix a)). lia.
      * discriminate.
      * split; [lia|exact T2].
  - match goal with |- context [tbind ?x _] => specialize (T x) end. destruct T as [T1 T2].
    + cbn [spend steps after]. lia.
    + cbn [spend result after]. intros ? ? ? [= <- <- <-]. cbn [opt_len]. lia.
    + split; [lia|exact T2].
Qed.

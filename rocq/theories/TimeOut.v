(** How long writing takes. *)
From Coq Require Import List NArith Arith Bool Ascii String Lia Permutation.
From Verif Require Import Base BaseFacts Escape Dom DomFacts Spec SpecDom Parse SpecLex SpecParse SpecEsc LexFacts ParseFacts DocFacts
  SpecDoc SerFacts P_Parse P_Doc SpecMean SpecMany P_Escape P_Many SpecStack StackFacts DepthFacts DocCheck PrintDoc TripFacts Time SpecTime SpecSize SizeFacts SizeMore.
Import ListNotations.

Local Arguments sum {A} f l : simpl never.

Lemma replace_grows c to s : len_utf8 c <= blen to -> blen s <= blen (replace [c] to s).
Proof.
  intro H. rewrite replace_char. induction s as [|x s IH]; cbn [flat_map blen]; [lia|]. rewrite blen_app.
  destruct (N.eqb_spec x c) as [->|_]; cbn [blen]; lia.
Qed.
Lemma grow_amp s : blen s <= blen (replace sAmp eAmp s).
Proof. apply (replace_grows 38%N). cbn. lia. Qed.
Lemma grow_lt s : blen s <= blen (replace sLt eLt s).
Proof. apply (replace_grows 60%N). cbn. lia. Qed.
Lemma grow_gt s : blen s <= blen (replace sGt eGt s).
Proof. apply (replace_grows 62%N). cbn. lia. Qed.
Lemma grow_apos s : blen s <= blen (replace sApos eApos s).
Proof. apply (replace_grows 39%N). cbn. lia. Qed.
Lemma grow_quot s : blen s <= blen (replace sQuot eQuot s).
Proof. apply (replace_grows 34%N). cbn. lia. Qed.
Lemma attr_escape_blen t : blen (attribute_escape t) <= 6 * blen t.
Proof. unfold attribute_escape. rewrite (proj1 (C03_escape_characterwise t)). apply escape_blen. Qed.
Lemma text_escape_le t : text_escape_t t <= 4 + 36 * blen t.
Proof.
  pose proof (text_blen t) as F. unfold text_escape_t, text_escape, replace_t, copy_t in *. cbv zeta.
  pose proof (grow_amp t). pose proof (grow_lt (replace sAmp eAmp t)). pose proof (grow_gt (replace sLt eLt (replace sAmp eAmp t))). lia.
Qed.
Lemma attr_escape_le t : attribute_escape_t t <= 6 + 60 * blen t.
Proof.
  pose proof (attr_escape_blen t) as F. unfold attribute_escape_t, attribute_escape, escape, replace_t, copy_t in *. cbv zeta.
  set (a := replace sAmp eAmp t) in *. set (b := replace sLt eLt a) in *. set (c := replace sGt eGt b) in *. set (d := replace sApos eApos c) in *.
  assert (blen t <= blen a) by apply grow_amp. assert (blen a <= blen b) by apply grow_lt. assert (blen b <= blen c) by apply grow_gt.
  assert (blen c <= blen d) by apply grow_apos. pose proof (grow_quot d). lia.
Qed.
Lemma write_attr_le kv : write_attr_t kv <= 70 * size_attr kv.
Proof.
  unfold write_attr_t, size_attr. pose proof (attr_escape_le (snd kv)). pose proof (attr_escape_blen (snd kv)). unfold copy_t. lia.
Qed.
Lemma write_leaf_le n : Dom.is_element n = false -> write_leaf_t n + copy_t (leaf_to_string n) <= 50 * (1 + size_node n).
Proof.
  intro H. pose proof (leaf_blen n H) as L. destruct n as [e|t|t|t]; [discriminate|..]; cbn [write_leaf_t size_node] in *; unfold copy_t; [|lia..].
  pose proof (text_escape_le t). lia.
Qed.
Lemma sort_le a : sort_t a <= 1 + sum size_attr a * sum size_attr a.
Proof.
  unfold sort_t. apply le_n_S. apply Nat.mul_le_mono.
  - induction a as [|kv a IH]; [cbn; lia|]. rewrite sum_cons. unfold size_attr at 1. cbn [List.length]. lia.
  - apply sum_le. intros kv _. unfold size_attr. lia.
Qed.

Lemma heft_eq e : heft e = 1 + head_size e + sum heft_node (e_children e).
Proof.
  unfold heft. rewrite size_elem_eq. destruct e as [nm ch at_ ns px ctx]. cbn [nodes e_children e_name e_prefix e_attributes]. unfold head_size. cbn [e_children e_name e_prefix e_attributes].
  enough (E : sum (fun n => match n with NElem c => nodes c | _ => 1 end) ch + sum size_node ch = sum heft_node ch) by lia.
  induction ch as [|n ch IH]; [reflexivity|]. rewrite !sum_cons. rewrite <- IH. destruct n; cbn [heft_node size_node]; unfold heft; lia.
Qed.

Definition child_t (np indent : str) (inl : bool) (c : node) : nat :=
  2 + match c with
      | NText t => copy_t t + text_escape_t t + copy_t (text_escape t)
      | NElem e' => write_t np indent inl e' + copy_t (elem_to_string np indent inl e')
      | _ => (if inl then 0 else copy_t np) + write_leaf_t c + copy_t (leaf_to_string c)
      end.
Lemma write_t_many prefix indent inline nm ch at_ ns px ctx c0 rest : ch = c0 :: rest -> (rest <> [] \/ Dom.is_element c0 = true) ->
  write_t prefix indent inline (mkElem nm ch at_ ns px ctx) =
  3 + (if inline then 0 else copy_t prefix) + copy_t (tag_name_of px nm) + copy_t (tag_name_of px nm) + sort_t at_ + sum write_attr_t at_ +
  (let inl := inline || existsb Dom.is_text ch in
   5 + List.length ch + copy_t (prefix ++ indent) + sum (child_t (prefix ++ indent) indent inl) ch +
   (if inl then 0 else copy_t prefix) + copy_t (tag_name_of px nm)).
Proof.
  intros E H. cbn [write_t]. destruct ch as [|x ch]; [discriminate E|]. injection E as -> ->.
  assert (X : (match rest with [] => true | _ => false end) && negb (Dom.is_element c0) = false).
  { destruct H as [H|H]; [now destruct rest|]. rewrite H. apply andb_false_r. }
  rewrite X. reflexivity.
Qed.
Lemma sum_squares {A} (f : A -> nat) l : sum (fun x => f x * f x) l <= sum f l * sum f l.
Proof. induction l as [|a l IH]; [apply le_n|]. rewrite !sum_cons. nia. Qed.
Lemma length_heft ch : List.length ch <= sum heft_node ch.
Proof.
  induction ch as [|n ch IH]; [cbn; lia|]. rewrite sum_cons. cbn [List.length].
  assert (1 <= heft_node n); [|lia]. destruct n as [e|t|t|t]; cbn [heft_node]; [|lia..]. rewrite heft_eq. lia.
Qed.

(** A child, given what its own text takes. *)
Lemma child_le indent np inl U V c : blen np <= U -> 6 <= U ->
  (forall e, c = NElem e -> write_t np indent inl e <= V * heft e + heft e * heft e /\ blen (elem_to_string np indent inl e) <= heft e * U) -> 60 * U <= V ->
  child_t np indent inl c <= V * heft_node c + heft_node c * heft_node c + U * heft_node c + 3.
Proof.
  intros B U6 H HV. unfold child_t. destruct c as [e|t|t|t]; cbn [heft_node].
  - destruct (H e eq_refl) as [H1 H2]. unfold copy_t. lia.
  - pose proof (text_escape_le t) as T1. pose proof (text_blen t) as T2. cbn [size_node]. unfold copy_t. set (x := blen t) in *.
    assert (V * (1 + x) >= 360 * (1 + x)) by (apply Nat.mul_le_mono_r; lia). lia.
  - pose proof (write_leaf_le (NComment t) eq_refl) as L. set (x := size_node (NComment t)) in *. set (z := leaf_to_string (NComment t)) in *.
    assert (V * (1 + x) >= 60 * U * (1 + x)) by (apply Nat.mul_le_mono_r; lia). unfold copy_t in *. destruct inl; nia.
  - pose proof (write_leaf_le (NCData t) eq_refl) as L. set (x := size_node (NCData t)) in *. set (z := leaf_to_string (NCData t)) in *.
    assert (V * (1 + x) >= 60 * U * (1 + x)) by (apply Nat.mul_le_mono_r; lia). unfold copy_t in *. destruct inl; nia.
Qed.
Lemma write_sum h S A Z U x y P T len : 6 <= U -> U <= Z -> A <= h -> T <= h -> len <= S -> P <= U ->
  x <= 1 + A * A -> y <= (100 * Z - 40 * U) * S + S * S + U * S + 3 * len ->
  20 + 4 * P + 3 * T + x + 70 * A + len + y <= 100 * Z * (1 + h + S) + (1 + h + S) * (1 + h + S).
Proof.
  intros H1 H2 HA HT H3 H4 H5 H6.
  assert (E : (100 * Z - 40 * U) * S + 40 * (U * S) = 100 * (Z * S)) by nia.
  assert (F : (1 + h + S) * (1 + h + S) >= h * h + S * S) by nia.
  assert (G : A * A <= h * h) by (apply Nat.mul_le_mono; lia).
  assert (I : U * (1 + h) <= Z * (1 + h)) by (apply Nat.mul_le_mono_r; lia).
  assert (J : 6 * (1 + h) <= U * (1 + h)) by (apply Nat.mul_le_mono_r; lia).
  assert (K : 6 * S <= U * S) by (apply Nat.mul_le_mono_r; lia).
  assert (M : U <= U * (1 + h)) by nia.
  replace (100 * Z * (1 + h + S)) with (100 * (Z * (1 + h)) + 100 * (Z * S)) by lia.
  lia.
Qed.
Lemma write_le indent : forall e prefix inline,
  write_t prefix indent inline e <= 100 * (levels e * (6 + (blen prefix + levels e * blen indent))) * heft e + heft e * heft e.
Proof.
  induction e as [e IH] using elem_ind'. intros prefix inline. pose proof (heft_eq e) as EH. destruct e as [nm ch at_ ns px ctx]. cbn [e_children] in IH.
  assert (LV : forall c, In (NElem c) ch -> S (levels c) <= levels (mkElem nm ch at_ ns px ctx)).
  { intros c Hc. rewrite (levels_eq (mkElem _ _ _ _ _ _)). now apply le_n_S, below_levels_in. }
  assert (L1 : 1 <= levels (mkElem nm ch at_ ns px ctx)) by apply levels_pos.
  set (L := levels (mkElem nm ch at_ ns px ctx)) in *. clearbody L.
  rewrite EH. unfold head_size. cbn [e_name e_prefix e_attributes e_children]. pose proof (tag_blen px nm) as T.
  set (tg := blen (tag_name_of px nm)) in *.
  set (h := 3 + blen nm + _ + sum size_attr at_).
  assert (Eh : h = 3 + tg + sum size_attr at_) by (unfold h; lia). clearbody h. clear EH.
  set (U := 6 + (blen prefix + L * blen indent)). set (LU := L * U). assert (HZ : U <= LU) by (unfold LU; nia).
  assert (Hp : blen prefix <= U) by (unfold U; lia). assert (Hi : blen (prefix ++ indent) <= U) by (rewrite blen_app; unfold U; nia).
  pose proof (sort_le at_) as So. assert (At : sum write_attr_t at_ <= 70 * sum size_attr at_) by (rewrite <- sum_mul; apply sum_le; intros kv _; apply write_attr_le).
  assert (U6 : 6 <= U) by (unfold U; lia).
  assert (Ct : copy_t (tag_name_of px nm) = 1 + tg) by reflexivity. assert (Cp : copy_t prefix = 1 + blen prefix) by reflexivity.
  assert (Cn : copy_t (prefix ++ indent) = 1 + blen (prefix ++ indent)) by reflexivity.
  destruct ch as [|c0 rest] eqn:Ec.
  { cbn [write_t]. change (sum heft_node []) with 0. rewrite Ct, Cp.
    pose proof (write_sum h 0 (sum size_attr at_) LU U (sort_t at_) 0 U tg 0 U6 HZ ltac:(lia) ltac:(lia) (le_n 0) (le_n U) So ltac:(lia)) as W.
    destruct inline; lia. }
  destruct (Dom.is_element c0) eqn:E0; [|destruct rest as [|c1 rest]].
  2: { cbn [write_t andb]. rewrite E0. cbn [negb]. pose proof (write_leaf_le _ E0) as Lf. rewrite sum_cons. change (sum heft_node []) with 0.
    assert (Hh : heft_node c0 = 1 + size_node c0) by (destruct c0; [discriminate|reflexivity..]). rewrite Hh, Nat.add_0_r.
    pose proof (write_sum h (1 + size_node c0) (sum size_attr at_) LU U (sort_t at_) (write_leaf_t c0 + copy_t (leaf_to_string c0)) U tg 0 U6 HZ ltac:(lia) ltac:(lia) ltac:(lia) (le_n U) So) as W.
    assert (Y : write_leaf_t c0 + copy_t (leaf_to_string c0) <= (100 * LU - 40 * U) * (1 + size_node c0) + (1 + size_node c0) * (1 + size_node c0) + U * (1 + size_node c0) + 3 * 0) by nia.
    specialize (W Y). rewrite Ct, Cp. destruct inline; lia. }
  all: rewrite (write_t_many _ _ _ _ _ _ _ _ _ _ _ eq_refl) by (try (now right); left; discriminate).
  all: rewrite <- Ec in *; clear Ec; cbn zeta; set (inl := inline || existsb Dom.is_text ch).
  all: assert (Y : sum (child_t (prefix ++ indent) indent inl) ch <= (100 * LU - 40 * U) * sum heft_node ch + sum heft_node ch * sum heft_node ch + U * sum heft_node ch + 3 * List.length ch).
  1,3: apply Nat.le_trans with (sum (fun c => (100 * LU - 40 * U) * heft_node c + heft_node c * heft_node c + U * heft_node c + 3) ch);
    [apply sum_le; intros c Hc; apply child_le; [exact Hi|exact U6| |nia];
     intros e ->; pose proof (LV e Hc) as Lc; pose proof (IH e Hc (prefix ++ indent) inl) as I1; pose proof (elem_blen indent e (prefix ++ indent) inl) as I2;
     assert (Ue : 6 + (blen (prefix ++ indent) + levels e * blen indent) <= U) by (rewrite blen_app; unfold U; nia);
     split;
     [apply Nat.le_trans with (1 := I1), Nat.add_le_mono_r, Nat.mul_le_mono_r;
      assert (levels e * (6 + (blen (prefix ++ indent) + levels e * blen indent)) <= (L - 1) * U) by (apply Nat.mul_le_mono; lia); unfold LU; nia
     |assert (size_elem e * (6 + (blen (prefix ++ indent) + levels e * blen indent)) <= heft e * U) by (apply Nat.mul_le_mono; [unfold heft; lia|exact Ue]); lia]
    |pose proof (sum_squares heft_node ch) as Sq; clear - Sq LU;
     assert (G : forall l, sum (fun c => (100 * LU - 40 * U) * heft_node c + heft_node c * heft_node c + U * heft_node c + 3) l =
       (100 * LU - 40 * U) * sum heft_node l + sum (fun c => heft_node c * heft_node c) l + U * sum heft_node l + 3 * List.length l)
       by (induction l as [|x l IHl]; [unfold sum; cbn [map list_sum fold_right List.length]; lia|rewrite !sum_cons, IHl; cbn [List.length]; lia]);
     rewrite G; lia].
  all: pose proof (write_sum h (sum heft_node ch) (sum size_attr at_) LU U (sort_t at_) _ U tg (List.length ch) U6 HZ ltac:(lia) ltac:(lia) (length_heft ch) (le_n U) So Y) as W;
    rewrite Ct, Cp, Cn; destruct inline, inl; lia.
Qed.

(** Sizes: proofs about namespaces in all, about writing, and texts that need most. *)
From Coq Require Import List NArith Arith Bool Ascii String Lia Permutation.
From Verif Require Import Base BaseFacts Escape Dom DomFacts Spec SpecDom Parse SpecLex SpecParse SpecEsc LexFacts ParseFacts DocFacts
  SpecDoc SerFacts P_Parse P_Doc SpecMean SpecMany P_Escape P_Many SpecStack StackFacts DepthFacts DocCheck PrintDoc TripFacts SpecSize SizeFacts.
Import ListNotations.

(** * All namespaces together *)

Lemma elements_eq e : elements e = e :: flat_map (fun n => match n with NElem c => elements c | _ => [] end) (e_children e).
Proof. now destruct e. Qed.
Lemma sum_ge {A} (f : A -> nat) k l : (forall x, In x l -> f x <= k) -> sum f l <= List.length l * k.
Proof.
  induction l as [|a l IH]; intro H; [cbn; lia|]. rewrite sum_cons. cbn [List.length]. pose proof (H a (or_introl eq_refl)).
  specialize (IH (fun x I => H x (or_intror I))). lia.
Qed.
Lemma valid_name_pos n : valid_name n -> 1 <= blen n.
Proof. intros (c & r & -> & _). cbn [blen]. pose proof (len_utf8_pos c). lia. Qed.
Definition nodes_elements (l : list node) : list elem := flat_map (fun n => match n with NElem c => elements c | _ => [] end) l.
Lemma elements_size : forall e, elem_valid e -> 4 * List.length (elements e) <= size_elem e.
Proof.
  induction e as [e IH] using elem_ind'. intro V. inversion V as [e' N V1 V2 V3 K V5 V6]; subst. apply valid_name_pos in N.
  rewrite elements_eq, size_elem_eq. cbn [List.length].
  fold (nodes_elements (e_children e)).
  assert (G : 4 * List.length (nodes_elements (e_children e)) <= sum size_node (e_children e)).
  { clear V V5 V6 N. induction (e_children e) as [|n l IHl]; [cbn; lia|]. rewrite sum_cons. change (nodes_elements (n :: l)) with (match n with NElem c => elements c | _ => [] end ++ nodes_elements l). rewrite app_length.
    assert (IHl' := IHl (fun c I => IH c (or_intror I)) (fun c I => K c (or_intror I))).
    destruct n as [c|s|s|s]; cbn [List.length size_node]; try lia.
    pose proof (IH c (or_introl eq_refl) (K c (or_introl eq_refl))). lia. }
  lia.
Qed.
Lemma sum_in {A} (f : A -> nat) x l : In x l -> f x <= sum f l.
Proof. induction l as [|a l IH]; [easy|]. rewrite sum_cons. intros [->|I]; [lia|]. specialize (IH I). lia. Qed.
Lemma drawn_namespace P e v : drawn_from P e -> namespace e = Some v -> 4 + blen v <= sum size_attr P.
Proof. intros (_ & D & _) H. destruct (D v H) as [k I]. apply (sum_in size_attr) in I. unfold size_attr at 1 in I. cbn [fst snd] in I. lia. Qed.
Lemma valid_elements e : elem_valid e -> forall c, In c (elements e) -> elem_valid c.
Proof.
  induction e as [e IH] using elem_ind'. intros V c I. rewrite elements_eq in I. destruct I as [<-|I]; [exact V|].
  apply in_flat_map in I. destruct I as ([x|s|s|s] & I1 & I2); try (elim I2). inversion V as [e' V0 V1 V2 V3 K V5 V6]; subst. now apply IH with x; [|apply K|].
Qed.
Lemma drawn_prefixes P e : map_ok (e_context e) -> drawn_from P e -> size_prefixes e <= sum size_attr P.
Proof.
  intros M (_ & _ & D). set (f := fun kv : str * str => (lit "xmlns:" ++ fst kv, snd kv)).
  assert (S : sum size_attr (map f (e_context e)) <= sum size_attr P).
  { apply sum_incl.
    - apply FinFun.Injective_map_NoDup; [|now apply NoDup_map_inv with (f := fst)].
      intros [k v] [k' v'] E. unfold f in E. cbn [fst snd] in E. injection E as E1 ->. now subst.
    - intros y I. apply in_map_iff in I. destruct I as ([k v] & <- & I). apply D. now apply in_aget. }
  unfold size_prefixes. enough (sum (fun kv => blen (fst kv) + blen (snd kv)) (e_context e) <= sum size_attr (map f (e_context e))) by lia.
  clear. induction (e_context e) as [|[k v] l IH]; [cbn; lia|]. cbn [map]. rewrite !sum_cons. unfold f at 1, size_attr at 1. cbn [fst snd]. rewrite blen_app. lia.
Qed.
Theorem namespaces_size s d : parse_str s = Ok d -> 4 * List.length (elements (d_root d)) <= blen s /\
  (forall e v, In e (elements (d_root d)) -> namespace e = Some v -> 4 + blen v <= blen s) /\
  (forall e, In e (elements (d_root d)) -> size_prefixes e <= blen s) /\
  4 * size_namespaces (d_root d) <= blen s * blen s.
Proof.
  intro H. pose proof (parse_size _ _ H) as Z. destruct (parsed_drawn _ _ H) as (P & S & D). rewrite Forall_forall in D.
  destruct (C48_parsed_valid _ _ H) as [V _]. pose proof (elements_size _ V) as L. unfold size_doc in Z.
  assert (N : forall e v, In e (elements (d_root d)) -> namespace e = Some v -> 4 + blen v <= blen s).
  { intros e v I X. pose proof (drawn_namespace _ _ _ (D e I) X). lia. }
  split; [lia|]. split; [exact N|]. split.
  - intros e I. apply valid_elements with (c := e) in V; [|exact I]. inversion V as [e' V0 V1 V2 M V4 V5 V6]; subst.
    pose proof (drawn_prefixes _ _ M (D e I)). lia.
  - unfold size_namespaces. assert (G : sum (fun c => match namespace c with None => 0 | Some v => blen v end) (elements (d_root d)) <= List.length (elements (d_root d)) * blen s).
    { apply sum_ge. intros x I. destruct (namespace x) as [v|] eqn:E; [|lia]. specialize (N x v I E). lia. }
    nia.
Qed.

(** * Writing *)

Lemma escape_blen set (t : str) : blen (flat_map (escape_char set) t) <= 6 * blen t.
Proof.
  induction t as [|c t IH]; [cbn; lia|]. cbn [flat_map blen]. rewrite blen_app.
  enough (blen (escape_char set c) <= 6 * len_utf8 c) by lia. pose proof (len_utf8_pos c).
  unfold escape_char. destruct (existsb (N.eqb c) set); [|cbn [blen]; lia].
  destruct (find (fun nc => (snd nc =? c)%N) predefined) as [[nm x]|] eqn:F; [|cbn [blen]; lia].
  apply find_some in F. destruct F as [I _]. repeat (destruct I as [I|I]; [injection I as <- <-; cbn; lia|]). elim I.
Qed.
Lemma text_blen t : blen (text_escape t) <= 6 * blen t.
Proof. rewrite (proj2 (C03_escape_characterwise t)). apply escape_blen. Qed.
Lemma attr_blen kv : blen (attr_to_string kv) <= 6 * size_attr kv.
Proof.
  rewrite attr_to_string_eq. unfold attr_text, size_attr. rewrite !blen_app. pose proof (escape_blen all_special (snd kv)).
  change (blen (lit " ")) with 1. change (blen (lit "=")) with 1. change (blen [34%N]) with 1. lia.
Qed.
Lemma flat_map_blen {A} (f : A -> str) l : blen (flat_map f l) = sum (fun x => blen (f x)) l.
Proof. induction l as [|a l IH]; [easy|]. cbn [flat_map]. now rewrite blen_app, sum_cons, IH. Qed.
Lemma sum_le {A} (f g : A -> nat) l : (forall x, In x l -> f x <= g x) -> sum f l <= sum g l.
Proof.
  induction l as [|a l IH]; intro H; [cbn; lia|]. rewrite !sum_cons. pose proof (H a (or_introl eq_refl)).
  specialize (IH (fun x I => H x (or_intror I))). lia.
Qed.
Lemma sum_mul {A} k (f : A -> nat) l : sum (fun x => k * f x) l = k * sum f l.
Proof. induction l as [|a l IH]; [cbn; lia|]. rewrite !sum_cons, IH. lia. Qed.
Lemma attrs_blen a : blen (attrs_to_string a) <= 6 * sum size_attr a.
Proof.
  unfold attrs_to_string. rewrite flat_map_blen, <- sum_mul, (sum_perm _ _ _ (Permutation_sym (sort_by_perm attribute_order a))).
  apply sum_le. intros x _. apply attr_blen.
Qed.
Lemma tag_blen p n : blen (tag_name_of p n) = blen n + match p with None => 0 | Some p => blen p + 1 end.
Proof. destruct p; cbn [tag_name_of]; rewrite ?blen_app; cbn [blen]; [change (len_utf8 cColon) with 1|]; lia. Qed.
Definition child_string (prefix indent : str) (inline : bool) (c : node) : str :=
  match c with
  | NText t => text_escape t
  | NElem e' => elem_to_string prefix indent inline e'
  | NComment _ | NCData _ => (if inline then [] else prefix) ++ leaf_to_string c
  end ++ (if inline then [] else [cNL]).
Lemma elem_to_string_many prefix indent inline nm ch at_ ns px ctx c0 rest : ch = c0 :: rest -> (rest <> [] \/ Dom.is_element c0 = true) ->
  elem_to_string prefix indent inline (mkElem nm ch at_ ns px ctx) =
  (if inline then [] else prefix) ++ sLt ++ tag_name_of px nm ++ attrs_to_string at_ ++ sGt ++
  (let inl := inline || existsb Dom.is_text ch in
   (if inl then [] else [cNL]) ++ flat_map (child_string (prefix ++ indent) indent inl) ch ++ (if inl then [] else prefix)) ++
  lit "</" ++ tag_name_of px nm ++ sGt.
Proof.
  intros E H. cbn [elem_to_string]. destruct ch as [|x ch]; [discriminate E|]. injection E as -> ->.
  assert (X : (match rest with [] => true | _ => false end) && negb (Dom.is_element c0) = false).
  { destruct H as [H|H]; [now destruct rest|]. rewrite H. apply andb_false_r. }
  rewrite X. cbn zeta. set (inl := inline || existsb Dom.is_text (c0 :: rest)).
  assert (G : forall m, (fix go (l : list node) : str :=
               match l with
               | [] => []
               | c :: l' =>
                   (match c with
                    | NText t => text_escape t
                    | NElem e' => elem_to_string (prefix ++ indent) indent inl e'
                    | NComment _ | NCData _ => (if inl then [] else prefix ++ indent) ++ leaf_to_string c
                    end) ++ (if inl then [] else [cNL]) ++ go l'
               end) m = flat_map (child_string (prefix ++ indent) indent inl) m).
  { induction m as [|c m IH]; [easy|]. cbn [flat_map]. rewrite IH. unfold child_string at 2. now rewrite <- app_assoc. }
  rewrite G. cbn [flat_map]. unfold child_string at 2. rewrite <- !app_assoc. reflexivity.
Qed.
Lemma leaf_blen c : Dom.is_element c = false -> blen (leaf_to_string c) <= 6 * size_node c.
Proof.
  destruct c as [e|s|s|s]; intro H; [discriminate H|..]; cbn [leaf_to_string size_node]; rewrite ?blen_app.
  - apply text_blen.
  - change (blen (lit "<!--")) with 4. change (blen (lit "-->")) with 3. lia.
  - change (blen (lit "<![CDATA[")) with 9. change (blen (lit "]]>")) with 3. lia.
Qed.
Lemma if_blen (b : bool) s : blen (if b then [] else s) <= blen s.
Proof. destruct b; cbn; lia. Qed.
Lemma child_blen prefix indent inl ch U x : In x ch -> (inl = false -> forall s, ~ In (NText s) ch) -> blen (prefix ++ indent) <= U ->
  (forall c, In (NElem c) ch -> forall b, blen (elem_to_string (prefix ++ indent) indent b c) + 1 <= size_elem c * (6 + U)) ->
  blen (child_string (prefix ++ indent) indent inl x) <= (6 + U) * size_node x.
Proof.
  intros I T B H. unfold child_string. rewrite blen_app. assert (N0 : blen [cNL] = 1) by reflexivity.
  destruct x as [c|s|s|s]; cbn [size_node].
  - specialize (H c I inl). rewrite (Nat.mul_comm (6 + U)). destruct inl; cbn [blen] in *; lia.
  - destruct inl; [|now elim (T eq_refl s)]. cbn [blen]. pose proof (text_blen s). nia.
  - cbn [leaf_to_string]. rewrite !blen_app in *. change (blen (lit "<!--")) with 4. change (blen (lit "-->")) with 3.
    destruct inl; rewrite ?blen_app; cbn [blen] in *; nia.
  - cbn [leaf_to_string]. rewrite !blen_app in *. change (blen (lit "<![CDATA[")) with 9. change (blen (lit "]]>")) with 3.
    destruct inl; rewrite ?blen_app; cbn [blen] in *; nia.
Qed.
(** One byte less than the bound, for the line break after the element. *)
Lemma elem_blen indent : forall e prefix inline, blen (elem_to_string prefix indent inline e) + 1 <= size_elem e * (6 + (blen prefix + levels e * blen indent)).
Proof.
  induction e as [e IH] using elem_ind'. intros prefix inline. destruct e as [nm ch at_ ns px ctx]. cbn [e_children] in IH.
  rewrite size_elem_eq. cbn [e_name e_prefix e_attributes e_children]. pose proof (attrs_blen at_) as A. pose proof (tag_blen px nm) as T.
  assert (N1 : blen (lit "</") = 2) by reflexivity. assert (N2 : blen sGt = 1) by reflexivity. assert (N3 : blen sLt = 1) by reflexivity.
  assert (N4 : blen (lit "/>") = 2) by reflexivity. assert (N5 : blen [cNL] = 1) by reflexivity.
  assert (LV : forall c, In (NElem c) ch -> S (levels c) <= levels (mkElem nm ch at_ ns px ctx)).
  { intros c Hc. rewrite (levels_eq (mkElem _ _ _ _ _ _)). now apply le_n_S, below_levels_in. }
  assert (L1 : 1 <= levels (mkElem nm ch at_ ns px ctx)) by apply levels_pos.
  set (L := levels (mkElem nm ch at_ ns px ctx)) in *. clearbody L.
  destruct ch as [|c0 rest] eqn:Ec.
  { cbn [elem_to_string]. rewrite !blen_app. change (sum size_node []) with 0. destruct inline; cbn [blen] in *; nia. }
  destruct (Dom.is_element c0) eqn:E0; [|destruct rest as [|c1 rest]].
  2: { cbn [elem_to_string andb]. rewrite E0. cbn [negb]. rewrite !blen_app. pose proof (leaf_blen _ E0). rewrite sum_cons. change (sum size_node []) with 0. destruct inline; cbn [blen] in *; nia. }
  all: rewrite (elem_to_string_many _ _ _ _ _ _ _ _ _ _ _ eq_refl) by (try (now right); left; discriminate).
  all: rewrite <- Ec in *.
  all: assert (IHc : forall c, In (NElem c) ch -> forall b, blen (elem_to_string (prefix ++ indent) indent b c) + 1 <= size_elem c * (6 + (blen prefix + L * blen indent)))
    by (intros c Hc b; pose proof (IH c Hc (prefix ++ indent) b) as G; rewrite blen_app in G; apply Nat.le_trans with (1 := G), Nat.mul_le_mono_l;
        pose proof (LV c Hc); nia).
  all: clear IH LV.
  all: set (inl := inline || existsb Dom.is_text ch); assert (Inl : inl = false -> forall s, ~ In (NText s) ch)
    by (intros Z s Hs; apply orb_false_iff in Z; destruct Z as [_ Z]; assert (Y : existsb Dom.is_text ch = true) by (apply existsb_exists; now exists (NText s)); congruence).
  all: assert (G : blen (flat_map (child_string (prefix ++ indent) indent inl) ch) <= sum size_node ch * (6 + (blen prefix + L * blen indent)))
    by (rewrite flat_map_blen, Nat.mul_comm, <- sum_mul; apply sum_le; intros x Hx; apply child_blen with ch; try assumption; rewrite blen_app; nia).
  all: cbn zeta; fold inl; rewrite !blen_app; clear Inl IHc; clearbody inl;
    set (fm := blen (flat_map _ ch)) in *; set (o := match px with None => 0 | Some p => blen p + 1 end) in *; clearbody fm o;
    set (Z := L * blen indent) in *; clearbody Z; rewrite (Nat.mul_add_distr_r _ (sum size_node ch)); destruct inline, inl; cbn [blen] in *; nia.
Qed.
Lemma doc_blen d ind : blen (doc_to_string_with_indent d ind) <= size_doc d * (6 + levels (d_root d) * Nat.max 2 (blen ind)).
Proof.
  unfold doc_to_string_with_indent, size_doc, elem_to_string_with_indent.
  set (i := if validate_indent ind then ind else default_indent).
  assert (V : validate_indent i = true) by (unfold i; destruct (validate_indent ind) eqn:E; [exact E|reflexivity]). rewrite V.
  assert (M : blen i <= Nat.max 2 (blen ind)) by (unfold i; destruct (validate_indent ind); [lia|change (blen default_indent) with 2; lia]).
  rewrite !blen_app. pose proof (elem_blen i (d_root d) [] false) as E. cbn [blen] in E.
  assert (E' : blen (elem_to_string [] i false (d_root d)) + 1 <= size_elem (d_root d) * (6 + levels (d_root d) * Nat.max 2 (blen ind))).
  { apply Nat.le_trans with (1 := E), Nat.mul_le_mono_l. nia. }
  assert (D : blen (flat_map (fun dtd => dtd_to_string dtd ++ [cNL]) (d_dtds d)) <= sum (fun x => blen x + 10) (d_dtds d)).
  { rewrite flat_map_blen. apply sum_le. intros x _. rewrite blen_app. change (blen [cNL]) with 1. unfold dtd_to_string. lia. }
  assert (X : blen (match d_declaration d with None => [] | Some decl => declaration_to_string decl ++ [cNL] end) <=
    2 * match d_declaration d with None => 0 | Some x => blen x + 4 end).
  { destruct (d_declaration d) as [x|]; [|cbn; lia]. unfold declaration_to_string. rewrite !blen_app.
    change (blen (lit "<?")) with 2. change (blen (lit "?>")) with 2. change (blen [cNL]) with 1. lia. }
  change (blen [cNL]) with 1. set (U := levels (d_root d) * Nat.max 2 (blen ind)) in *. clearbody U.
  set (x1 := match d_declaration d with None => 0 | Some x => blen x + 4 end) in *. clearbody x1.
  set (x2 := sum _ (d_dtds d)) in *. clearbody x2. rewrite !Nat.mul_add_distr_r.
  enough (H : forall a b c, a <= 2 * x1 -> b <= x2 -> c + 1 <= size_elem (d_root d) * (6 + U) ->
    a + (b + (c + 1)) <= x1 * (6 + U) + x2 * (6 + U) + size_elem (d_root d) * (6 + U)) by now apply H.
  clear. intros a b c. set (y := size_elem (d_root d) * (6 + U)). clearbody y. nia.
Qed.

(** * Deep nesting is written with many spaces *)

Lemma nest_written : forall n e prefix, item_means (nest_item n) (NElem e) ->
  n * n + 2 * n * blen prefix <= blen (elem_to_string prefix default_indent false e).
Proof.
  induction n as [|n IH]; intros e prefix M; [lia|].
  inversion M as [? ? ? ? H C|? ? ? ? ? ? H B| |]; subst. inversion B as [|? ? ? m ? m0 Tm Im Bm X Eb]; subst. inversion Bm as [? ? Tm'|]; subst.
  assert (Z : forall l, text_means [] l -> l = []) by (intros l0 H0; inversion H0 as [|? ? W|? ? W]; [reflexivity|elim W; constructor..]).
  apply Z in Tm. apply Z in Tm'. subst. cbn [app] in Eb.
  destruct m as [c| | |]; [|destruct n; inversion Im..]. specialize (IH c (prefix ++ default_indent) Im).
  destruct e as [nm ch at_ ns px ctx]. cbn [e_children] in Eb. subst ch.
  rewrite (elem_to_string_many _ _ _ _ _ _ _ _ _ (NElem c) [] eq_refl) by now right.
  cbn zeta. cbn [existsb Dom.is_text orb flat_map]. unfold child_string. rewrite !blen_app in *.
  change (blen default_indent) with 2 in IH. change (blen (lit "</")) with 2. clear - IH. nia.
Qed.
Theorem deep_written n : exists d, parse_str (nest n) = Ok d /\ n * n <= blen (doc_to_string d).
Proof.
  destruct (C47_document_means (nest_source n) (nest_wf n)) as (d & P & _ & _ & M). rewrite nest_print in P.
  exists d. split; [exact P|]. apply (nest_written _ _ []) in M. unfold doc_to_string, doc_to_string_with_indent.
  change (validate_indent default_indent) with true. unfold elem_to_string_with_indent. change (validate_indent default_indent) with true.
  rewrite !blen_app. cbn [blen] in M. lia.
Qed.
Lemma nest_blen n : blen (nest n) = 7 * n + 4.
Proof.
  unfold nest. rewrite !blen_app. induction n as [|n IH]; [reflexivity|]. cbn [repeat List.concat]. rewrite !blen_app in *.
  change (blen (lit "<a>")) with 3. change (blen (lit "</a>")) with 4. change (blen (lit "<a/>")) with 4 in *. lia.
Qed.

(** * Many elements with one long namespace *)

Fixpoint crowd_body (n : nat) : cbody := match n with O => BEnd [] | S n => BItem [] (CEmpty (lit "a") [] []) (crowd_body n) end.
Definition crowd_item (n : nat) : citem :=
  CElem (lit "a") [CAttr (lit " ") (lit "xmlns") [] [] squote (repeat 117%N n)] [] (crowd_body n) [].
Lemma crowd_print n : item_print (crowd_item n) ++ [10%N] = crowd n.
Proof.
  unfold crowd, crowd_item. cbn [item_print]. assert (B : body_print (crowd_body n) = List.concat (repeat (lit "<a/>") n)).
  { induction n as [|n IH]; [reflexivity|]. cbn [crowd_body body_print repeat List.concat]. rewrite IH. reflexivity. }
  rewrite B. unfold head_print, attr_print. cbn [flat_map a_space a_key a_eq1 a_eq2 a_quote a_raw]. rewrite app_nil_r, <- !app_assoc. reflexivity.
Qed.
Lemma repeat_blen n : blen (repeat 117%N n) = n.
Proof. induction n as [|n IH]; [easy|]. cbn [repeat blen]. rewrite IH. reflexivity. Qed.
Lemma crowd_blen n : blen (crowd n) = 5 * n + 17.
Proof.
  unfold crowd. rewrite !blen_app, repeat_blen. assert (B : blen (List.concat (repeat (lit "<a/>") n)) = 4 * n).
  { induction n as [|n IH]; [easy|]. cbn [repeat List.concat]. rewrite blen_app, IH. change (blen (lit "<a/>")) with 4. lia. }
  rewrite B. cbn. lia.
Qed.
Lemma no_refs_readable n : unescape (repeat 117%N n) = Ok (repeat 117%N n).
Proof. apply C07_unescape_identity. intro I. apply repeat_spec in I. discriminate I. Qed.
Lemma xmlns_plain : plain_name (lit "xmlns").
Proof. apply plainb_ok. now vm_compute. Qed.
Definition crowd_attr (n : nat) : cattr := CAttr (lit " ") (lit "xmlns") [] [] squote (repeat 117%N n).
Lemma crowd_attr_wf n : attr_wf (crowd_attr n).
Proof.
  split; [discriminate|]. split; [now repeat constructor|]. split; [exact xmlns_plain|]. split; [constructor|]. split; [constructor|].
  split; [now right|]. split; [intro I; apply repeat_spec in I; discriminate I|]. exists (repeat 117%N n). apply no_refs_readable.
Qed.
Definition crowd_source (n : nat) : source := Source None [] [] (crowd_item n) [10%N].
Lemma crowd_wf n : source_wf (crowd_source n).
Proof.
  assert (T : text_wf []) by (split; [intros []|left; constructor]).
  assert (A : attrs_wf []) by (split; constructor).
  split; [intros w d H; discriminate H|]. split; [constructor|]. split; [intros w c []|]. split; [constructor|].
  split; [|split; [|apply ws_no_tag; now repeat constructor]].
  - cbn [x_root crowd_source crowd_item item_wf]. split; [exists None, (lit "a"); exact a_named|].
    split; [split; [constructor; [apply crowd_attr_wf|constructor]|apply gr_one; [now split|constructor]]|]. split; [constructor|]. split; [|constructor].
    induction n as [|n IH]; [exact T|]. cbn [crowd_body body_wf]. split; [exact T|]. split; [|exact IH].
    cbn [item_wf]. split; [exists None, (lit "a"); exact a_named|]. split; [exact A|constructor].
  - exists (lit "a"), [crowd_attr n]. split; [right; eexists _, _, _; reflexivity|].
    intros p m H. remember (lit "a") as x eqn:E. remember (Some p) as o eqn:Eo.
    destruct H as [|p' n' X]; [discriminate Eo|]. destruct X as (c & r & -> & _). destruct r; discriminate E.
Qed.
Lemma crowd_one_root n : one_root (crowd n) [] (toks_item [] (crowd_item n)).
Proof.
  rewrite <- crowd_print. apply (written_one_root None (crowd_item n)); [discriminate| |exact I]. cbn [crowd_item item_shape].
  split; [exists None, (lit "a"); exact a_named|]. split; [apply attrs_shape; constructor; [apply crowd_attr_wf|constructor]|]. split; [constructor|]. split; [|constructor].
  induction n as [|n IH]; [intros []|]. cbn [crowd_body body_shape]. split; [intros []|]. split; [|exact IH].
  cbn [item_shape]. split; [exists None, (lit "a"); exact a_named|]. split; constructor.
Qed.
Theorem crowd_namespaces n : exists d, parse_str (crowd n) = Ok d /\ n * n <= size_namespaces (d_root d).
Proof.
  destruct (C47_document_means (crowd_source n) (crowd_wf n)) as (d & P & _ & _ & M).
  assert (E : source_print (crowd_source n) = crowd n) by (rewrite <- crowd_print; reflexivity). rewrite E in P. exists d. split; [exact P|].
  cbn [x_root crowd_source] in M. inversion M as [|? ? ? ? ? ? [Nm H] B| |]; subst.
  assert (Px : forall e, named (lit "a") (e_prefix e) (e_name e) -> e_prefix e = None).
  { intros e Z. remember (lit "a") as x eqn:Ex. destruct (e_prefix e) as [p|]; [|easy]. inversion Z as [|p' n' X]; subst. destruct X as (c & r & -> & _). destruct r; discriminate. }
  assert (R : namespace (d_root d) = Some (repeat 117%N n)).
  { rewrite (C40_default _ _ _ _ (d_root d) [] P (crowd_one_root n)); [|constructor|now apply Px].
    specialize (H (lit "xmlns")). assert (Lv : last_value (lit "xmlns") [crowd_attr n] = Some (repeat 117%N n)) by reflexivity.
    change (CAttr _ _ _ _ _ _) with (crowd_attr n) in H. rewrite Lv in H. destruct H as (v & V & ->). rewrite no_refs_readable in V. now injection V as <-. }
  assert (K : forall c, In (NElem c) (e_children (d_root d)) -> named (lit "a") (e_prefix c) (e_name c) -> get_attr c (lit "xmlns") = None ->
    namespace c = Some (repeat 117%N n)).
  { intros c I N G. rewrite (C40_default _ _ _ _ c [d_root d] P (crowd_one_root n)); [|apply ch_child; [constructor|exact I]|now apply Px].
    rewrite G. now rewrite (Px _ Nm). }
  unfold size_namespaces. rewrite elements_eq, sum_cons, R, repeat_blen. clear - K B.
  set (f := fun c => match namespace c with None => 0 | Some v => blen v end).
  enough (G : forall m l, body_means (crowd_body m) l -> incl l (e_children (d_root d)) -> m * n <= sum f (nodes_elements l)).
  { specialize (G n _ B (incl_refl _)). unfold nodes_elements in G. lia. }
  clear B. induction m as [|m IH]; intros l B I; [lia|]. cbn [crowd_body] in B. inversion B as [|? l0 ? x ? m0 Tm Im Bm]; subst.
  assert (l0 = []) as -> by (inversion Tm as [|? ? W|? ? W]; [reflexivity|elim W; constructor..]).
  inversion Im as [? ? ? c [Nc Hc] Cc| | |]; subst. cbn [app] in *.
  specialize (IH m0 Bm (fun y Y => I y (or_intror Y))). change (nodes_elements (NElem c :: m0)) with (elements c ++ nodes_elements m0).
  rewrite sum_app, elements_eq, sum_cons. unfold f at 1. rewrite (K c (I _ (or_introl eq_refl)) Nc (Hc (lit "xmlns"))), repeat_blen. lia.
Qed.

(** Sizes: reading does not amplify. *)
From Coq Require Import List NArith Arith Bool Ascii String Lia Permutation.
From Verif Require Import Base BaseFacts Escape Dom DomFacts Spec SpecDom Parse SpecLex SpecParse SpecEsc LexFacts ParseFacts DocFacts
  SpecDoc SerFacts P_Parse SpecMean MeanFacts SpecMany ManyFacts SpecSize UnescFacts P_Escape P_Many SpecErr ReadFacts.
Import ListNotations.

Lemma sum_app {A} (f : A -> nat) a b : sum f (a ++ b) = sum f a + sum f b.
Proof. unfold sum. rewrite map_app. apply list_sum_app. Qed.
Lemma sum_cons {A} (f : A -> nat) a l : sum f (a :: l) = f a + sum f l.
Proof. reflexivity. Qed.
Lemma sum_perm {A} (f : A -> nat) a b : Permutation a b -> sum f a = sum f b.
Proof. induction 1; rewrite ?sum_cons in *; lia. Qed.
Lemma sum_incl {A} (f : A -> nat) a : NoDup a -> forall b, incl a b -> sum f a <= sum f b.
Proof.
  induction 1 as [|x a N D IH]; intros b I; [cbn; lia|]. destruct (in_split x b) as (b1 & b2 & ->); [apply I; now left|].
  rewrite sum_app, !sum_cons. assert (J : incl a (b1 ++ b2)).
  { intros y Y. assert (In y (b1 ++ x :: b2)) by (apply I; now right). apply in_app_or in H. apply in_or_app.
    destruct H as [H|[->|H]]; auto. easy. }
  specialize (IH _ J). rewrite sum_app in IH. lia.
Qed.
Lemma size_elem_eq e : size_elem e = 3 + blen (e_name e) + match e_prefix e with None => 0 | Some p => blen p + 1 end +
  sum size_attr (e_attributes e) + sum size_node (e_children e).
Proof. now destruct e. Qed.
Lemma unescapes_size t v : unescapes t (Some v) -> blen v <= blen t.
Proof. intro H. apply C07_unescape_never_grows. now apply unescape_exact. Qed.

(** * Tags *)

Lemma solid_head x c : solid None (x :: c) -> is_whitespace x = false.
Proof.
  unfold solid. cbn [unquoted]. destruct (is_quote x) eqn:Q; intro H.
  - unfold is_quote in Q. apply orb_true_iff in Q. destruct Q as [Q|Q]; apply N.eqb_eq in Q; now subst x.
  - now inversion H.
Qed.
Lemma words_size b l : words b l -> sum (fun w => S (blen w)) l <= S (blen b) /\
  forall x s, b = x :: s -> is_whitespace x = true -> sum (fun w => S (blen w)) l <= blen b.
Proof.
  assert (P : forall w c (r : str), c <> [] -> solid None c -> (forall x s, w ++ c ++ r = x :: s -> is_whitespace x = true -> 1 <= blen w)).
  { intros w c r N S x s E X. destruct w as [|y w].
    - destruct c as [|y c]; [easy|]. injection E as -> _. apply solid_head in S. congruence.
    - cbn. pose proof (len_utf8_pos y). lia. }
  induction 1 as [w H|w c H N S|w c x s l H N S Q X W [IH1 IH2]].
  - split; [cbn; lia|]. intros. cbn. lia.
  - rewrite blen_app, sum_cons. change (sum _ []) with 0. split; [lia|]. intros x s E X. rewrite <- (app_nil_r c) in E.
    pose proof (P _ _ _ N S _ _ E X). lia.
  - specialize (IH2 _ _ eq_refl X). rewrite !blen_app, sum_cons. split; [lia|]. intros y z E Y. pose proof (P _ _ _ N S _ _ E Y). lia.
Qed.
Lemma joined_size l r : joined l r -> sum (fun w => S (blen w)) r <= sum (fun w => S (blen w)) l.
Proof. induction 1; rewrite ?sum_cons, ?blen_app in *; lia. Qed.
Lemma attrs_size kvs l : Forall2 attr_reads kvs l -> sum size_attr l <= sum (fun w => S (blen w)) kvs.
Proof.
  induction 1 as [|kv [k v] kvs l (x & u & E & _ & (q & Q & ->) & U) F IH]; [cbn; lia|]. cbn [fst snd] in *. rewrite !sum_cons.
  apply unescapes_size in U. subst kv. unfold size_attr at 1. cbn [fst snd]. rewrite !blen_app.
  assert (blen [q] = 1). { unfold is_quote in Q. apply orb_true_iff in Q. destruct Q as [Q|Q]; apply N.eqb_eq in Q; now subst q. }
  change (blen (lit "=")) with 1. lia.
Qed.
Lemma start_tag_size t n l : start_tag t n l -> 2 + blen n + sum size_attr l <= blen t /\
  (self_closing t -> 3 + blen n + sum size_attr l <= blen t).
Proof.
  intros (_ & _ & kvs & (comps & (b & o & -> & W & O) & J) & F).
  apply words_size in W. destruct W as [W _]. apply joined_size in J. apply attrs_size in F. rewrite sum_cons in W. rewrite !blen_app.
  change (blen (lit "<")) with 1. change (blen (lit ">")) with 1.
  split; [lia|]. intro S. destruct O as [->|[-> N]]; [change (blen (lit "/")) with 1; lia|easy].
Qed.

(** * Items *)

Definition size_item (i : item) : nat :=
  match i with IOpen n l => 2 + blen n + sum size_attr l | IClose => 1 | ILeaf n => size_node n end.
Definition size_tok (x : str * str) : nat := blen (fst x) + blen (snd x).
Lemma text_item_size txt i : text_item txt i -> sum size_item i <= blen txt.
Proof. intros [t W|t v N U B|t v N U B]; try (cbn; lia). apply unescapes_size in U. cbn. lia. Qed.
Lemma closing_size t n : closing t n -> 3 <= blen t.
Proof. intros (w1 & w2 & o & -> & _). rewrite !blen_app. change (blen (lit "</")) with 2. change (blen (lit ">")) with 1. lia. Qed.
Lemma tag_item_size t i : tag_item t i -> sum size_item i <= blen t.
Proof.
  intros [c|c|t' n l H S|t' n l H S|t' n H]; rewrite ?blen_app, ?sum_cons; change (sum size_item []) with 0; cbn [size_item size_node].
  - change (blen (lit "<!--")) with 4. change (blen (lit "-->")) with 3. lia.
  - change (blen (lit "<![CDATA[")) with 9. change (blen (lit "]]>")) with 3. lia.
  - apply start_tag_size in H. lia.
  - apply start_tag_size in H. destruct H as [_ H]. specialize (H S). lia.
  - apply closing_size in H. lia.
Qed.
Lemma items_size toks i : items toks i -> sum size_item i <= sum size_tok toks.
Proof.
  induction 1 as [|txt t toks a b l X G F IH]; [cbn; lia|]. rewrite !sum_app, sum_cons. apply text_item_size in X. apply tag_item_size in G.
  unfold size_tok at 1. cbn [fst snd]. lia.
Qed.
Lemma labelled_size n l e : labelled n l e ->
  blen (e_name e) + match e_prefix e with None => 0 | Some p => blen p + 1 end + sum size_attr (e_attributes e) <= blen n + sum size_attr l.
Proof.
  intros (P & D & A).
  assert (S : sum size_attr (e_attributes e) <= sum size_attr l).
  { apply sum_incl; [now apply NoDup_map_inv with (f := fst)|]. intros [k v] I. apply A in I. destruct I as (a & b & -> & _).
    apply in_or_app. right. now left. }
  inversion P as [m N E|p m N E]; subst; [lia|]. rewrite !blen_app. change (blen (lit ":")) with 1. lia.
Qed.
Lemma tree_size :
  (forall anc e is, element_of_items anc e is -> size_elem e <= sum size_item is) /\
  (forall anc ns is, nodes_of_items anc ns is -> sum size_node ns <= sum size_item is).
Proof.
  apply items_ind2.
  - intros anc e n l is L X C _ IH. apply labelled_size in L. rewrite size_elem_eq, sum_cons, sum_app. cbn [size_item].
    change (sum size_item [IClose]) with 1. lia.
  - intro anc. cbn. lia.
  - intros anc n ns is N _ IH. rewrite !sum_cons. cbn [size_item]. lia.
  - intros anc e ns is is' _ IH1 _ IH2. rewrite sum_app, sum_cons. cbn [size_node]. lia.
Qed.

(** * Roots *)

Lemma loose_size txt a : loose_text txt a -> sum size_node a <= blen txt.
Proof. intros [t W|t v N U]; [cbn; lia|]. apply unescapes_size in U. cbn. lia. Qed.
Lemma content_size q toks ns : content q toks ns -> sum size_node ns <= sum size_tok toks.
Proof.
  induction 1 as [|txt a t n toks ns L T C IH|txt a t g is e toks ns L I E C IH]; [cbn; lia|..];
    rewrite ?sum_app, ?sum_cons, ?sum_app; unfold size_tok at 1; cbn [fst snd]; apply loose_size in L.
  - apply tag_item_size in T. rewrite sum_cons in T. cbn [size_item] in T. lia.
  - apply items_size in I. rewrite sum_cons in I. unfold size_tok at 1 in I. cbn [fst snd] in I. change (blen []) with 0 in I.
    apply (proj1 tree_size) in E. cbn [size_node]. lia.
Qed.
(** The size of a root without its children. *)
Definition size_head (q : elem) : nat :=
  3 + blen (e_name q) + match e_prefix q with None => 0 | Some p => blen p + 1 end + sum size_attr (e_attributes q).
Lemma root_size el q ns : root_reads el q ns -> size_head q + sum size_node ns <= sum size_tok el.
Proof.
  intros [txt t n l q' W T S (H & _)|txt t n l q' body ns' last a close W T S (H & _) C L Cl];
    apply labelled_size in H; apply start_tag_size in T; destruct T as [T1 T2]; unfold size_head; rewrite ?sum_cons, ?sum_app; unfold size_tok at 1; cbn [fst snd].
  - specialize (T2 S). change (sum size_tok []) with 0. change (sum size_node []) with 0. lia.
  - apply content_size in C. apply loose_size in L. apply closing_size in Cl. rewrite sum_cons. unfold size_tok at 2. cbn [fst snd]. lia.
Qed.
Lemma roots_size el q ns : roots_read el q ns -> size_head q + sum size_node ns <= sum size_tok el.
Proof.
  induction 1 as [el q ns R|el p ns el' q ns' R _ IH]; [now apply root_size|]. apply root_size in R. rewrite !sum_app. lia.
Qed.
Lemma knit_size ns l : knit ns l -> sum size_node l <= sum size_node ns.
Proof. induction 1; rewrite ?sum_cons in *; cbn [size_node] in *; rewrite ?blen_app in *; lia. Qed.
Lemma adopted_size q n n' : adopted q n n' -> size_node n' = size_node n.
Proof.
  destruct n, n'; cbn; try easy; try (intro H; now injection H as ->).
  intros (H1 & H2 & H3 & H4 & _). now rewrite !size_elem_eq, H1, H2, H3, H4.
Qed.
Lemma gathered_size q ns r : gathered q ns r -> size_elem r <= size_head q + sum size_node ns.
Proof.
  intros (l & l' & K & F & ->). apply knit_size in K. rewrite size_elem_eq. unfold size_head. cbn [e_name e_prefix e_attributes e_children set_children].
  assert (sum size_node l' = sum size_node l).
  { clear K. induction F as [|a b l l' A F IH]; [easy|]. rewrite !sum_cons. apply adopted_size in A. lia. }
  lia.
Qed.
Lemma lexed_size s toks tail : lexed s toks tail -> blen s = sum size_tok toks + blen tail.
Proof.
  induction 1 as [s|txt s t rest toks tail N T L IH]; [easy|]. apply tag_at_nonempty in T. destruct T as [-> _].
  rewrite sum_cons, !blen_app. unfold size_tok at 1. cbn [fst snd]. lia.
Qed.
Lemma dtds_size toks l : dtds_in toks l -> sum (fun x => blen x + 10) l <= sum size_tok toks.
Proof.
  induction 1 as [|txt d toks l H IH|txt t toks l N H IH]; [cbn; lia|..]; rewrite ?sum_cons; unfold size_tok at 1; cbn [fst snd]; [|lia].
  rewrite !blen_app. change (blen (lit "<!DOCTYPE")) with 9. change (blen (lit ">")) with 1. lia.
Qed.
Lemma dtds_without a x b l : ~ begins (lit "<!DOCTYPE") (snd x) -> dtds_in (a ++ x :: b) l -> dtds_in (a ++ b) l.
Proof.
  intro N. revert l. induction a as [|y a IH]; intros l H; cbn in *; inversion H as [|txt d toks l' H'|txt t toks l' N' H']; subst.
  - exfalso. apply N. now eexists.
  - easy.
  - constructor. now apply IH.
  - constructor; [easy|]. now apply IH.
Qed.
Lemma prolog_size pr o l : declared pr o -> dtds_in pr l ->
  match o with None => 0 | Some x => blen x + 4 end + sum (fun x => blen x + 10) l <= sum size_tok pr.
Proof.
  intros D H. destruct o as [d|]; [|now apply dtds_size]. destruct (proj1 (D d) eq_refl) as (a & txt & b & -> & B & _).
  apply dtds_without in H; [|intros [z E]; discriminate]. apply dtds_size in H. rewrite sum_app in *. rewrite sum_cons. change (size_tok (txt, lit "<?" ++ d ++ lit "?>")) with (blen txt + blen (lit "<?" ++ d ++ lit "?>")).
  rewrite !blen_app. change (blen (lit "<?")) with 2. change (blen (lit "?>")) with 2. lia.
Qed.
Theorem parse_size s d : parse_str s = Ok d -> size_doc d <= blen s.
Proof.
  intro H. destruct (C69_total _ _ H) as (pr & el & ((tail & L & _) & _) & D & T & q & ns & R & G).
  apply lexed_size in L. rewrite sum_app in L. apply gathered_size in G. apply roots_size in R. pose proof (prolog_size _ _ _ D T).
  unfold size_doc. lia.
Qed.

(** * Namespaces *)

Notation drawn := drawn_from.
Definition all_drawn (P : list (str * str)) (e : elem) : Prop := Forall (drawn P) (elements e).
Definition nodes_drawn (P : list (str * str)) (l : list node) : Prop := forall c, In (NElem c) l -> all_drawn P c.
Lemma all_drawn_eq P e : all_drawn P e <-> drawn P e /\ nodes_drawn P (e_children e).
Proof.
  unfold all_drawn. destruct e as [nm ch at_ ns p ctx]. cbn [elements e_children]. set (f := fun n => match n with NElem c => elements c | _ => [] end).
  assert (E : Forall (drawn P) (flat_map f ch) <-> nodes_drawn P ch).
  { split.
    - intros H c I. apply Forall_forall. intros x X. rewrite Forall_forall in H. apply H, in_flat_map. now exists (NElem c).
    - intro H. apply Forall_forall. intros x X. apply in_flat_map in X. destruct X as ([c|s|s|s] & I & X); try (elim X).
      exact (proj1 (Forall_forall _ _) (H c I) x X). }
  rewrite <- E. split; [intro H; inversion H; now split|intros [H1 H2]; now constructor].
Qed.
Lemma drawn_mono P Q e : incl P Q -> drawn P e -> drawn Q e.
Proof.
  intros I (A & B & C). split; [now apply incl_tran with P|]. split; [|intros p v H; now apply I, C].
  intros v H. destruct (B v H) as [k K]. exists k. now apply I.
Qed.
Lemma all_mono P Q e : incl P Q -> all_drawn P e -> all_drawn Q e.
Proof. intros I H. apply Forall_impl with (2 := H). intro x. now apply drawn_mono. Qed.
Lemma nodes_mono P Q l : incl P Q -> nodes_drawn P l -> nodes_drawn Q l.
Proof. intros I H c K. now apply all_mono with P, H. Qed.
Lemma get_drawn P e k v : incl (e_attributes e) P -> get_attr e k = Some v -> In (k, v) P.
Proof. intros I H. apply I. now apply aget_in. Qed.
Lemma nearest_drawn P l k v : Forall (drawn P) l -> nearest k l = Some v -> In (k, v) P.
Proof.
  induction 1 as [|e l (D & _) F IH]; cbn [nearest]; [easy|]. destruct (get_attr e k) as [w|] eqn:E; [|exact IH].
  intro H. injection H as <-. now apply get_drawn with e.
Qed.
Lemma rule_drawn P e anc v : incl (e_attributes e) P -> Forall (drawn P) anc -> namespace_rule e anc = Some v -> exists k, In (k, v) P.
Proof.
  intros I F. unfold namespace_rule. destruct (e_prefix e) as [p|].
  - destruct (get_attr e _) as [w|] eqn:E; [intro H; injection H as <-; eexists; now apply get_drawn with (1 := I) (2 := E)|].
    destruct (nearest (lit "xmlns:" ++ lit "xmlns:" ++ p) anc) as [w|] eqn:N; intro H.
    + injection H as <-. eexists. now apply nearest_drawn with (1 := F) (2 := N).
    + eexists. now apply nearest_drawn with (1 := F) (2 := H).
  - destruct (get_attr e _) as [w|] eqn:E; [intro H; injection H as <-; eexists; now apply get_drawn with (1 := I) (2 := E)|].
    destruct F as [|q anc (_ & D & _) F]; [discriminate|]. destruct (e_prefix q); [discriminate|]. apply D.
Qed.
Lemma labelled_incl n l e P : labelled n l e -> incl l P -> incl (e_attributes e) P.
Proof. intros (_ & _ & H) I [k v] K. apply H in K. destruct K as (a & b & -> & _). apply I, in_or_app. right. now left. Qed.
(** The attributes of items, as written. *)
Definition pool (is : list item) : list (str * str) := flat_map (fun i => match i with IOpen _ l => l | _ => [] end) is.
Lemma pool_app a b : pool (a ++ b) = pool a ++ pool b.
Proof. apply flat_map_app. Qed.
Lemma tree_drawn :
  (forall anc e is, element_of_items anc e is -> forall P, incl (pool is) P -> Forall (drawn P) anc -> all_drawn P e) /\
  (forall anc ns is, nodes_of_items anc ns is -> forall P, incl (pool is) P -> Forall (drawn P) anc -> nodes_drawn P ns).
Proof.
  apply items_ind2.
  - intros anc e n l is L X C _ IH P I F. cbn [pool flat_map] in I. fold (pool (is ++ [IClose])) in I. rewrite pool_app in I.
    apply incl_app_inv in I. destruct I as [I1 I2]. apply incl_app_inv in I2. destruct I2 as [I2 _].
    assert (D : drawn P e).
    { assert (A : incl (e_attributes e) P) by now apply labelled_incl with n l. split; [exact A|]. split.
      - intros v H. unfold namespace in H. rewrite X in H. now apply rule_drawn with e anc.
      - intros p v H. rewrite C in H. cbn [nearest] in H. destruct (get_attr e (lit "xmlns:" ++ p)) as [w|] eqn:G.
        + injection H as <-. now apply get_drawn with e.
        + now apply nearest_drawn with anc. }
    apply all_drawn_eq. split; [exact D|]. apply IH; [exact I2|now constructor].
  - intros anc P _ _ c [].
  - intros anc n ns is N _ IH P I F c [K|K]; [now elim (N c)|now apply (IH P I F)].
  - intros anc e ns is is' _ IH1 _ IH2 P I F c K. rewrite pool_app in I. apply incl_app_inv in I. destruct I as [I1 I2].
    destruct K as [K|K]; [injection K as <-; now apply IH1|now apply (IH2 P I2 F)].
Qed.
Lemma pool_size is : sum size_attr (pool is) <= sum size_item is.
Proof.
  induction is as [|i is IH]; [cbn; lia|]. change (i :: is) with ([i] ++ is) at 1. rewrite pool_app, sum_app, sum_cons.
  destruct i as [n l| |n]; cbn [pool flat_map size_item]; rewrite ?app_nil_r; [lia|cbn; lia|cbn; lia].
Qed.
Lemma content_drawn q toks ns : content q toks ns -> exists P, sum size_attr P <= sum size_tok toks /\
  forall Q, incl P Q -> drawn Q q -> nodes_drawn Q ns.
Proof.
  assert (T : forall txt a, loose_text txt a -> forall Q ms, nodes_drawn Q ms -> nodes_drawn Q (a ++ ms)).
  { intros txt a [t W|t v N U] Q ms H c K; [now apply H|]. destruct K as [K|K]; [discriminate K|now apply H]. }
  induction 1 as [|txt a t n toks ms L X C (P & S & IH)|txt a t g is e toks ms L I E C (P & S & IH)].
  - exists []. split; [cbn; lia|]. intros Q _ _ c [].
  - exists P. rewrite sum_cons. split; [lia|]. intros Q I D. apply T with txt; [exact L|]. intros c [K|K]; [|now apply (IH Q I D)].
    subst n. inversion X.
  - exists (pool is ++ P). rewrite sum_cons, !sum_app. apply items_size in I. rewrite sum_cons in I. unfold size_tok at 1 in I. unfold size_tok at 1.
    cbn [fst snd] in *. pose proof (pool_size is). change (blen []) with 0 in I. split; [lia|]. intros Q J D. apply incl_app_inv in J. destruct J as [J1 J2].
    apply T with txt; [exact L|]. intros c [K|K]; [|now apply (IH Q J2 D)]. injection K as <-.
    apply (proj1 tree_drawn _ _ _ E); [exact J1|]. now constructor.
Qed.
Lemma head_drawn n l q P : root_head n l q -> incl l P -> drawn P q.
Proof.
  intros (L & _ & X & C) I. assert (A : incl (e_attributes q) P) by now apply labelled_incl with n l.
  split; [exact A|]. split.
  - intros v H. unfold namespace in H. rewrite X in H. now apply rule_drawn with q [].
  - intros p v H. rewrite C in H. cbn [nearest] in H. destruct (get_attr q (lit "xmlns:" ++ p)) as [w|] eqn:G; [|discriminate H].
    injection H as <-. now apply get_drawn with q.
Qed.
Lemma root_drawn el q ns : root_reads el q ns -> exists P, sum size_attr P <= sum size_tok el /\ drawn P q /\ nodes_drawn P ns.
Proof.
  intros [txt t n l q' W T S H|txt t n l q' body ns' last a close W T S H C L Cl]; apply start_tag_size in T; destruct T as [T _].
  - exists l. rewrite sum_cons. unfold size_tok at 1. cbn [fst snd]. split; [lia|]. split; [|intros c []]. apply head_drawn with n l; [exact H|apply incl_refl].
  - apply content_drawn in C. destruct C as (P & SP & C). exists (l ++ P). rewrite sum_cons, !sum_app. unfold size_tok at 1. cbn [fst snd].
    split; [lia|]. assert (D : drawn (l ++ P) q') by (apply head_drawn with n l; [exact H|now apply incl_appl]). split; [exact D|].
    intros c K. apply in_app_or in K. destruct K as [K|K]; [now apply (C (l ++ P)); [apply incl_appr, incl_refl|..]|].
    inversion L; subst; [elim K|destruct K as [K|[]]; discriminate K].
Qed.
Lemma roots_drawn el q ns : roots_read el q ns -> exists P, sum size_attr P <= sum size_tok el /\ drawn P q /\ nodes_drawn P ns.
Proof.
  induction 1 as [el q ns R|el p ns el' q ns' R _ (P' & S' & D' & N')]; [now apply root_drawn|]. apply root_drawn in R.
  destruct R as (P & S & D & N). exists (P ++ P'). rewrite !sum_app. split; [lia|].
  split; [apply drawn_mono with P'; [apply incl_appr, incl_refl|exact D']|]. intros c K. apply in_app_or in K. destruct K as [K|K].
  - apply all_mono with P; [now apply incl_appl, incl_refl|now apply N].
  - apply all_mono with P'; [now apply incl_appr, incl_refl|now apply N'].
Qed.
Lemma knit_drawn ns l : knit ns l -> forall P, nodes_drawn P ns -> nodes_drawn P l.
Proof.
  intros H P. enough (K : forall c, In (NElem c) l -> In (NElem c) ns) by (intros D c I; now apply D, K).
  induction H as [|n ns l N H IH|s t ns l H IH|s ns l B N H IH|s ns l B N H IH]; intros c I; [easy|..].
  - destruct I as [I|I]; [now left|right; now apply IH].
  - destruct I as [I|I]; [discriminate I|]. right. apply IH. now right.
  - destruct I as [I|I]; [discriminate I|]. right. now apply IH.
  - right. now apply IH.
Qed.
Lemma Forall2_in_r {A B} (R : A -> B -> Prop) l l' y : Forall2 R l l' -> In y l' -> exists x, In x l /\ R x y.
Proof. induction 1 as [|a b l l' H F IH]; [easy|]. intros [->|I]; [exists a; split; [now left|easy]|]. destruct (IH I) as (x & ? & ?). exists x. split; [now right|easy]. Qed.
Lemma adopted_drawn P q l l' : Forall2 (adopted q) l l' -> drawn P q -> nodes_drawn P l -> nodes_drawn P l'.
Proof.
  intros F (_ & Dq & Cq) N c' I. destruct (Forall2_in_r _ _ _ _ F I) as (n & In_ & A). destruct n as [c|s|s|s]; cbn in A; try discriminate A.
  destruct A as (_ & K & At & Px & Cx & X). specialize (N c In_). apply all_drawn_eq in N. destruct N as ((D1 & D2 & D3) & N).
  apply all_drawn_eq. rewrite K. split; [|exact N].
  assert (T : forall p v, aget p (e_context c') = Some v -> In (lit "xmlns:" ++ p, v) P).
  { intros p v H. rewrite Cx in H. destruct (aget p (e_context c)) as [w|] eqn:E; [injection H as <-; now apply D3|now apply Cq]. }
  split; [now rewrite At|]. split; [|exact T]. intros v H. unfold namespace in H. rewrite X in H. destruct (e_xmlns c) as [x|] eqn:Ec; [injection H as <-; now apply D2|].
  destruct (e_prefix c) as [p|]; [eexists; now apply T with (1 := H)|]. unfold inheritable in H. destruct (e_prefix q); [discriminate H|now apply Dq].
Qed.
Theorem parsed_drawn s d : parse_str s = Ok d -> exists P, sum size_attr P <= blen s /\ Forall (drawn_from P) (elements (d_root d)).
Proof.
  intro H. destruct (C69_total _ _ H) as (pr & el & ((tail & L & _) & _) & D & T & q & ns & R & l & l' & K & A & E).
  apply lexed_size in L. rewrite sum_app in L. apply roots_drawn in R. destruct R as (P & S & Dq & N). exists P. split; [lia|].
  assert (X : all_drawn P (d_root d)).
  { apply all_drawn_eq. rewrite E. split; [now destruct q|]. destruct q as [nm ch at_ ns0 p ctx]. cbn [set_children e_children].
    apply adopted_drawn with (1 := A); [exact Dq|]. now apply knit_drawn with ns. }
  exact X.
Qed.

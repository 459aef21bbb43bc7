(** No result depends on the iteration order of hash maps. *)
From Coq Require Import List NArith Arith Bool Ascii String Lia Permutation.
From Verif Require Import Base BaseFacts Escape Dom Spec EscapeFacts SpecDom DomFacts SpecApi ApiFacts SerFacts
  Regex ParseTree Parse RoundFacts SynFacts Orders SpecOrders.
Import ListNotations.

(** * Maps *)

Lemma fair_within k o : fair o -> fair (within k o).
Proof. intros H p m. apply H. Qed.
#[local] Hint Resolve fair_within : core.

Lemma same_map_ok a b : same_map a b -> map_ok a /\ map_ok b.
Proof.
  intros [H P]. split; [easy|]. unfold map_ok in *. eapply Permutation_NoDup; [apply Permutation_map, P|easy].
Qed.
Lemma same_map_get a b : same_map a b -> forall k, aget k a = aget k b.
Proof. intros [H P] k. symmetry. apply aget_same; [easy|now apply Permutation_sym]. Qed.
Lemma same_map_of_get a b : map_ok a -> map_ok b -> (forall k, aget k a = aget k b) -> same_map a b.
Proof. intros A B H. split; [easy|]. now apply perm_of_get. Qed.
Lemma same_map_refl a : map_ok a -> same_map a a.
Proof. now split. Qed.
Lemma same_map_sym a b : same_map a b -> same_map b a.
Proof. intro H. split; [now apply same_map_ok in H|]. apply Permutation_sym, H. Qed.
Lemma same_map_trans a b c : same_map a b -> same_map b c -> same_map a c.
Proof. intros [A P] [_ Q]. split; [easy|]. now apply Permutation_trans with b. Qed.
Lemma same_map_order o o' p p' a b : fair o -> fair o' -> same_map a b -> same_map (o p a) (o' p' b).
Proof.
  intros F F' H. apply same_map_trans with a.
  - apply same_map_sym. split; [now apply same_map_ok in H|]. apply Permutation_sym, F.
  - apply same_map_trans with b; [easy|]. split; [now apply same_map_ok in H|]. apply Permutation_sym, F'.
Qed.
Lemma same_map_has a b k : same_map a b -> ahas k a = ahas k b.
Proof.
  intro H. destruct (ahas k a) eqn:E, (ahas k b) eqn:E'; try easy; exfalso.
  - apply ahas_spec in E. assert (~ In k (akeys b)) as N by (intro X; apply ahas_spec in X; congruence).
    apply N. unfold akeys in *. eapply Permutation_in; [apply Permutation_map, H|easy].
  - apply ahas_spec in E'. assert (~ In k (akeys a)) as N by (intro X; apply ahas_spec in X; congruence).
    apply N. unfold akeys in *. eapply Permutation_in; [apply Permutation_sym, Permutation_map, H|easy].
Qed.
Lemma same_map_aset a b k v : same_map a b -> same_map (aset k v a) (aset k v b).
Proof.
  intro H. pose proof (same_map_ok _ _ H) as [A B]. apply same_map_of_get; [now apply nodup_aset|now apply nodup_aset|].
  intro k'. destruct (str_eqb k' k) eqn:E.
  - apply str_eqb_eq in E. subst. now rewrite !aget_aset_same.
  - apply str_eqb_neq in E. rewrite !aget_aset_other by easy. now apply same_map_get.
Qed.
Lemma same_map_adel a b k : same_map a b -> same_map (adel k a) (adel k b).
Proof.
  intro H. pose proof (same_map_ok _ _ H) as [A B]. apply same_map_of_get; [now apply nodup_adel|now apply nodup_adel|].
  intro k'. destruct (str_eqb k' k) eqn:E.
  - apply str_eqb_eq in E. subst. now rewrite !aget_adel_same.
  - apply str_eqb_neq in E. rewrite !aget_adel_other by easy. now apply same_map_get.
Qed.
Lemma same_map_context a b : same_map a b ->
  same_map (xmlns_context_from_attributes a) (xmlns_context_from_attributes b).
Proof.
  intro H. pose proof (same_map_ok _ _ H) as [A B]. apply same_map_of_get; [apply context_ok|apply context_ok|].
  intro k. rewrite !context_get by easy. now apply same_map_get.
Qed.
Lemma inherit_ok parent : forall ctx, map_ok ctx -> map_ok (inherit_context ctx parent).
Proof.
  unfold inherit_context. induction parent as [|kv parent IH]; intros ctx H; cbn [fold_left]; [easy|]. apply IH.
  unfold inherit_step. destruct (ahas (fst kv) ctx); [easy|]. now apply nodup_aset.
Qed.
Lemma inherit_get parent : map_ok parent -> forall ctx k,
  aget k (inherit_context ctx parent) = match aget k ctx with Some v => Some v | None => aget k parent end.
Proof.
  unfold map_ok, inherit_context. induction parent as [|[k' v'] parent IH]; intros H ctx k; cbn [fold_left].
  { now destruct (aget k ctx). }
  cbn [map fst] in H. apply NoDup_cons_iff in H as [Hn H]. rewrite IH by easy. clear IH.
  unfold inherit_step. cbn [fst snd].
  assert (aget k ((k', v') :: parent) = if str_eqb k k' then Some v' else aget k parent) as -> by reflexivity.
  destruct (str_eqb k k') eqn:E.
  - apply str_eqb_eq in E. subst k'. rewrite (proj2 (aget_none k parent)) by easy.
    destruct (ahas k ctx) eqn:Eh.
    + destruct (aget k ctx) eqn:Eg; [easy|]. apply ahas_spec in Eh. now apply aget_none in Eg.
    + assert (aget k ctx = None) as -> by (apply aget_none; intro X; apply ahas_spec in X; congruence).
      now rewrite aget_aset_same.
  - apply str_eqb_neq in E. destruct (ahas k' ctx); [easy|]. now rewrite aget_aset_other.
Qed.
Lemma same_map_inherit a b p q : same_map a b -> same_map p q -> same_map (inherit_context a p) (inherit_context b q).
Proof.
  intros H K. pose proof (same_map_ok _ _ H) as [A B]. pose proof (same_map_ok _ _ K) as [P Q].
  apply same_map_of_get; [now apply inherit_ok|now apply inherit_ok|].
  intro k. rewrite !inherit_get by easy. now rewrite (same_map_get _ _ H), (same_map_get _ _ K).
Qed.

(** * Outcomes *)

Lemma bind_alike {A B} (R : A -> A -> Prop) (S : B -> B -> Prop) x y f g :
  alike_outcome R x y -> (forall a b, R a b -> alike_outcome S (f a) (g b)) ->
  alike_outcome S (bind x f) (bind y g).
Proof. destruct x, y; cbn; auto; try easy. Qed.
Lemma alike_same {A} (x : outcome A) : alike_outcome eq x x.
Proof. destruct x; cbn; [easy|now left|easy|easy]. Qed.
Lemma bind_same {A B} (S : B -> B -> Prop) (x : outcome A) f g :
  (forall a, x = Ok a -> alike_outcome S (f a) (g a)) -> alike_outcome S (bind x f) (bind x g).
Proof. destruct x; cbn; intro H; [now apply H|now left|easy|easy]. Qed.
Lemma alike_mono {A} (R S : A -> A -> Prop) x y : (forall a b, R a b -> S a b) -> alike_outcome R x y -> alike_outcome S x y.
Proof. destruct x, y; cbn; auto. Qed.
Lemma alike_error_refl x : alike_error x x.
Proof. now left. Qed.
Lemma alike_map_err {A} (R : A -> A -> Prop) x y b pos : alike_outcome R x y ->
  alike_outcome R (map_err x (at_pos b pos)) (map_err y (at_pos b pos)).
Proof.
  destruct x, y; cbn; try easy. intros [->|(k & k' & -> & ->)]; [now left|]. right. now exists k, k'.
Qed.
Lemma alike_expect {A} (R : A -> A -> Prop) x y : alike_outcome R x y -> alike_outcome R (expect x) (expect y).
Proof. destruct x, y; cbn; easy. Qed.
Lemma alike_unwrap {A} (R : A -> A -> Prop) x y : alike_option R x y -> alike_outcome R (unwrap x) (unwrap y).
Proof. destruct x, y; cbn; easy. Qed.

(** * Trees *)

Lemma alike_list_forall l l' : alike_list l l' <-> Forall2 alike_node l l'.
Proof. split; induction 1; constructor; auto. Qed.
Lemma alike_intro e1 e2 : e_name e1 = e_name e2 -> e_xmlns e1 = e_xmlns e2 -> e_prefix e1 = e_prefix e2 ->
  same_map (e_attributes e1) (e_attributes e2) -> same_map (e_context e1) (e_context e2) ->
  Forall2 alike_node (e_children e1) (e_children e2) -> alike e1 e2.
Proof. intros. constructor; auto. now apply alike_list_forall. Qed.
Lemma alike_inv e1 e2 : alike e1 e2 -> e_name e1 = e_name e2 /\ e_xmlns e1 = e_xmlns e2 /\ e_prefix e1 = e_prefix e2 /\
  same_map (e_attributes e1) (e_attributes e2) /\ same_map (e_context e1) (e_context e2) /\
  Forall2 alike_node (e_children e1) (e_children e2).
Proof. intro H. inversion H; subst. repeat (split; [assumption|]). now apply alike_list_forall. Qed.

Lemma alike_refl : forall e, elem_ok e -> alike e e.
Proof.
  induction e as [e IH] using elem_ind'. intro H. apply elem_ok_inv in H as (Ha & Hc & Hk).
  apply alike_intro; try easy. induction (e_children e) as [|n l IHl]; constructor.
  - destruct n; try (apply an_leaf; easy). apply an_elem, IH; [now left|]. apply Hk. now left.
  - apply IHl; intros c Hi; [apply IH|apply Hk]; now right.
Qed.
Lemma alike_ok : forall e e', alike e e' -> elem_ok e /\ elem_ok e'.
Proof.
  enough ((forall e e', alike e e' -> elem_ok e /\ elem_ok e') /\
    (forall n n', alike_node n n' -> node_ok n /\ node_ok n') /\
    (forall l l', alike_list l l' -> Forall node_ok l /\ Forall node_ok l')) by easy.
  apply alike_ind3.
  - intros e1 e2 _ _ _ Ha Hc _ [H1 H2]. apply same_map_ok in Ha, Hc. rewrite Forall_forall in H1, H2.
    split; (constructor; [easy|easy|]); intros c Hi; [now apply (H1 (NElem c))|now apply (H2 (NElem c))].
  - intros n H. destruct n; try easy. now destruct (H e).
  - easy.
  - easy.
  - intros n1 n2 l1 l2 _ [A B] _ [C D]. split; now constructor.
Qed.
Lemma alike_sym : forall e e', alike e e' -> alike e' e.
Proof.
  enough ((forall e e', alike e e' -> alike e' e) /\ (forall n n', alike_node n n' -> alike_node n' n) /\
    (forall l l', alike_list l l' -> alike_list l' l)) by easy.
  apply alike_ind3; intros; try (constructor; auto; fail).
  constructor; auto; now apply same_map_sym.
Qed.
Lemma alike_trans : forall e1 e2, alike e1 e2 -> forall e3, alike e2 e3 -> alike e1 e3.
Proof.
  enough ((forall e e', alike e e' -> forall e3, alike e' e3 -> alike e e3) /\
    (forall n n', alike_node n n' -> forall n3, alike_node n' n3 -> alike_node n n3) /\
    (forall l l', alike_list l l' -> forall l3, alike_list l' l3 -> alike_list l l3)) by easy.
  apply alike_ind3.
  - intros e1 e2 E1 E2 E3 Ha Hc _ IH e3 H. inversion H; subst. constructor; try congruence; auto.
    + now apply same_map_trans with (e_attributes e2).
    + now apply same_map_trans with (e_context e2).
  - easy.
  - intros e1 e2 _ IH n3 H. inversion H; subst; [now destruct (H0 e2)|]. constructor. auto.
  - easy.
  - intros n1 n2 l1 l2 _ IH1 _ IH2 l3 H. inversion H; subst. constructor; auto.
Qed.
Lemma alike_elem_same : forall e e', alike e e' -> elem_same e e'.
Proof.
  enough ((forall e e', alike e e' -> elem_same e e') /\
    (forall n n', alike_node n n' -> match n, n' with NElem a, NElem b => elem_same a b | NElem _, _ => False | _, _ => n = n' end) /\
    (forall l l', alike_list l l' -> nodes_same l l')) by easy.
  apply alike_ind3.
  - intros e1 e2 E1 E2 E3 Ha Hc _ IH. constructor; auto. apply Ha.
  - intros n H. destruct n; try easy. now destruct (H e).
  - easy.
  - constructor.
  - intros n1 n2 l1 l2 _ H _ IH. destruct n1, n2; try discriminate; try easy; try (injection H as ->); constructor; auto; easy.
Qed.
Lemma an_inv n n' : alike_node n n' ->
  (exists e e', n = NElem e /\ n' = NElem e' /\ alike e e') \/ (n = n' /\ is_element n = false).
Proof.
  intros [m H|e1 e2 H]; [right|left; now exists e1, e2]. split; [easy|]. destruct m; try easy. now destruct (H e).
Qed.
Lemma an_leaf' n : is_element n = false -> alike_node n n.
Proof. intro H. apply an_leaf. intros e ->. discriminate. Qed.
Lemma an_is_element n n' : alike_node n n' -> is_element n = is_element n'.
Proof. intro H. apply an_inv in H as [(e & e' & -> & -> & _)|[-> _]]; easy. Qed.
Lemma an_is_text n n' : alike_node n n' -> is_text n = is_text n'.
Proof. intro H. apply an_inv in H as [(e & e' & -> & -> & _)|[-> _]]; easy. Qed.

Lemma forall2_len {A B} (R : A -> B -> Prop) l l' : Forall2 R l l' -> List.length l = List.length l'.
Proof. induction 1; cbn; congruence. Qed.
Lemma forall2_filter {A} (R : A -> A -> Prop) p q l l' : (forall a b, R a b -> p a = q b) -> Forall2 R l l' ->
  Forall2 R (filter p l) (filter q l').
Proof.
  intros E. induction 1 as [|a b l l' Hab Hl IH]; cbn [filter]; [constructor|]. rewrite (E a b Hab).
  destruct (q b); [now constructor|easy].
Qed.
Lemma forall2_rev {A} (R : A -> A -> Prop) l l' : Forall2 R l l' -> Forall2 R (rev l) (rev l').
Proof. induction 1; cbn [rev]; [constructor|]. apply Forall2_app; [easy|]. now constructor. Qed.

Lemma clean_alike l l' : Forall2 alike_node l l' -> Forall2 alike_node (clean l) (clean l').
Proof.
  intro H. unfold clean. apply forall2_filter.
  { intros a b Hab. apply an_inv in Hab as [(e & e' & -> & -> & _)|[-> _]]; easy. }
  unfold merge_text. induction H as [|a b l l' Hab Hl IH]; cbn [fold_right]; [constructor|].
  apply an_inv in Hab as [(e & e' & -> & -> & Ha)|[-> Hb]].
  - unfold merge1. constructor; [now constructor|easy].
  - destruct IH as [|c d r r' Hcd Hr].
    + replace (merge1 b []) with [b] by now destruct b. constructor; [|constructor]. now apply an_leaf'.
    + destruct b as [e|s|s|s]; [discriminate| | |]; cbn [merge1].
      * apply an_inv in Hcd as [(e & e' & -> & -> & Ha)|[-> Hd]].
        -- constructor; [now apply an_leaf'|]. constructor; [now constructor|easy].
        -- destruct d; try discriminate; (constructor; [now apply an_leaf'|]); try easy; (constructor; [now apply an_leaf'|easy]).
      * constructor; [now apply an_leaf'|]. now constructor.
      * constructor; [now apply an_leaf'|]. now constructor.
Qed.
Lemma set_children_alike e e' l l' : alike e e' -> Forall2 alike_node l l' -> alike (set_children e l) (set_children e' l').
Proof. intros H Hl. apply alike_inv in H as (A & B & C & D & F & _). now apply alike_intro. Qed.
Lemma default_alike e e' : alike e e' -> default_namespace e = default_namespace e'.
Proof. intro H. apply alike_inv in H as (A & B & C & _). unfold default_namespace. now rewrite B, C. Qed.

(** * Adding *)

Lemma set_ns_alike o o' e e' df p p' : fair o -> fair o' -> alike e e' -> alike_option same_map p p' ->
  alike (set_namespace_context_o o e df p) (set_namespace_context_o o' e' df p').
Proof.
  intros F F' H Hp. unfold set_namespace_context_o, set_namespace_context. rewrite (default_alike _ _ H).
  pose proof (alike_inv _ _ H) as (En & Ex & Ep & Ha & Hc & Hk). rewrite Ep.
  set (e1 := match e_prefix e' with None => match default_namespace e' with None => set_xmlns e df | Some _ => e end | Some _ => e end).
  set (e1' := match e_prefix e' with None => match default_namespace e' with None => set_xmlns e' df | Some _ => e' end | Some _ => e' end).
  assert (alike e1 e1') as H1.
  { unfold e1, e1'. destruct (e_prefix e'); [easy|]. destruct (default_namespace e'); [easy|].
    apply alike_inv in H as (? & ? & ? & ? & ? & ?). now apply alike_intro. }
  clearbody e1 e1'. clear En Ex Ep Ha Hc Hk H.
  set (e2 := match option_map (o []) p with None => e1 | Some p => _ end).
  set (e2' := match option_map (o' []) p' with None => e1' | Some p => _ end).
  assert (alike e2 e2') as H2.
  { unfold e2, e2'. destruct p as [p|], p' as [p'|]; cbn [alike_option option_map] in *; try easy.
    apply alike_inv in H1 as (En & Ex & Ep & Ha & Hc & Hk). apply alike_intro; try easy. cbn [e_context set_context].
    apply same_map_inherit; [easy|]. now apply same_map_order. }
  clearbody e2 e2'. clear H1. pose proof (alike_inv _ _ H2) as (En & Ex & Ep & Ha & Hc & Hk). rewrite Ex, Ep.
  destruct (e_xmlns e2'); [easy|]. destruct (e_prefix e2') as [q|]; [|easy].
  rewrite (same_map_get _ _ Hc). apply alike_inv in H2 as (? & ? & ? & ? & ? & ?). now apply alike_intro.
Qed.
Lemma apply_xmlns_alike o o' df c c' n n' : fair o -> fair o' -> same_map c c' -> alike_node n n' ->
  alike_node (apply_xmlns_context_o o df c n) (apply_xmlns_context_o o' df c' n').
Proof.
  intros F F' Hc H. apply an_inv in H as [(e & e' & -> & -> & Ha)|[-> Hb]].
  - cbn. constructor. now apply set_ns_alike.
  - destruct n'; try discriminate; now apply an_leaf'.
Qed.
Lemma ctx_alike e e' : alike e e' -> same_map (e_context e) (e_context e').
Proof. intro H. now apply alike_inv in H. Qed.
Lemma kids_alike e e' : alike e e' -> Forall2 alike_node (e_children e) (e_children e').
Proof. intro H. now apply alike_inv in H. Qed.
Lemma append_alike o o' e e' n n' : fair o -> fair o' -> alike e e' -> alike_node n n' ->
  alike_outcome alike (append_o o e n) (append_o o' e' n').
Proof.
  intros F F' H Hn. unfold append_o. rewrite !cleanup_clean. cbn [bind alike_outcome].
  apply set_children_alike; [easy|]. apply clean_alike. apply Forall2_app; [now apply kids_alike|].
  constructor; [|constructor]. rewrite (default_alike _ _ H). apply apply_xmlns_alike; auto. now apply ctx_alike.
Qed.

Lemma vget_alike {A} (R : A -> A -> Prop) l l' i : Forall2 R l l' -> alike_outcome R (vget l i) (vget l' i).
Proof.
  intro H. unfold vget. revert i. induction H as [|a b l l' Hab Hl IH]; intros [|i]; cbn; easy.
Qed.
Lemma vset_alike {A} (R : A -> A -> Prop) l l' i a b : Forall2 R l l' -> R a b ->
  alike_outcome (Forall2 R) (vset l i a) (vset l' i b).
Proof.
  intros H Hab. revert i. induction H as [|x y l l' Hxy Hl IH]; intros [|i]; cbn [vset alike_outcome]; try easy.
  - now constructor.
  - apply bind_alike with (Forall2 R); [apply IH|]. intros r r' Hr. cbn. now constructor.
Qed.
Lemma vinsert_alike {A} (R : A -> A -> Prop) l l' i a b : Forall2 R l l' -> R a b ->
  alike_outcome (Forall2 R) (vinsert l i a) (vinsert l' i b).
Proof.
  intros H Hab. revert i. induction H as [|x y l l' Hxy Hl IH]; intros [|i]; cbn [vinsert alike_outcome]; try easy.
  - now repeat constructor.
  - constructor; [easy|]. now constructor.
  - apply bind_alike with (Forall2 R); [apply IH|]. intros r r' Hr. cbn. now constructor.
Qed.
Definition alike_pair {A B} (R : A -> A -> Prop) (S : B -> B -> Prop) (x y : A * B) : Prop :=
  R (fst x) (fst y) /\ S (snd x) (snd y).
Lemma vremove_alike {A} (R : A -> A -> Prop) l l' i : Forall2 R l l' ->
  alike_outcome (alike_pair R (Forall2 R)) (vremove l i) (vremove l' i).
Proof.
  intros H. revert i. induction H as [|x y l l' Hxy Hl IH]; intros [|i]; cbn [vremove alike_outcome]; try easy.
  apply bind_alike with (alike_pair R (Forall2 R)); [apply IH|]. intros r r' [H1 H2]. cbn. split; [easy|]. now constructor.
Qed.
Lemma cleanup_alike l l' : Forall2 alike_node l l' -> alike_outcome (Forall2 alike_node) (cleanup_text_nodes l) (cleanup_text_nodes l').
Proof. intro H. rewrite !cleanup_clean. now apply clean_alike. Qed.
Lemma apply_at_alike df c c' idx : same_map c c' -> forall o o' l l', fair o -> fair o' -> Forall2 alike_node l l' ->
  alike_outcome (Forall2 alike_node) (apply_at_o o df c idx l) (apply_at_o o' df c' idx l').
Proof.
  intro Hc. induction idx as [|i idx IH]; intros o o' l l' F F' Hl; cbn [apply_at_o]; [easy|].
  apply bind_alike with alike_node; [now apply vget_alike|]. intros n n' Hn.
  apply bind_alike with (Forall2 alike_node); [|intros; now apply IH; auto].
  apply vset_alike; [easy|]. apply apply_xmlns_alike; auto.
Qed.
Lemma element_indices_alike l l' : Forall2 alike_node l l' -> forall i, element_indices l i = element_indices l' i.
Proof.
  induction 1 as [|a b l l' Hab Hl IH]; intro i; cbn [element_indices]; [easy|]. rewrite (an_is_element _ _ Hab), IH. easy.
Qed.
Lemma append_all_alike o o' e e' l l' : fair o -> fair o' -> alike e e' -> Forall2 alike_node l l' ->
  alike_outcome alike (append_all_o o e l) (append_all_o o' e' l').
Proof.
  intros F F' H Hl. unfold append_all_o. rewrite !push_recording_ok. cbn [app].
  pose proof (kids_alike _ _ H) as Hk. rewrite <- (forall2_len _ _ _ Hk), (element_indices_alike _ _ Hl), (default_alike _ _ H).
  apply bind_alike with (Forall2 alike_node).
  - apply apply_at_alike; auto; [now apply ctx_alike|]. now apply Forall2_app.
  - intros r r' Hr. apply bind_alike with (Forall2 alike_node); [now apply cleanup_alike|].
    intros s s' Hs. cbn. now apply set_children_alike.
Qed.
Lemma insert_alike o o' e e' i n n' : fair o -> fair o' -> alike e e' -> alike_node n n' ->
  alike_outcome alike (insert_o o e i n) (insert_o o' e' i n').
Proof.
  intros F F' H Hn. unfold insert_o. pose proof (kids_alike _ _ H) as Hk. rewrite <- (forall2_len _ _ _ Hk).
  destruct (_ <? i); [cbn; now left|]. apply bind_alike with (Forall2 alike_node); [now apply vinsert_alike|].
  intros r r' Hr. rewrite <- (forall2_len _ _ _ Hr). apply bind_alike with alike_node; [now apply vget_alike|].
  intros a a' Ha. apply bind_alike with (Forall2 alike_node).
  - apply vset_alike; [easy|]. rewrite (default_alike _ _ H). apply apply_xmlns_alike; auto. now apply ctx_alike.
  - intros s s' Hs. apply bind_alike with (Forall2 alike_node); [now apply cleanup_alike|].
    intros t t' Ht. cbn. now apply set_children_alike.
Qed.

(** * New elements *)

Lemma convert_alike a b : same_map a b -> alike_outcome same_map (convert_attrs a []) (convert_attrs b []).
Proof.
  intro H. destruct (forallb (fun kv => name_regex (fst kv)) a) eqn:E.
  - rewrite forallb_forall in E. pose proof (same_map_ok _ _ H) as [A B]. rewrite !convert_attrs_ok.
    + cbn [alike_outcome]. apply same_map_of_get; [apply fold_aset_ok; constructor|apply fold_aset_ok; constructor|].
      intro k. rewrite !fold_aset_get by easy. now rewrite (same_map_get _ _ H).
    + intros k v Hi. apply name_regex_spec, (E (k, v)). apply Permutation_in with b; [apply Permutation_sym, H|easy].
    + intros k v Hi. now apply name_regex_spec, (E (k, v)).
  - assert (exists k v, In (k, v) a /\ ~ valid_name k) as (k & v & Hi & Hn).
    { clear H. induction a as [|[k v] a IH]; [discriminate|]. cbn [forallb fst] in E. apply andb_false_iff in E as [E|E].
      - exists k, v. split; [now left|]. now apply name_regex_false.
      - destruct (IH E) as (k' & v' & Hi & Hn). exists k', v'. split; [now right|easy]. }
    destruct (convert_attrs_bad a ltac:(now exists k, v) []) as (k1 & v1 & _ & _ & ->).
    destruct (convert_attrs_bad b) with (acc := @nil (str * str)) as (k2 & v2 & _ & _ & ->).
    { exists k, v. split; [|easy]. eapply Permutation_in; [apply H|easy]. }
    cbn. right. now exists k1, k2.
Qed.
Lemma element_new_alike o o' nm text a a' xmlns prefix l l' : fair o -> fair o' -> alike_option same_map a a' ->
  alike_option (Forall2 alike_node) l l' ->
  alike_outcome alike (element_new_o o nm text a xmlns prefix l) (element_new_o o' nm text a' xmlns prefix l').
Proof.
  intros F F' Ha Hl. unfold element_new_o. apply bind_same. intros _ _.
  apply bind_alike with same_map.
  { destruct a, a'; cbn [alike_option] in Ha; try easy; [now apply convert_alike, same_map_order|]. split; constructor. }
  intros m m' Hm. assert (match prefix with None => aget sXmlns m | Some p => aget (sXmlnsC ++ p) m end =
          match prefix with None => aget sXmlns m' | Some p => aget (sXmlnsC ++ p) m' end) as <-
    by (destruct prefix; now apply same_map_get).
  apply bind_alike with alike.
  - assert (alike (mkElem nm [] m (match xmlns with Some x => Some x | None => match prefix with None => aget sXmlns m | Some p => aget (sXmlnsC ++ p) m end end) prefix (xmlns_context_from_attributes (o [1] m)))
      (mkElem nm [] m' (match xmlns with Some x => Some x | None => match prefix with None => aget sXmlns m | Some p => aget (sXmlnsC ++ p) m end end) prefix (xmlns_context_from_attributes (o' [1] m')))) as H0.
    { apply alike_intro; cbn; try easy. apply same_map_context. now apply same_map_order. }
    destruct text; [|easy]. apply append_alike; auto. now apply an_leaf'.
  - intros e e' He. destruct l, l'; cbn [alike_option] in Hl; try easy. apply append_all_alike; auto.
Qed.

(** * Parsing *)

Record alike_pt (a b : ptnode) : Prop := AlikePt {
  ap_id : pt_id a = pt_id b;
  ap_value : alike_node (pt_value a) (pt_value b);
  ap_parent : pt_parent a = pt_parent b;
  ap_children : pt_children a = pt_children b
}.
Definition alike_data := Forall2 (alike_pair (@eq nat) alike_pt).
Definition alike_tree (t t' : ptree) : Prop := alike_data (t_data t) (t_data t') /\ t_pos t = t_pos t'.

Lemma dget_alike d d' k : alike_data d d' -> alike_option alike_pt (dget k d) (dget k d').
Proof.
  unfold dget. induction 1 as [|[a x] [b y] d d' [E H] Hd IH]; cbn; [easy|]. cbn in E. subst b.
  destruct (k =? a); easy.
Qed.
Lemma dset_alike d d' k a b : alike_data d d' -> alike_pt a b -> alike_data (dset k a d) (dset k b d').
Proof.
  unfold dset. intros Hd Hab. induction Hd as [|[i x] [j y] d d' [E H] Hd IH]; cbn.
  - constructor; [now split|constructor].
  - cbn in E. subst j. destruct (k =? i); constructor; easy.
Qed.
Lemma ddel_alike d d' k : alike_data d d' -> alike_data (ddel k d) (ddel k d').
Proof.
  unfold ddel. intros Hd. induction Hd as [|[i x] [j y] d d' [E H] Hd IH]; cbn; [constructor|].
  cbn in E. subst j. destruct (k =? i); try constructor; easy.
Qed.
Lemma unwrap_get d d' k : alike_data d d' -> alike_outcome alike_pt (unwrap (dget k d)) (unwrap (dget k d')).
Proof. intro H. now apply alike_unwrap, dget_alike. Qed.
Lemma as_element_alike n n' : alike_node n n' -> alike_outcome alike (as_element n) (as_element n').
Proof.
  intro H. apply an_inv in H as [(e & e' & -> & -> & Ha)|[-> Hb]]; [easy|]. destruct n'; try discriminate; now left.
Qed.
Lemma reverse_alike e e' : alike e e' -> alike (reverse_children e) (reverse_children e').
Proof. intro H. apply set_children_alike; [easy|]. now apply forall2_rev, kids_alike. Qed.

Lemma add_child_alike d d' pos id : alike_data d d' -> alike_outcome alike_data (pt_add_child d pos id) (pt_add_child d' pos id).
Proof.
  intro H. unfold pt_add_child. apply bind_alike with alike_pt; [now apply unwrap_get|].
  intros p p' [E1 E2 E3 E4]. cbn. apply dset_alike; [easy|]. rewrite E1, E3, E4. now constructor.
Qed.
Lemma data_len d d' : alike_data d d' -> List.length d = List.length d'.
Proof. apply forall2_len. Qed.
Lemma pt_push_alike t t' e e' : alike_tree t t' -> alike e e' -> alike_outcome alike_tree (pt_push t e) (pt_push t' e').
Proof.
  intros [Hd E] He. unfold pt_push. rewrite <- E, <- (data_len _ _ Hd). destruct (t_pos t) as [p|].
  - apply bind_alike with alike_data; [now apply add_child_alike|]. intros d d' Hdd. cbn. split; [|easy].
    apply dset_alike; [easy|]. constructor; try easy. now constructor.
  - cbn. split; [|easy]. apply dset_alike; [easy|]. constructor; try easy. now constructor.
Qed.
Lemma pt_append_alike t t' n n' : alike_tree t t' -> alike_node n n' -> alike_outcome alike_tree (pt_append t n) (pt_append t' n').
Proof.
  intros [Hd E] He. unfold pt_append. rewrite <- E, <- (data_len _ _ Hd). destruct (t_pos t) as [p|]; [|now left].
  apply bind_alike with alike_data; [now apply add_child_alike|]. intros d d' Hdd. cbn. split; [|easy].
  apply dset_alike; [easy|]. now constructor.
Qed.
Lemma pt_pop_alike t t' : alike_tree t t' -> alike_outcome alike_tree (pt_pop t) (pt_pop t').
Proof.
  intros [Hd E]. unfold pt_pop. rewrite <- E. destruct (t_pos t) as [p|]; [|now left].
  apply bind_alike with alike_pt; [now apply unwrap_get|]. intros q q' Hq. cbn. split; [easy|]. apply Hq.
Qed.
Lemma pt_top_alike t t' : alike_tree t t' -> alike_outcome (alike_option alike) (pt_top_element t) (pt_top_element t').
Proof.
  intros [Hd E]. unfold pt_top_element. rewrite <- E. destruct (t_pos t) as [p|]; [|easy].
  apply bind_alike with alike_pt; [now apply unwrap_get|]. intros q q' Hq.
  apply bind_alike with alike; [|easy]. apply alike_expect, as_element_alike, Hq.
Qed.
Lemma to_dom_step_alike o o' i d d' : fair o -> fair o' -> alike_data d d' ->
  alike_outcome alike_data (to_dom_step_o o i d) (to_dom_step_o o' i d').
Proof.
  intros F F' H. unfold to_dom_step_o. apply bind_alike with alike_pt; [now apply unwrap_get|].
  intros n n' [E1 E2 E3 E4]. rewrite E3. apply bind_same. intros pi _.
  apply bind_alike with alike_pt; [now apply unwrap_get, ddel_alike|]. intros p p' [P1 P2 P3 P4].
  apply bind_alike with alike; [now apply alike_expect, as_element_alike|]. intros e e' He.
  apply bind_alike with alike.
  - apply append_alike; auto. apply an_inv in E2 as [(c & c' & -> & -> & Ha)|[-> Hb]].
    + constructor. now apply reverse_alike.
    + destruct (pt_value n'); try discriminate; now apply an_leaf'.
  - intros x x' Hx. cbn. apply dset_alike; [now apply ddel_alike|]. constructor; try easy. now constructor.
Qed.
Lemma to_dom_loop_alike k : forall o o' d d', fair o -> fair o' -> alike_data d d' ->
  alike_outcome alike_data (to_dom_loop_o o k d) (to_dom_loop_o o' k d').
Proof.
  induction k as [|k IH]; intros o o' d d' F F' H; cbn [to_dom_loop_o]; [easy|].
  apply bind_alike with alike_data; [now apply to_dom_step_alike; auto|]. intros x x' Hx. apply IH; auto.
Qed.
Lemma to_dom_alike o o' t t' : fair o -> fair o' -> alike_tree t t' ->
  alike_outcome alike (pt_to_dom_o o t) (pt_to_dom_o o' t').
Proof.
  intros F F' [H E]. unfold pt_to_dom_o. rewrite <- (data_len _ _ H). inversion H as [|x y d d' Hxy Hd E1 E2]; [now left|].
  rewrite E1, E2. apply bind_alike with alike_data; [now apply to_dom_loop_alike; auto|].
  intros r r' Hr. apply bind_alike with alike_pt; [now apply unwrap_get|]. intros p p' Hp.
  apply bind_alike with alike; [now apply alike_expect, as_element_alike, Hp|]. intros e e' He. now apply reverse_alike.
Qed.
Lemma parse_attrs_ok comps buffer pos : forall acc m, map_ok acc -> parse_attrs comps buffer pos acc = Ok m -> map_ok m.
Proof.
  induction comps as [|kv comps IH]; intros acc m H E; cbn [parse_attrs] in E; [congruence|].
  destruct (negb (contains (lit "=") kv)); [discriminate|]. apply bind_ok in E as (kv' & _ & E).
  cbv zeta in E. destruct (blen (snd kv') =? 0); [discriminate|].
  match type of E with (if ?c then _ else _) = _ => destruct c; [discriminate|] end.
  apply bind_ok in E as (v1 & _ & E). apply bind_ok in E as (v2 & _ & E). apply IH in E; [easy|]. now apply nodup_aset.
Qed.
Lemma new_element_alike o o' tag buffer pos p p' : fair o -> fair o' -> alike_option alike p p' ->
  alike_outcome alike (parse_new_element_o o tag buffer pos p) (parse_new_element_o o' tag buffer pos p').
Proof.
  intros F F' Hp. unfold parse_new_element_o. destruct (join_spaced_attributes _) as [|nm comps]; [now left|].
  apply bind_same. intros attrs Ha.
  assert (match p with None => None | Some q => default_namespace q end = match p' with None => None | Some q => default_namespace q end) as <-
    by (destruct p, p'; try easy; now apply default_alike).
  apply bind_alike with eq.
  - destruct (split_once cColon nm) as [[a b]|]; [|easy]. destruct (ahas _ attrs); [easy|].
    destruct p as [q|], p' as [q'|]; cbn [alike_option] in Hp; try easy; [|now left].
    cbn [alike_outcome]. unfold get_namespace_context. now rewrite (same_map_get _ _ (ctx_alike _ _ Hp)).
  - intros [[n x] pf] ? <-. apply bind_alike with alike.
    + apply element_new_alike; auto; cbn; [|easy]. apply same_map_refl. eapply parse_attrs_ok; [|exact Ha]. constructor.
    + intros e e' He. cbn. apply set_ns_alike; auto.
      destruct p, p'; cbn in *; try easy. now apply ctx_alike.
Qed.
Lemma tag_name_alike e e' : alike e e' -> tag_name e = tag_name e'.
Proof. intro H. apply alike_inv in H as (A & _ & C & _). unfold tag_name. now rewrite A, C. Qed.
Lemma parse_tag_alike o o' buffer slc pos t t' : fair o -> fair o' -> alike_tree t t' ->
  alike_outcome alike_tree (parse_tag_o o buffer slc pos t) (parse_tag_o o' buffer slc pos t').
Proof.
  intros F F' H. unfold parse_tag_o.
  destruct (starts_with (lit "<!--") slc && ends_with (lit "-->") slc).
  { destruct (4 <? _).
    - apply bind_same. intros c _. apply bind_same. intros c' _. apply alike_map_err, pt_append_alike; [easy|]. now apply an_leaf'.
    - destruct (4 =? _); [|now left]. apply bind_same. intros c _. apply pt_append_alike; [easy|]. now apply an_leaf'. }
  destruct (starts_with (lit "<![CDATA[") slc).
  { destruct (negb _); [now left|]. apply bind_same. intros c _. apply bind_same. intros c' _.
    apply alike_map_err, pt_append_alike; [easy|]. now apply an_leaf'. }
  destruct (starts_with (lit "<!") slc).
  { apply bind_same. intros w _. now left. }
  apply bind_same. intros tag _. apply bind_same. intros _ _.
  destruct (starts_with (lit "</") slc).
  - apply bind_alike with (alike_option alike); [now apply pt_top_alike|]. intros p p' Hp.
    destruct p as [q|], p' as [q'|]; cbn [alike_option] in Hp; try easy; [|now left].
    rewrite (tag_name_alike _ _ Hp). destruct (negb _); [now left|]. now apply pt_pop_alike.
  - apply bind_alike with (alike_option alike); [now apply pt_top_alike|]. intros p p' Hp.
    apply bind_alike with alike; [now apply new_element_alike|]. intros e e' He.
    destruct (ends_with (lit "/>") slc); [|now apply pt_push_alike].
    apply alike_map_err, pt_append_alike; [easy|]. now constructor.
Qed.
Lemma content_loop_alike fuel buffer sc : forall o o' span t t', fair o -> fair o' -> alike_tree t t' ->
  alike_outcome alike_tree (content_loop_o o fuel buffer sc span t) (content_loop_o o' fuel buffer sc span t').
Proof.
  induction fuel as [|fuel IH]; intros o o' span t t' F F' H; cbn [content_loop_o]; [easy|].
  apply bind_same. intros [[st|] en] _; [|easy]. destruct en as [en|]; [|now left]. destruct sc; [now left|].
  apply bind_same. intros txt _. apply bind_same. intros rt _.
  apply bind_alike with alike_tree.
  - destruct rt as [c|]; [|easy]. apply alike_map_err, pt_append_alike; [easy|]. now apply an_leaf'.
  - intros t1 t1' H1. apply bind_same. intros slc _.
    apply bind_alike with alike_tree; [now apply parse_tag_alike; auto|]. intros t2 t2' H2. now apply IH; auto.
Qed.
Lemma parse_alike o o' s : fair o -> fair o' -> alike_outcome alike_doc (parse_str_o o s) (parse_str_o o' s).
Proof.
  intros F F'. unfold parse_str_o. apply bind_same. intros [[decl dtds] span] _.
  apply bind_same. intros sl _. apply bind_same. intros tg _.
  apply bind_alike with alike; [now apply new_element_alike; auto|]. intros r r' Hr.
  assert (alike_tree pt_new pt_new) as H0 by (split; [constructor|easy]).
  apply bind_alike with alike_tree; [now apply pt_push_alike|]. intros t t' Ht.
  apply bind_alike with alike_tree; [destruct (ends_with _ sl); [now apply pt_pop_alike|easy]|]. intros t1 t1' H1.
  apply bind_alike with alike_tree; [now apply content_loop_alike; auto|]. intros t2 t2' H2.
  assert (pt_empty_stack t2 = pt_empty_stack t2') as -> by (unfold pt_empty_stack; now rewrite (proj2 H2)).
  destruct (negb _); [now left|]. apply bind_alike with alike; [now apply to_dom_alike; auto|].
  intros e e' He. cbn. easy.
Qed.

(** * Looking *)

Lemma forallb_perm {A} (p : A -> bool) l l' : Permutation l l' -> forallb p l = forallb p l'.
Proof.
  induction 1 as [|x l l' _ IH|x y l|l l' l'' _ IH1 _ IH2]; cbn [forallb]; [easy|now rewrite IH| |congruence].
  now rewrite !andb_assoc, (andb_comm (p y)).
Qed.
Lemma amap_eqb_order o m m' : fair o -> amap_eqb_o o m m' = amap_eqb m m'.
Proof.
  intro F. unfold amap_eqb_o, amap_eqb. specialize (F [] m). f_equal.
  - f_equal. now apply Permutation_length.
  - now apply forallb_perm.
Qed.
Lemma elem_eqb_order : forall e1 o e2, fair o -> elem_eqb_o o e1 e2 = elem_eqb e1 e2.
Proof.
  induction e1 as [e1 IH] using elem_ind'. intros o e2 F.
  destruct e1 as [n1 c1 a1 x1 p1 cx1], e2 as [n2 c2 a2 x2 p2 cx2]. cbn [elem_eqb elem_eqb_o].
  rewrite amap_eqb_order by auto. f_equal.
  cbn [e_children] in IH. assert (fair (within 1 o)) as F1 by auto. revert F1. generalize (within 1 o). clear o F. revert c2.
  induction c1 as [|n c1 IHc]; intros c2 o F; [easy|].
  assert (forall c, In (NElem c) c1 -> forall o e2, fair o -> elem_eqb_o o c e2 = elem_eqb c e2) as IH'
    by (intros c Hc; apply IH; now right).
  destruct n, c2 as [|[] c2]; try easy; rewrite (IHc IH' c2 (within 1 o)) by auto; try easy.
  rewrite (IH e ltac:(now left)) by auto. easy.
Qed.
Lemma attrs_to_string_order o m : fair o -> attrs_to_string_o o m = attrs_to_string m.
Proof. intro F. unfold attrs_to_string_o, attrs_to_string. now rewrite (sort_by_same (o [] m) m) by apply F. Qed.
Lemma elem_to_string_order : forall e o pre ind inl, fair o -> elem_to_string_o o pre ind inl e = elem_to_string pre ind inl e.
Proof.
  induction e as [e IH] using elem_ind'. intros o pre ind inl F. destruct e as [nm ch at_ ns px cx].
  cbn [elem_to_string elem_to_string_o]. rewrite attrs_to_string_order by auto.
  destruct ch as [|c0 rest]; [easy|]. destruct (_ && negb (is_element c0)); [easy|]. do 3 f_equal.
  cbn [e_children] in IH. assert (fair (within 1 o)) as F1 by auto. revert F1. generalize (within 1 o). clear o F.
  intros o F.
  match goal with |- (_ ++ _ ++ ?g (within 1 o) rest) ++ _ = (_ ++ _ ++ ?h rest) ++ _ =>
    enough (forall l, (forall c, In (NElem c) l -> In (NElem c) (c0 :: rest)) -> forall o, fair o -> g o l = h l) as Hg end.
  { rewrite (Hg rest) by (auto; intros c Hc; now right). destruct c0; try easy. now rewrite IH by (auto; now left). }
  clear o F. induction l as [|n l IHl]; intros Hi o F; [easy|].
  rewrite IHl by (auto; intros c Hc; apply Hi; now right).
  destruct n; try easy. rewrite IH by (auto; apply Hi; now left). easy.
Qed.
Lemma to_string_order o e i : fair o -> elem_to_string_with_indent_o o e i = elem_to_string_with_indent e i.
Proof.
  intro F. unfold elem_to_string_with_indent_o, elem_to_string_with_indent. now rewrite !elem_to_string_order.
Qed.
Lemma doc_to_string_order o d i : fair o -> doc_to_string_with_indent_o o d i = doc_to_string_with_indent d i.
Proof. intro F. unfold doc_to_string_with_indent_o, doc_to_string_with_indent. now rewrite to_string_order. Qed.

Lemma to_string_alike o o' e e' i : fair o -> fair o' -> alike e e' ->
  elem_to_string_with_indent_o o e i = elem_to_string_with_indent_o o' e' i.
Proof. intros F F' H. rewrite !to_string_order by easy. now apply same_serialization_with_indent, alike_elem_same. Qed.
Lemma doc_to_string_alike o o' d d' i : fair o -> fair o' -> alike_doc d d' ->
  doc_to_string_with_indent_o o d i = doc_to_string_with_indent_o o' d' i.
Proof.
  intros F F' (E1 & E2 & H). rewrite !doc_to_string_order by easy. apply doc_same_serialization.
  split; [easy|]. split; [easy|]. now apply alike_elem_same.
Qed.
Lemma eqb_alike o o' a a' b b' : fair o -> fair o' -> alike a a' -> alike b b' -> elem_eqb_o o a b = elem_eqb_o o' a' b'.
Proof.
  intros F F' Ha Hb. rewrite !elem_eqb_order by easy. pose proof (alike_ok _ _ Ha) as [A A']. pose proof (alike_ok _ _ Hb) as [B B'].
  apply alike_elem_same in Ha, Hb.
  destruct (elem_eqb a b) eqn:E, (elem_eqb a' b') eqn:E'; try easy.
  - apply elem_eqb_same in E; try easy. rewrite <- E'. symmetry. apply elem_eqb_same; try easy.
    apply elem_same_trans with a; [now apply elem_same_sym|]. now apply elem_same_trans with b.
  - apply elem_eqb_same in E'; try easy. rewrite <- E. apply elem_eqb_same; try easy.
    apply elem_same_trans with a'; [easy|]. apply elem_same_trans with b'; [easy|]. now apply elem_same_sym.
Qed.
Lemma prefixes_alike o o' e e' : fair o -> fair o' -> alike e e' ->
  alike_option same_map (namespace_prefixes_o o e) (namespace_prefixes_o o' e').
Proof.
  intros F F' H. unfold namespace_prefixes_o. apply alike_inv in H as (_ & _ & _ & Ha & _).
  pose proof (same_map_context _ _ (same_map_order o o' [] [] _ _ F F' Ha)) as Hm.
  destruct (xmlns_context_from_attributes (o [] _)) as [|x m], (xmlns_context_from_attributes (o' [] _)) as [|y m']; try easy.
  - destruct Hm as [_ P]. now apply Permutation_nil in P.
  - destruct Hm as [_ P]. apply Permutation_sym in P. now apply Permutation_nil in P.
Qed.

Lemma elem_text_alike : forall e e', alike e e' -> elem_text e = elem_text e'.
Proof.
  enough ((forall e e', alike e e' -> elem_text e = elem_text e') /\
    (forall n n', alike_node n n' -> match n, n' with NElem a, NElem b => elem_text a = elem_text b | NElem _, _ => False | _, _ => n = n' end) /\
    (forall l l', alike_list l l' -> forall nm at_ ns px cx nm' at' ns' px' cx',
       elem_text (mkElem nm l at_ ns px cx) = elem_text (mkElem nm' l' at' ns' px' cx'))) by easy.
  apply alike_ind3.
  - intros e1 e2 _ _ _ _ _ _ H. destruct e1, e2. apply H.
  - intros n H. destruct n; easy.
  - easy.
  - easy.
  - intros n1 n2 l1 l2 _ H _ IH nm at_ ns px cx nm' at' ns' px' cx'. specialize (IH nm at_ ns px cx nm' at' ns' px' cx').
    cbn [elem_text] in *. destruct n1, n2; try discriminate; try easy; try (injection H as <-); now rewrite ?H, IH.
Qed.
Lemma recursive_alike : forall e e', alike e e' -> Forall2 alike_node (children_recursive e) (children_recursive e').
Proof.
  intro e. induction e as [e IH] using elem_ind'. intros e' H. pose proof (kids_alike _ _ H) as Hk.
  destruct e as [nm ch at_ ns px cx], e' as [nm' ch' at' ns' px' cx']. cbn [children_recursive e_children] in *.
  apply Forall2_app; [easy|]. clear H. induction Hk as [|a b l l' Hab Hl IHl]; [constructor|].
  assert (forall c, In (NElem c) l -> forall e', alike c e' -> Forall2 alike_node (children_recursive c) (children_recursive e')) as IH'
    by (intros c Hc; apply IH; now right).
  apply an_inv in Hab as [(c & c' & -> & -> & Ha)|[-> Hb]].
  - apply Forall2_app; [apply IH; [now left|easy]|]. now apply IHl.
  - destruct b; try discriminate; now apply IHl.
Qed.
Lemma search_alike e e' p : alike e e' -> respects alike_node eq p -> Forall2 alike_node (Dom.search e p) (Dom.search e' p).
Proof. intros H Hp. apply forall2_filter; [apply Hp|now apply recursive_alike]. Qed.
Lemma map_expect_alike {A} (R : A -> A -> Prop) (f : node -> outcome A) l l' :
  (forall n n', alike_node n n' -> alike_outcome R (f n) (f n')) -> Forall2 alike_node l l' ->
  alike_outcome (Forall2 R) (map_expect f l) (map_expect f l').
Proof.
  intro Hf. induction 1 as [|a b l l' Hab Hl IH]; cbn [map_expect]; [constructor|].
  apply bind_alike with R; [now apply alike_expect, Hf|]. intros x y Hxy.
  apply bind_alike with (Forall2 R); [easy|]. intros r r' Hr. now constructor.
Qed.
Lemma is_element_respects : respects alike_node eq is_element.
Proof. intros n n'. apply an_is_element. Qed.
Lemma search_elements_alike e e' p : alike e e' -> respects alike eq p ->
  alike_outcome (Forall2 alike) (search_elements e p) (search_elements e' p).
Proof.
  intros H Hp. unfold search_elements. apply bind_alike with (Forall2 alike).
  - apply map_expect_alike; [apply as_element_alike|]. apply search_alike; [easy|apply is_element_respects].
  - intros l l' Hl. cbn. now apply forall2_filter.
Qed.
Lemma child_elements_alike e e' : alike e e' -> Forall2 alike (child_elements e) (child_elements e').
Proof.
  intro H. unfold child_elements. induction (kids_alike _ _ H) as [|a b l l' Hab Hl IH]; [constructor|].
  apply an_inv in Hab as [(c & c' & -> & -> & Ha)|[-> Hb]]; [now constructor|]. destruct b; try discriminate; easy.
Qed.
Lemma first_named_alike e e' n : alike e e' -> alike_outcome alike (first_element_by_name e n) (first_element_by_name e' n).
Proof.
  intro H. unfold first_element_by_name. induction (child_elements_alike _ _ H) as [|a b l l' Hab Hl IH]; [now left|].
  cbn [first_named]. unfold name. rewrite (proj1 (alike_inv _ _ Hab)). destruct (str_eqb _ n); easy.
Qed.

(** * Changing *)

Lemma set_attr_alike e e' k v : alike e e' ->
  fst (set_attr e k v) = fst (set_attr e' k v) /\ alike (snd (set_attr e k v)) (snd (set_attr e' k v)).
Proof.
  intro H. pose proof (alike_inv _ _ H) as (A & B & C & D & F & G). unfold set_attr.
  destruct (check_attr_name k); cbn; split; try easy. apply alike_intro; try easy. cbn. now apply same_map_aset.
Qed.
Lemma remove_attr_alike e e' k : alike e e' ->
  fst (remove_attr e k) = fst (remove_attr e' k) /\ alike (snd (remove_attr e k)) (snd (remove_attr e' k)).
Proof.
  intro H. pose proof (alike_inv _ _ H) as (A & B & C & D & F & G). unfold remove_attr. cbn. split.
  - now apply same_map_get.
  - apply alike_intro; try easy. cbn. now apply same_map_adel.
Qed.
Lemma clear_attributes_alike e e' : alike e e' -> alike (clear_attributes e) (clear_attributes e').
Proof.
  intro H. pose proof (alike_inv _ _ H) as (A & B & C & D & F & G). apply alike_intro; try easy. cbn. split; constructor.
Qed.

Lemma set_text_alike o o' e e' t : fair o -> fair o' -> alike e e' ->
  alike_outcome alike (set_text_o o e t) (set_text_o o' e' t).
Proof.
  intros F F' H. unfold set_text_o. apply append_alike; auto; [|now apply an_leaf'].
  apply set_children_alike; [easy|constructor].
Qed.
Lemma remove_alike e e' i : alike e e' -> alike_outcome (alike_pair alike_node alike) (remove e i) (remove e' i).
Proof.
  intro H. unfold remove. pose proof (kids_alike _ _ H) as Hk. rewrite <- (forall2_len _ _ _ Hk).
  destruct (_ <=? i); [now left|]. apply bind_alike with (alike_pair alike_node (Forall2 alike_node)); [now apply vremove_alike|].
  intros r r' [H1 H2]. cbn. split; [easy|]. now apply set_children_alike.
Qed.
Lemma remove_element_alike e e' i : alike e e' ->
  alike_outcome (alike_pair alike alike) (remove_element e i) (remove_element e' i).
Proof.
  intro H. unfold remove_element. pose proof (kids_alike _ _ H) as Hk. rewrite <- (element_indices_alike _ _ Hk).
  destruct (_ <=? i); [now left|]. apply bind_same. intros j _.
  apply bind_alike with (alike_pair alike_node (Forall2 alike_node)); [now apply vremove_alike|].
  intros r r' [H1 H2]. apply bind_alike with alike; [now apply alike_expect, as_element_alike|].
  intros c c' Hc. rewrite !clone_id. cbn. split; [easy|]. now apply set_children_alike.
Qed.
Lemma remove_by_alike e e' p : alike e e' -> respects alike_node eq p ->
  alike_outcome (alike_pair alike eq) (remove_by e p) (remove_by e' p).
Proof.
  intros H Hp. rewrite !remove_by_eq. pose proof (kids_alike _ _ H) as Hk. cbn. split; cbn.
  - apply set_children_alike; [easy|]. apply forall2_filter; [|easy]. intros a b Hab. now rewrite (Hp _ _ Hab).
  - eapply forall2_len. apply forall2_filter; [|exact Hk]. exact Hp.
Qed.
Lemma elem_pred_respects p : respects alike eq p -> respects alike_node eq (elem_pred p).
Proof.
  intros Hp n n' H. apply an_inv in H as [(e & e' & -> & -> & Ha)|[-> Hb]]; [|easy]. now apply Hp.
Qed.
Lemma remove_elements_alike e e' p : alike e e' -> respects alike eq p ->
  alike_outcome (alike_pair alike eq) (remove_elements e p) (remove_elements e' p).
Proof.
  intros H Hp. change (remove_elements e p) with (remove_by e (fun n => if is_element n then elem_pred p n else false)).
  change (remove_elements e' p) with (remove_by e' (fun n => if is_element n then elem_pred p n else false)).
  apply remove_by_alike; [easy|]. intros n n' Hn. rewrite (an_is_element _ _ Hn), (elem_pred_respects p Hp _ _ Hn). easy.
Qed.
Lemma pruned_alike p l l1 k : respects alike_node eq p -> pruned p l l1 k -> forall l', Forall2 alike_node l l' ->
  exists l1', pruned p l' l1' k /\ Forall2 alike_node l1 l1'.
Proof.
  intro Hp. induction 1 as [|n l l' k Pn H IH|n l l' k Pn Hn H IH|e ch' l l' k1 k2 Pn Hc IHc H IH]; intros m Hm.
  - inversion Hm; subst. exists []. split; constructor.
  - inversion Hm as [|? b ? m' Hab Hm']; subst. destruct (IH _ Hm') as (l1' & A & B). exists l1'. split; [|easy].
    constructor; [|easy]. now rewrite <- (Hp _ _ Hab).
  - inversion Hm as [|? b ? m' Hab Hm']; subst. destruct (IH _ Hm') as (l1' & A & B).
    assert (n = b) as <-. { apply an_inv in Hab as [(c & c' & -> & _)|[-> _]]; [|easy]. now destruct (Hn c). }
    exists (n :: l1'). split; [now constructor|]. now constructor.
  - inversion Hm as [|? b ? m' Hab Hm']; subst. destruct (IH _ Hm') as (l1' & A & B).
    pose proof (Hp _ _ Hab) as Pb. apply an_inv in Hab as [(c & c' & E & -> & Ha)|[_ E]]; [|discriminate].
    injection E as <-. destruct (IHc _ (kids_alike _ _ Ha)) as (ch2 & C & D).
    exists (NElem (set_children c' ch2) :: l1'). split; [constructor; try easy; now rewrite <- Pb|].
    constructor; [|easy]. constructor. now apply set_children_alike.
Qed.
Lemma remove_all_alike e e' p : alike e e' -> respects alike_node eq p ->
  alike_outcome (alike_pair alike eq) (remove_all p e) (remove_all p e').
Proof.
  intros H Hp. destruct (remove_all_pruned p e) as (l & k & -> & Hl). destruct (remove_all_pruned p e') as (l' & k' & -> & Hl').
  destruct (pruned_alike _ _ _ _ Hp Hl _ (kids_alike _ _ H)) as (l2 & A & B).
  destruct (pruned_fun _ _ _ _ Hl' _ _ A) as [-> ->]. cbn. split; [|easy]. now apply set_children_alike.
Qed.
Lemma children_mut_alike e e' f : alike e e' -> respects alike_node alike_node f -> alike (children_mut e f) (children_mut e' f).
Proof.
  intros H Hf. apply set_children_alike; [easy|]. induction (kids_alike _ _ H); constructor; auto.
Qed.
Lemma update_elements_alike p f l l' : respects alike eq p -> respects alike alike f -> Forall2 alike_node l l' ->
  Forall2 alike_node (update_elements p f l) (update_elements p f l').
Proof.
  intros Hp Hf. induction 1 as [|a b l l' Hab Hl IH]; [constructor|].
  apply an_inv in Hab as [(c & c' & -> & -> & Ha)|[-> Hb]]; cbn [update_elements].
  - constructor; [|easy]. constructor. rewrite (Hp _ _ Ha). destruct (p c'); auto.
  - destruct b; try discriminate; (constructor; [now apply an_leaf'|easy]).
Qed.
Lemma name_respects n : respects alike eq (fun c => str_eqb (e_name c) n).
Proof. intros c c' H. now rewrite (proj1 (alike_inv _ _ H)). Qed.
Lemma update_first_alike n f l l' : respects alike (alike_outcome alike) f -> Forall2 alike_node l l' ->
  alike_outcome (Forall2 alike_node) (update_first_named n f l) (update_first_named n f l').
Proof.
  intro Hf. induction 1 as [|a b l l' Hab Hl IH]; cbn [update_first_named]; [now left|].
  apply an_inv in Hab as [(c & c' & -> & -> & Ha)|[-> Hb]].
  - unfold name. rewrite (proj1 (alike_inv _ _ Ha)). destruct (str_eqb _ n).
    + apply bind_alike with alike; [now apply Hf|]. intros x y Hxy. constructor; [now constructor|easy].
    + apply bind_alike with (Forall2 alike_node); [easy|]. intros x y Hxy. constructor; [now constructor|easy].
  - destruct b; try discriminate; (apply bind_alike with (Forall2 alike_node); [easy|]);
      intros x y Hxy; (constructor; [now apply an_leaf'|easy]).
Qed.

(** * Programs *)

Lemma run_alike : forall s o o', fair o -> fair o' -> alike_outcome alike (run o s) (run o' s).
Proof.
  enough ((forall s o o', fair o -> fair o' -> alike_outcome alike (run o s) (run o' s)) /\
    (forall n o o', fair o -> fair o' -> alike_outcome alike_node (run_piece o n) (run_piece o' n)) /\
    (forall l o o', fair o -> fair o' -> alike_outcome (Forall2 alike_node) (run_pieces o l) (run_pieces o' l))) by easy.
  apply program_ind3; intros; cbn [run run_piece run_pieces];
    try match goal with |- alike_outcome _ (bind (run _ _) _) _ => apply bind_alike with alike; [now auto|]; intros e e' He end.
  - apply element_new_alike; auto; [|easy]. destruct attrs; [|easy]. apply same_map_refl. auto.
  - apply bind_alike with (Forall2 alike_node); [now auto|]. intros r r' Hr. apply element_new_alike; auto.
    destruct attrs; [|easy]. apply same_map_refl. auto.
  - unfold new_from_name. apply bind_same. intros _ _. cbn. apply alike_intro; cbn; try easy; try (split; constructor).
  - apply bind_alike with alike_doc; [now apply parse_alike; auto|]. intros d d' (_ & _ & Hd). exact Hd.
  - apply bind_alike with alike_node; [now auto|]. intros r r' Hr. apply append_alike; auto.
  - apply bind_alike with (Forall2 alike_node); [now auto|]. intros r r' Hr. apply append_all_alike; auto.
  - apply bind_alike with alike_node; [now auto|]. intros r r' Hr. apply insert_alike; auto.
  - apply set_text_alike; auto.
  - apply set_children_alike; [easy|constructor].
  - destruct (set_attr_alike e e' k v He) as [-> Hs]. apply bind_same. intros _ _. exact Hs.
  - now apply remove_attr_alike.
  - now apply clear_attributes_alike.
  - apply bind_alike with (alike_pair alike_node alike); [now apply remove_alike|]. intros r r' Hr. apply Hr.
  - apply bind_alike with (alike_pair alike alike); [now apply remove_element_alike|]. intros r r' Hr. apply Hr.
  - apply bind_alike with (alike_pair alike eq); [now apply remove_by_alike|]. intros r r' Hr. apply Hr.
  - apply bind_alike with (alike_pair alike eq); [now apply remove_elements_alike|]. intros r r' Hr. apply Hr.
  - apply bind_alike with (alike_pair alike eq); [apply remove_elements_alike; [easy|apply name_respects]|]. intros r r' Hr. apply Hr.
  - apply bind_alike with (alike_pair alike eq); [now apply remove_all_alike|]. intros r r' Hr. apply Hr.
  - rewrite !remove_all_elements_eq.
    apply bind_alike with (alike_pair alike eq); [apply remove_all_alike; [easy|now apply elem_pred_respects]|]. intros r r' Hr. apply Hr.
  - now apply children_mut_alike.
  - apply set_children_alike; [easy|]. apply update_elements_alike; [apply name_respects|easy|now apply kids_alike].
  - apply bind_alike with (Forall2 alike_node); [apply update_first_alike; [easy|now apply kids_alike]|].
    intros r r' Hr. now apply set_children_alike.
  - now apply first_named_alike.
  - apply bind_alike with (alike_pair alike alike); [now apply remove_element_alike|]. intros r r' Hr. apply Hr.
  - cbn. now rewrite !clone_id.
  - now apply an_leaf.
  - now constructor.
  - constructor.
  - apply bind_alike with alike_node; [now auto|]. intros r r' Hr.
    apply bind_alike with (Forall2 alike_node); [now auto|]. intros x x' Hx. now constructor.
Qed.

(** * The order of the lists *)

Definition list_order : order := fun _ m => m.
Lemma list_order_fair : fair list_order.
Proof. intros p m. apply Permutation_refl. Qed.
Lemma set_ns_list e df p : set_namespace_context_o list_order e df p = set_namespace_context e df p.
Proof. unfold set_namespace_context_o. now destruct p. Qed.
Lemma append_list e n : append_o list_order e n = append e n.
Proof. unfold append_o, append. now destruct n. Qed.
Lemma apply_at_list df c idx : forall l, apply_at_o list_order df c idx l = apply_at df c idx l.
Proof.
  induction idx as [|i idx IH]; intro l; cbn [apply_at_o apply_at]; [easy|].
  destruct (vget l i) as [n| | |]; cbn [bind]; try easy.
  change (within 0 list_order) with list_order. change (within 1 list_order) with list_order.
  assert (apply_xmlns_context_o list_order df c n = apply_xmlns_context df c n) as -> by now destruct n.
  destruct (vset l i _); cbn [bind]; easy.
Qed.
Lemma append_all_list e l : append_all_o list_order e l = append_all e l.
Proof.
  unfold append_all_o, append_all. destruct (push_recording _ _ _ _). now rewrite apply_at_list.
Qed.
Lemma insert_list e i n : insert_o list_order e i n = insert e i n.
Proof.
  unfold insert_o, insert. destruct (_ <? i); [easy|]. destruct (vinsert _ i n) as [l| | |]; cbn [bind]; try easy.
Qed.
Lemma element_new_list nm text a x p l : element_new_o list_order nm text a x p l = element_new nm text a x p l.
Proof.
  unfold element_new_o, element_new. destruct (check_elem_name nm); cbn [bind]; try easy. unfold list_order at 1.
  destruct (match a with None => Ok [] | Some m => convert_attrs m [] end) as [m| | |]; cbn [bind]; try easy.
  change (within 2 list_order) with list_order. change (within 3 list_order) with list_order.
  cbv zeta. change (list_order [1] m) with m.
  destruct text; [rewrite append_list|]; (destruct l; [|easy]); repeat (match goal with |- bind ?x _ = _ => destruct x end; cbn [bind]; try easy); apply append_all_list.
Qed.
Lemma new_element_list tag b pos p : parse_new_element_o list_order tag b pos p = parse_new_element tag b pos p.
Proof.
  unfold parse_new_element_o, parse_new_element. destruct (join_spaced_attributes _) as [|nm comps]; [easy|].
  destruct (parse_attrs _ _ _ _) as [attrs| | |]; cbn [bind]; try easy.
  match goal with |- bind ?x _ = bind ?x _ => destruct x as [[[n x1] pf]| | |] end; cbn [bind]; try easy.
  change (within 0 list_order) with list_order. change (within 1 list_order) with list_order. rewrite element_new_list.
  destruct (element_new _ _ _ _ _ _); cbn [bind]; try easy. now rewrite set_ns_list.
Qed.
Lemma to_dom_list t : pt_to_dom_o list_order t = pt_to_dom t.
Proof.
  unfold pt_to_dom_o, pt_to_dom. destruct (t_data t) as [|x d]; [easy|].
  enough (forall k d, to_dom_loop_o list_order k d = to_dom_loop k d) as -> by easy.
  induction k as [|k IH]; intro d'; [easy|]. cbn [to_dom_loop_o to_dom_loop].
  change (within 0 list_order) with list_order. change (within 1 list_order) with list_order.
  assert (to_dom_step_o list_order (S k) d' = to_dom_step (S k) d') as ->.
  { unfold to_dom_step_o, to_dom_step. repeat (match goal with |- bind ?x _ = bind ?x _ => destruct x end; cbn [bind]; try easy).
    }
  destruct (to_dom_step _ _); cbn [bind]; easy.
Qed.
Lemma parse_tag_list b slc pos t : parse_tag_o list_order b slc pos t = parse_tag b slc pos t.
Proof.
  unfold parse_tag_o, parse_tag. repeat (match goal with |- (if ?c then _ else _) = _ => destruct c; [easy|] end).
  destruct (strip_tag slc); cbn [bind]; try easy. destruct (map_err _ _); cbn [bind]; try easy.
  destruct (starts_with (lit "</") slc); [easy|]. destruct (pt_top_element t); cbn [bind]; try easy.
  now rewrite new_element_list.
Qed.
Lemma content_loop_list fuel b sc : forall span t, content_loop_o list_order fuel b sc span t = content_loop fuel b sc span t.
Proof.
  induction fuel as [|fuel IH]; intros span t; [easy|]. cbn [content_loop_o content_loop].
  destruct (next_tag _ _) as [[[st|] [en|]]| | |]; cbn [bind]; try easy. destruct sc; [easy|].
  change (within 0 list_order) with list_order. change (within 1 list_order) with list_order.
  repeat (match goal with |- bind ?x _ = bind ?x _ => destruct x end; cbn [bind]; try easy).
  rewrite parse_tag_list. match goal with |- bind ?x _ = bind ?x _ => destruct x end; cbn [bind]; try easy.
Qed.
Lemma parse_list s : parse_str_o list_order s = parse_str s.
Proof.
  unfold parse_str_o, parse_str. destruct (prolog_loop _ _ _ _ _ _) as [[[decl dtds] span]| | |]; cbn [bind]; try easy.
  change (within 0 list_order) with list_order. change (within 1 list_order) with list_order. change (within 2 list_order) with list_order.
  repeat (match goal with |- bind ?x _ = bind ?x _ => destruct x end; cbn [bind]; try easy).
  rewrite new_element_list.
  repeat (match goal with |- bind ?x _ = bind ?x _ => destruct x end; cbn [bind]; try easy).
  rewrite content_loop_list.
  match goal with |- bind ?x _ = bind ?x _ => destruct x end; cbn [bind]; try easy.
  destruct (negb _); [easy|]. now rewrite to_dom_list.
Qed.
Lemma parse_any_order o s : fair o -> alike_outcome alike_doc (parse_str_o o s) (parse_str s).
Proof. intro F. rewrite <- parse_list. now apply parse_alike, list_order_fair. Qed.

(** * The name that is reported *)

Definition key_first (k : str) : order := fun _ m =>
  filter (fun kv => str_eqb (fst kv) k) m ++ filter (fun kv => negb (str_eqb (fst kv) k)) m.
Lemma key_first_fair k : fair (key_first k).
Proof.
  intros p m. unfold key_first. induction m as [|x m IH]; [constructor|]. cbn [filter].
  destruct (str_eqb (fst x) k); cbn [negb app]; [now constructor|].
  apply Permutation_sym, Permutation_cons_app, Permutation_sym, IH.
Qed.
Lemma key_first_convert k v m : In (k, v) m -> ~ valid_name k -> forall p,
  convert_attrs (key_first k p m) [] = Err (InvalidAttributeName k).
Proof.
  intros Hi Hn p. unfold key_first.
  assert (In (k, v) (filter (fun kv => str_eqb (fst kv) k) m)) as Hf by (apply filter_In; split; [easy|apply str_eqb_refl]).
  destruct (filter (fun kv => str_eqb (fst kv) k) m) as [|[k1 v1] r] eqn:E; [easy|].
  assert (In (k1, v1) (filter (fun kv => str_eqb (fst kv) k) m)) as H1 by (rewrite E; now left).
  apply filter_In in H1 as [_ H1]. cbn [fst] in H1. apply str_eqb_eq in H1. subst k1. cbn [app convert_attrs].
  unfold check_attr_name. apply name_regex_false in Hn. now rewrite Hn.
Qed.
Lemma any_bad_name nm text m k v xmlns prefix l : valid_name nm -> In (k, v) m -> ~ valid_name k ->
  exists o, fair o /\ element_new_o o nm text (Some m) xmlns prefix l = Err (InvalidAttributeName k).
Proof.
  intros Hv Hi Hn. exists (key_first k). split; [apply key_first_fair|]. unfold element_new_o, check_elem_name.
  apply name_regex_spec in Hv. rewrite Hv. cbn [bind]. now rewrite (key_first_convert k v m).
Qed.
Lemma apply_at_total df c l : forall o pre, exists r, apply_at_o o df c (element_indices l (List.length pre)) (pre ++ l) = Ok r.
Proof.
  induction l as [|n l IH]; intros o pre; cbn [element_indices]; [cbn; eauto|].
  assert (forall x : node, S (List.length pre) = List.length (pre ++ [x])) as E by (intro; rewrite app_length; cbn; lia).
  destruct (is_element n).
  - cbn [apply_at_o]. rewrite vget_app. cbn [bind]. rewrite vset_app. cbn [bind].
    rewrite (E (apply_xmlns_context_o (within 0 o) df c n)).
    destruct (IH (within 1 o) (pre ++ [apply_xmlns_context_o (within 0 o) df c n])) as [r Hr]. exists r.
    rewrite <- Hr. now rewrite <- app_assoc.
  - rewrite (E n). destruct (IH o (pre ++ [n])) as [r Hr]. exists r. rewrite <- Hr. now rewrite <- app_assoc.
Qed.
Lemma append_all_total o e l : exists r, append_all_o o e l = Ok r.
Proof.
  unfold append_all_o. rewrite push_recording_ok. cbn [app].
  destruct (apply_at_total (default_namespace e) (e_context e) l o (e_children e)) as [r ->]. cbn [bind].
  rewrite cleanup_clean. cbn [bind]. eauto.
Qed.
Lemma bad_name_only o nm text m xmlns prefix l x : fair o -> element_new_o o nm text (Some m) xmlns prefix l = Err x ->
  x = InvalidElementName nm /\ ~ valid_name nm \/
  exists k v, x = InvalidAttributeName k /\ In (k, v) m /\ ~ valid_name k.
Proof.
  intros F E. unfold element_new_o, check_elem_name in E. destruct (name_regex nm) eqn:En; cbn [bind] in E.
  - right. destruct (forallb (fun kv => name_regex (fst kv)) m) eqn:Ef.
    + exfalso. rewrite forallb_forall in Ef. rewrite convert_attrs_ok in E.
      2: { intros k v Hi. apply name_regex_spec, (Ef (k, v)). now apply Permutation_in with (o [0] m). }
      cbn [bind] in E. destruct text.
      * unfold append_o in E. rewrite cleanup_clean in E. cbn [bind] in E. destruct l; [|discriminate].
        match type of E with append_all_o ?o1 ?e1 ?l1 = _ =>
          assert (exists r, append_all_o o1 e1 l1 = Ok r) as [r Er]; [|congruence] end.
        apply append_all_total.
      * cbn [bind] in E. destruct l; [|discriminate].
        match type of E with append_all_o ?o1 ?e1 ?l1 = _ =>
          assert (exists r, append_all_o o1 e1 l1 = Ok r) as [r Er]; [|congruence] end.
        apply append_all_total.
    + assert (exists k v, In (k, v) (o [0] m) /\ ~ valid_name k) as Hx.
      { clear E. assert (forallb (fun kv => name_regex (fst kv)) (o [0] m) = false) as Eo by (rewrite <- Ef; apply forallb_perm, F).
        clear Ef. induction (o [0] m) as [|[k v] r IH]; [discriminate|]. cbn [forallb fst] in Eo. apply andb_false_iff in Eo as [Eo|Eo].
        - exists k, v. split; [now left|]. now apply name_regex_false.
        - destruct (IH Eo) as (k' & v' & Hi & Hn). exists k', v'. split; [now right|easy]. }
      destruct (convert_attrs_bad _ Hx []) as (k & v & Hi & Hn & Ec). rewrite Ec in E. cbn [bind] in E.
      exists k, v. split; [congruence|]. split; [|easy]. now apply Permutation_in with (o [0] m).
  - left. split; [congruence|]. now apply name_regex_false.
Qed.

(** * Summaries *)

Lemma seen_alike e e' : alike e e' ->
  name e = name e' /\ namespace e = namespace e' /\ namespace_prefix e = namespace_prefix e' /\
  default_namespace e = default_namespace e' /\ tag_name e = tag_name e' /\
  (forall k, get_attr e k = get_attr e' k) /\ Permutation (attributes e) (attributes e') /\
  elem_text e = elem_text e' /\ elem_hash_input e = elem_hash_input e' /\
  Forall2 alike_node (children e) (children e') /\ Forall2 alike (child_elements e) (child_elements e') /\
  Forall2 alike_node (children_recursive e) (children_recursive e').
Proof.
  intro H. pose proof (alike_inv _ _ H) as (A & B & C & D & F & G).
  repeat split; try easy.
  - now apply default_alike.
  - now apply tag_name_alike.
  - intro k. now apply same_map_get.
  - apply D.
  - now apply elem_text_alike.
  - unfold elem_hash_input. now rewrite A, B.
  - now apply child_elements_alike.
  - now apply recursive_alike.
Qed.
Lemma found_alike e e' p : alike e e' -> respects alike_node eq p ->
  Forall2 alike_node (Dom.search e p) (Dom.search e' p) /\
  match remove_by e p, remove_by e' p with Ok (r, k), Ok (r', k') => alike r r' /\ k = k' | _, _ => False end /\
  match remove_all p e, remove_all p e' with Ok (r, k), Ok (r', k') => alike r r' /\ k = k' | _, _ => False end.
Proof.
  intros H Hp. split; [now apply search_alike|]. split.
  - pose proof (remove_by_alike _ _ _ H Hp) as X. rewrite !remove_by_eq in *. exact X.
  - pose proof (remove_all_alike _ _ _ H Hp) as X. destruct (remove_all_pruned p e) as (l & k & E & _).
    destruct (remove_all_pruned p e') as (l' & k' & E' & _). rewrite E, E' in *. exact X.
Qed.
Lemma alike_equivalence : (forall e, elem_ok e <-> alike e e) /\ (forall a b, alike a b -> alike b a) /\
  (forall a b c, alike a b -> alike b c -> alike a c).
Proof.
  split; [intro e; split; [apply alike_refl|intro H; now apply alike_ok in H]|]. split; [apply alike_sym|].
  intros a b c H. now apply alike_trans.
Qed.
Lemma reported_name nm text m xmlns prefix l : valid_name nm ->
  forall k, (exists o, fair o /\ element_new_o o nm text (Some m) xmlns prefix l = Err (InvalidAttributeName k)) <->
            (exists v, In (k, v) m /\ ~ valid_name k).
Proof.
  intros Hn k. split.
  - intros (o & F & E). apply bad_name_only in E as [[E _]|(k' & v & E & Hi & Hk)]; [discriminate| |easy].
    injection E as <-. now exists v.
  - intros (v & Hi & Hk). now apply any_bad_name with v.
Qed.

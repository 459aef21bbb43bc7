(** Congruence of the calls, for alike trees and for equal ones. *)
From Coq Require Import List NArith Arith Bool Ascii String Lia Permutation.
From Verif Require Import Base Escape Dom BaseFacts Spec SpecDom SpecApi DomFacts ApiFacts SerFacts Orders SpecOrders OrdersFacts SpecTell.
Import ListNotations.

Lemma sbind {A B} (R : A -> A -> Prop) (S : B -> B -> Prop) x y f g :
  same_outcome R x y -> (forall a b, R a b -> same_outcome S (f a) (g b)) -> same_outcome S (bind x f) (bind y g).
Proof. intros H1 H2. destruct x, y; cbn in *; try easy. now apply H2. Qed.

Section Congruence.
Variable R : elem -> elem -> Prop.
Hypothesis R_kids : forall e e', R e e' -> Forall2 (lifted R) (e_children e) (e_children e').
Hypothesis R_name : forall e e', R e e' -> e_name e = e_name e'.
Hypothesis R_children : forall e e' l l', R e e' -> Forall2 (lifted R) l l' -> R (set_children e l) (set_children e' l').
Hypothesis R_aset : forall e e' k v, R e e' -> R (set_attributes e (aset k v (e_attributes e))) (set_attributes e' (aset k v (e_attributes e'))).
Hypothesis R_adel : forall e e' k, R e e' -> R (set_attributes e (adel k (e_attributes e))) (set_attributes e' (adel k (e_attributes e'))).
Hypothesis R_none : forall e e', R e e' -> R (set_attributes e []) (set_attributes e' []).
Hypothesis R_inherited : forall e e' n n', R e e' -> lifted R n n' -> lifted R (inherited e n) (inherited e' n').

Lemma lifted_inv n n' : lifted R n n' -> (exists e e', n = NElem e /\ n' = NElem e' /\ R e e') \/ (n = n' /\ forall e, n <> NElem e).
Proof. destruct n, n'; cbn; try easy; intro H; try (right; now split). left. eauto. Qed.
Lemma lifted_leaf n : (forall e, n <> NElem e) -> lifted R n n.
Proof. destruct n as [e|s|s|s]; cbn; try easy. intro H. now destruct (H e). Qed.
Lemma clean_lifted l l' : Forall2 (lifted R) l l' -> Forall2 (lifted R) (clean l) (clean l').
Proof.
  intro H. unfold clean. apply forall2_filter.
  { intros a b Hab. apply lifted_inv in Hab as [(e & e' & -> & -> & _)|[-> _]]; easy. }
  unfold merge_text. induction H as [|a b l l' Hab Hl IH]; cbn [fold_right]; [constructor|].
  apply lifted_inv in Hab as [(e & e' & -> & -> & Ha)|[-> Hb]].
  - unfold merge1. constructor; [easy|easy].
  - destruct IH as [|c d r r' Hcd Hr].
    + replace (merge1 b []) with [b] by now destruct b. constructor; [now apply lifted_leaf|constructor].
    + destruct b as [e|s|s|s]; [now destruct (Hb e)| | |]; cbn [merge1].
      * apply lifted_inv in Hcd as [(e & e' & -> & -> & Ha)|[-> Hd]].
        -- constructor; [easy|]. constructor; [easy|easy].
        -- destruct d as [e|t|t|t]; [now destruct (Hd e)| | |]; (constructor; [easy|]); try easy; (constructor; [easy|easy]).
      * constructor; [easy|]. now constructor.
      * constructor; [easy|]. now constructor.
Qed.
Lemma forall2_firstn {A} (P : A -> A -> Prop) i : forall l l', Forall2 P l l' -> Forall2 P (firstn i l) (firstn i l').
Proof. induction i as [|i IH]; intros l l' H; [constructor|]. destruct H; cbn; constructor; auto. Qed.
Lemma forall2_skipn {A} (P : A -> A -> Prop) i : forall l l', Forall2 P l l' -> Forall2 P (skipn i l) (skipn i l').
Proof. induction i as [|i IH]; intros l l' H; [easy|]. destruct H; cbn; [constructor|auto]. Qed.

Lemma append_all_same e e' l l' : R e e' -> Forall2 (lifted R) l l' -> same_outcome R (append_all e l) (append_all e' l').
Proof.
  intros H Hl. rewrite !append_all_eq. cbn. apply R_children; [easy|]. apply clean_lifted, Forall2_app; [now apply R_kids|].
  induction Hl as [|n n' l l' Hn Hl IH]; cbn; constructor; auto.
Qed.
Lemma append_same e e' n n' : R e e' -> lifted R n n' -> same_outcome R (append e n) (append e' n').
Proof.
  intros H Hn. rewrite !append_eq. cbn. apply R_children; [easy|]. apply clean_lifted, Forall2_app; [now apply R_kids|].
  constructor; auto.
Qed.
Lemma insert_shape e i n : i <= List.length (e_children e) -> exists front last,
  firstn i (e_children e) ++ n :: skipn i (e_children e) = front ++ [last] /\
  insert e i n = Ok (set_children e (clean (front ++ [inherited e last]))).
Proof.
  intro L. destruct (exists_last_or (firstn i (e_children e) ++ n :: skipn i (e_children e))) as [F|(front & last & F)].
  { now destruct (firstn i (e_children e)). }
  exists front, last. split; [easy|]. assert (Hi : i = List.length (firstn i (e_children e))) by (rewrite firstn_length; lia).
  rewrite Hi at 1. apply insert_eq with (b := skipn i (e_children e)); [|exact F]. now rewrite firstn_skipn.
Qed.
Lemma insert_same e e' i n n' : R e e' -> lifted R n n' -> same_outcome R (insert e i n) (insert e' i n').
Proof.
  intros H Hn. pose proof (R_kids _ _ H) as Hk. pose proof (forall2_len _ _ _ Hk) as L.
  destruct (le_lt_dec i (List.length (e_children e))) as [Hi|Hi].
  2: { rewrite !insert_out_of_bounds by lia. cbn. now rewrite L. }
  destruct (insert_shape e i n Hi) as (f & x & E1 & ->). destruct (insert_shape e' i n') as (f' & x' & E2 & ->); [lia|].
  assert (X : Forall2 (lifted R) (f ++ [x]) (f' ++ [x'])).
  { rewrite <- E1, <- E2. apply Forall2_app; [now apply forall2_firstn|]. constructor; [easy|now apply forall2_skipn]. }
  apply Forall2_app_inv_l in X as (a & b & X1 & X2 & E). inversion X2 as [|? y ? z Hy Hz]; subst. inversion Hz; subst.
  apply app_inj_tail in E as [-> ->]. cbn. apply R_children; [easy|]. apply clean_lifted, Forall2_app; [easy|]. constructor; auto.
Qed.
Lemma forall2_split {A} (P : A -> A -> Prop) i : forall l l', Forall2 P l l' -> i < List.length l ->
  exists a x b a' x' b', l = a ++ x :: b /\ l' = a' ++ x' :: b' /\ List.length a = i /\ List.length a' = i /\ Forall2 P a a' /\ P x x' /\ Forall2 P b b'.
Proof.
  induction i as [|i IH]; intros l l' H L; destruct H as [|x x' l l' Hx Hl]; cbn in L; try lia.
  - exists [], x, l, [], x', l'. repeat split; try easy; constructor.
  - destruct (IH _ _ Hl) as (a & y & b & a' & y' & b' & -> & -> & L1 & L2 & H1 & H2 & H3); [lia|].
    exists (x :: a), y, b, (x' :: a'), y', b'. cbn. repeat split; try easy; try lia. now constructor.
Qed.
Lemma remove_same e e' i : R e e' ->
  same_outcome (fun r r' => lifted R (fst r) (fst r') /\ R (snd r) (snd r')) (remove e i) (remove e' i).
Proof.
  intro H. pose proof (R_kids _ _ H) as Hk. pose proof (forall2_len _ _ _ Hk) as L.
  destruct (le_lt_dec (List.length (e_children e)) i) as [Hi|Hi].
  - unfold remove. assert (X := Hi). apply Nat.leb_le in X. rewrite X. rewrite L in X. rewrite X. cbn. now rewrite L.
  - destruct (forall2_split _ _ _ _ Hk Hi) as (a & x & b & a' & x' & b' & E & E' & L1 & L2 & H1 & H2 & H3).
    rewrite <- L1 at 1. rewrite (remove_eq e a x b E). rewrite <- L2. rewrite (remove_eq e' a' x' b' E'). cbn. split; [easy|].
    apply R_children; [easy|]. now apply Forall2_app.
Qed.
Lemma elements_lifted l l' : Forall2 (lifted R) l l' -> Forall2 R (elements_of l) (elements_of l').
Proof.
  induction 1 as [|n n' l l' Hn Hl IH]; [constructor|]. apply lifted_inv in Hn as [(c & c' & -> & -> & Hc)|[-> Hb]]; cbn [elements_of].
  - now constructor.
  - destruct n' as [c|s|s|s]; [now destruct (Hb c)|easy|easy|easy].
Qed.
Lemma split_element i : forall l, i < List.length (elements_of l) -> exists a c b, l = a ++ NElem c :: b /\ List.length (elements_of a) = i.
Proof.
  intros l. revert i. induction l as [|n l IH]; intros i L; cbn in L; [lia|].
  destruct n as [c|s|s|s]; cbn in L.
  - destruct i as [|i]; [exists [], c, l; easy|]. destruct (IH i) as (a & c' & b & -> & E); [lia|]. exists (NElem c :: a), c', b. split; [easy|]. cbn. lia.
  - destruct (IH i L) as (a & c' & b & -> & E). exists (NText s :: a), c', b. now split.
  - destruct (IH i L) as (a & c' & b & -> & E). exists (NComment s :: a), c', b. now split.
  - destruct (IH i L) as (a & c' & b & -> & E). exists (NCData s :: a), c', b. now split.
Qed.
Lemma remove_element_same e e' i : R e e' ->
  same_outcome (fun r r' => R (fst r) (fst r') /\ R (snd r) (snd r')) (remove_element e i) (remove_element e' i).
Proof.
  intro H. pose proof (R_kids _ _ H) as Hk. pose proof (forall2_len _ _ _ (elements_lifted _ _ Hk)) as L.
  destruct (le_lt_dec (List.length (elements_of (e_children e))) i) as [Hi|Hi].
  - unfold remove_element. rewrite !element_indices_length. assert (X := Hi). apply Nat.leb_le in X. rewrite X. rewrite L in X. rewrite X. cbn. now rewrite L.
  - destruct (split_element i _ Hi) as (a & c & b & E & Li). rewrite E in Hk.
    apply Forall2_app_inv_l in Hk as (a' & y & Ha & Hy & E'). inversion Hy as [|? n' ? b' Hn Hb]; subst y. subst.
    destruct n' as [c'| | |]; cbn in Hn; try easy.
    rewrite (remove_element_eq e a c b E). rewrite (forall2_len _ _ _ (elements_lifted _ _ Ha)). rewrite (remove_element_eq e' a' c' b' E').
    cbn. split; [easy|]. apply R_children; [easy|]. now apply Forall2_app.
Qed.
Lemma remove_by_same e e' p : R e e' -> respects (lifted R) eq p ->
  same_outcome (fun r r' => R (fst r) (fst r') /\ snd r = snd r') (remove_by e p) (remove_by e' p).
Proof.
  intros H Hp. rewrite !remove_by_eq. pose proof (R_kids _ _ H) as Hk. cbn. split; cbn.
  - apply R_children; [easy|]. apply forall2_filter; [|easy]. intros a b Hab. now rewrite (Hp _ _ Hab).
  - eapply forall2_len. apply forall2_filter; [|exact Hk]. exact Hp.
Qed.
Lemma elem_pred_lifted p : respects R eq p -> respects (lifted R) eq (elem_pred p).
Proof. intros Hp n n' H. apply lifted_inv in H as [(e & e' & -> & -> & Ha)|[-> Hb]]; [|easy]. now apply Hp. Qed.
Lemma remove_elements_same e e' p : R e e' -> respects R eq p ->
  same_outcome (fun r r' => R (fst r) (fst r') /\ snd r = snd r') (remove_elements e p) (remove_elements e' p).
Proof.
  intros H Hp. assert (X : forall e, remove_elements e p = remove_by e (elem_pred p)) by (intro x; now rewrite remove_elements_eq, remove_by_eq).
  rewrite !X. apply remove_by_same; [easy|]. now apply elem_pred_lifted.
Qed.
Lemma pruned_lifted p l l1 k : respects (lifted R) eq p -> pruned p l l1 k -> forall l', Forall2 (lifted R) l l' ->
  exists l1', pruned p l' l1' k /\ Forall2 (lifted R) l1 l1'.
Proof.
  intro Hp. induction 1 as [|n l l' k Pn H IH|n l l' k Pn Hn H IH|e ch' l l' k1 k2 Pn Hc IHc H IH]; intros m Hm.
  - inversion Hm; subst. exists []. split; constructor.
  - inversion Hm as [|? b ? m' Hab Hm']; subst. destruct (IH _ Hm') as (l1' & A & B). exists l1'. split; [|easy].
    constructor; [|easy]. now rewrite <- (Hp _ _ Hab).
  - inversion Hm as [|? b ? m' Hab Hm']; subst. destruct (IH _ Hm') as (l1' & A & B).
    assert (n = b) as <-. { apply lifted_inv in Hab as [(c & c' & -> & _)|[-> _]]; [|easy]. now destruct (Hn c). }
    exists (n :: l1'). split; [now constructor|]. now constructor.
  - inversion Hm as [|? b ? m' Hab Hm']; subst. destruct (IH _ Hm') as (l1' & A & B).
    pose proof (Hp _ _ Hab) as Pb. apply lifted_inv in Hab as [(c & c' & E & -> & Ha)|[_ E]]; [|now destruct (E e)].
    injection E as <-. destruct (IHc _ (R_kids _ _ Ha)) as (ch2 & C & D).
    exists (NElem (set_children c' ch2) :: l1'). split; [constructor; try easy; now rewrite <- Pb|].
    constructor; [|easy]. cbn. now apply R_children.
Qed.
Lemma remove_all_same e e' p : R e e' -> respects (lifted R) eq p ->
  same_outcome (fun r r' => R (fst r) (fst r') /\ snd r = snd r') (remove_all p e) (remove_all p e').
Proof.
  intros H Hp. destruct (remove_all_pruned p e) as (l & k & -> & Hl). destruct (remove_all_pruned p e') as (l' & k' & -> & Hl').
  destruct (pruned_lifted _ _ _ _ Hp Hl _ (R_kids _ _ H)) as (l2 & A & B).
  destruct (pruned_fun _ _ _ _ Hl' _ _ A) as [-> ->]. cbn. split; [|easy]. now apply R_children.
Qed.
Lemma first_same e e' n : R e e' -> same_outcome R (first_element_by_name e n) (first_element_by_name e' n).
Proof.
  intro H. unfold first_element_by_name, child_elements. pose proof (elements_lifted _ _ (R_kids _ _ H)) as Hk.
  induction Hk as [|c c' l l' Hc Hl IH]; cbn [first_named]; [easy|]. unfold name. rewrite (R_name _ _ Hc).
  destruct (str_eqb (e_name c') n); easy.
Qed.

Theorem call_same c e e' : blind R c -> R e e' -> same_outcome R (perform1 c e) (perform1 c e').
Proof.
  intros B H. destruct c; cbn [perform1 blind] in *.
  - now apply append_same.
  - apply append_all_same; [easy|]. now induction B; constructor.
  - now apply insert_same.
  - rewrite !set_text_eq. cbn. apply R_children; [easy|]. destruct (text_is_whitespace t); constructor; [easy|constructor].
  - cbn. apply R_children; [easy|constructor].
  - destruct (valid_name_dec k) as [Hk|Hk]; [rewrite !set_attr_ok by easy|rewrite !set_attr_bad by easy]; cbn; [|easy]. now apply R_aset.
  - cbn. now apply R_adel.
  - cbn. now apply R_none.
  - eapply sbind; [now apply remove_same|]. now intros a b [_ X].
  - eapply sbind; [now apply remove_by_same|]. now intros a b [X _].
  - eapply sbind; [now apply remove_all_same|]. now intros a b [X _].
  - eapply sbind; [now apply remove_element_same|]. now intros a b [_ X].
  - eapply sbind; [now apply remove_elements_same|]. now intros a b [X _].
  - eapply sbind; [unfold remove_elements_by_name; apply remove_elements_same; [easy|]|].
    + intros a b Hab. now rewrite (R_name _ _ Hab).
    + now intros a b [X _].
  - rewrite !remove_all_elements_eq. eapply sbind; [apply remove_all_same; [easy|now apply elem_pred_lifted]|]. now intros a b [X _].
  - cbn. apply R_children; [easy|]. pose proof (R_kids _ _ H) as Hk. induction Hk; cbn; constructor; auto.
  - now apply first_same.
  - eapply sbind; [now apply remove_element_same|]. now intros a b [X _].
  - rewrite !clone_id. easy.
  - now apply insert_same.
Qed.
Theorem calls_same cs : forall e e', Forall (blind R) cs -> R e e' -> same_outcome R (perform cs e) (perform cs e').
Proof.
  induction cs as [|c cs IH]; intros e e' B H; cbn [perform]; [easy|]. inversion B; subst.
  eapply sbind; [now apply call_same|]. intros a b Hab. now apply IH.
Qed.
End Congruence.

(** * Alike trees *)

Lemma alike_lifted n n' : alike_node n n' <-> lifted alike n n'.
Proof.
  split.
  - intro H. apply an_inv in H as [(e & e' & -> & -> & Ha)|[-> Hb]]; [easy|]. now destruct n'.
  - destruct n, n'; cbn; try easy; intro H; try (rewrite H; apply an_leaf; discriminate). now constructor.
Qed.
Lemma alike_lifted_list l l' : Forall2 alike_node l l' <-> Forall2 (lifted alike) l l'.
Proof. split; induction 1; constructor; try easy; now apply alike_lifted. Qed.
Lemma inherited_alike e e' n n' : alike e e' -> alike_node n n' -> alike_node (inherited e n) (inherited e' n').
Proof.
  intros H Hn. unfold inherited. rewrite (default_alike _ _ H).
  apply (apply_xmlns_alike list_order list_order); try apply list_order_fair; [|easy]. now apply ctx_alike.
Qed.
Theorem alike_calls cs e e' : Forall (blind alike) cs -> alike e e' -> same_outcome alike (perform cs e) (perform cs e').
Proof.
  apply calls_same; clear.
  - intros e e' H. now apply alike_lifted_list, alike_inv.
  - intros e e' H. now apply alike_inv in H.
  - intros e e' l l' H Hl. apply alike_inv in H as (? & ? & ? & ? & ? & ?). apply alike_intro; try easy. now apply alike_lifted_list.
  - intros e e' k v H. apply alike_inv in H as (? & ? & ? & ? & ? & ?). apply alike_intro; try easy. now apply same_map_aset.
  - intros e e' k H. apply alike_inv in H as (? & ? & ? & ? & ? & ?). apply alike_intro; try easy. now apply same_map_adel.
  - intros e e' H. apply alike_inv in H as (? & ? & ? & ? & ? & ?). apply alike_intro; try easy. apply same_map_refl. constructor.
  - intros e e' n n' H Hn. apply alike_lifted, inherited_alike; [easy|]. now apply alike_lifted.
Qed.
Lemma alike_eqb e e' : alike e e' -> elem_eqb e e' = true.
Proof. intro H. pose proof (alike_ok _ _ H) as [A B]. apply elem_eqb_same; [easy..|]. now apply alike_elem_same. Qed.
Lemma same_weaken {A} (R S : A -> A -> Prop) x y : (forall a b, R a b -> S a b) -> same_outcome R x y -> same_outcome S x y.
Proof. intros H. destruct x, y; cbn; auto. Qed.
Lemma alike_not_told e e' : alike e e' -> not_told_apart (blind alike) e e'.
Proof. intros H cs Hc. eapply same_weaken; [|now apply alike_calls]. apply alike_eqb. Qed.

Definition probe (p : str) : elem := mkElem (lit "x") [] [] None (Some p) [].
Lemma probe_ok p : alike (probe p) (probe p).
Proof. apply alike_intro; try reflexivity; try (apply same_map_refl; constructor). constructor. Qed.
Lemma inherited_probe e p : map_ok (e_context e) -> exists c, inherited e (NElem (probe p)) = NElem c /\ e_xmlns c = aget p (e_context e).
Proof.
  intro H. eexists. split; [reflexivity|]. unfold set_namespace_context, probe. cbn [e_prefix e_xmlns set_context e_context set_xmlns].
  now rewrite inherit_get.
Qed.
Lemma told_context e e' : elem_ok e -> elem_ok e' -> not_told_apart (blind alike) e e' -> same_map (e_context e) (e_context e').
Proof.
  intros H H' N. apply elem_ok_inv in H as (_ & H & _). apply elem_ok_inv in H' as (_ & H' & _).
  apply same_map_of_get; [easy..|]. intro p.
  assert (Forall (blind alike) [call_clear_children; call_append (NElem (probe p))]) as B.
  { constructor; [exact I|]. constructor; [apply (probe_ok p)|constructor]. }
  specialize (N _ B). cbn [perform perform1] in N. unfold clear_children in N. cbn [bind] in N. rewrite !append_eq in N.
  cbn [bind same_outcome e_children set_children app] in N.
  destruct (inherited_probe (set_children e []) p H) as (c & E & Ec). destruct (inherited_probe (set_children e' []) p H') as (c' & E' & Ec').
  rewrite E, E' in N. cbn [e_context set_children] in Ec, Ec'. rewrite elem_eqb_eq, !andb_true_iff in N. destruct N as [_ N].
  cbn in N. rewrite andb_true_r in N. rewrite elem_eqb_eq, !andb_true_iff in N. destruct N as [[[[_ N] _] _] _].
  apply ostr_eqb_eq in N. congruence.
Qed.
Lemma take_element e a c b : e_children e = a ++ NElem c :: b ->
  perform1 (call_take (List.length (elements_of a))) e = Ok c.
Proof. intro E. cbn [perform1]. now rewrite (remove_element_eq e a c b E). Qed.
Lemma told_alike : forall e e', elem_ok e -> elem_ok e' -> not_told_apart (blind alike) e e' -> alike e e'.
Proof.
  induction e as [e IH] using elem_ind'. intros e' H H' N.
  pose proof (told_context _ _ H H' N) as Hx.
  assert (elem_same e e') as S by (apply elem_eqb_same; [easy..|]; apply (N []); constructor).
  pose proof (elem_ok_inv _ H) as (Ha & _ & Hk). pose proof (elem_ok_inv _ H') as (_ & _ & Hk').
  inversion S as [e1 e2 E1 E2 E3 P Sn]; subst e1 e2.
  apply alike_intro; try easy.
  assert (forall a c b a' c' b', e_children e = a ++ NElem c :: b -> e_children e' = a' ++ NElem c' :: b' ->
    List.length (elements_of a) = List.length (elements_of a') -> alike c c') as G.
  { intros a c b a' c' b' E E' L. apply IH.
    - rewrite E. apply in_elt.
    - apply Hk. rewrite E. apply in_elt.
    - apply Hk'. rewrite E'. apply in_elt.
    - intros cs B. specialize (N (call_take (List.length (elements_of a)) :: cs)). cbn [perform] in N.
      rewrite (take_element e a c b E), L, (take_element e' a' c' b' E') in N. apply N. now constructor. }
  clear IH N Hx H H' Ha Hk Hk' S E1 E2 E3 P. revert Sn G.
  generalize (e_children e) (e_children e'). clear e e'. intros l l' Sn G.
  enough (forall p p', List.length (elements_of p) = List.length (elements_of p') ->
    (forall a c b a' c' b', p ++ l = a ++ NElem c :: b -> p' ++ l' = a' ++ NElem c' :: b' ->
      List.length (elements_of a) = List.length (elements_of a') -> alike c c') -> Forall2 alike_node l l') as X.
  { now apply (X [] []). }
  clear G. assert (forall a b, elements_of (a ++ b) = elements_of a ++ elements_of b) as EA.
  { clear. induction a as [|n a IHa]; intro b; [easy|]. destruct n; cbn; now rewrite IHa. }
  induction Sn as [|n l1 l2 Hn Sn IHn|e1 e2 l1 l2 He Sn IHn] using nodes_same_ind; intros p p' L G; [constructor| |].
  - constructor; [now apply an_leaf|]. apply (IHn (p ++ [n]) (p' ++ [n])).
    + rewrite !EA, !app_length. lia.
    + rewrite <- !app_assoc. exact G.
  - constructor; [constructor; now apply (G p e1 l1 p' e2 l2)|]. apply (IHn (p ++ [NElem e1]) (p' ++ [NElem e2])).
    + rewrite !EA, !app_length. cbn. lia.
    + rewrite <- !app_assoc. exact G.
Qed.
Theorem told_exact e e' : elem_ok e -> elem_ok e' -> (not_told_apart (blind alike) e e' <-> alike e e').
Proof. intros H H'. split; [now apply told_alike|apply alike_not_told]. Qed.

(** * Equal trees in which every prefix has its namespace *)

Lemma bound_inv e : bound e -> (e_prefix e <> None -> e_xmlns e <> None) /\ forall c, In (NElem c) (e_children e) -> bound c.
Proof. now intros [x A B]. Qed.
Lemma nodes_eqb_forall : forall l l', nodes_eqb l l' = true <-> Forall2 (fun n n' => node_eqb n n' = true) l l'.
Proof.
  induction l as [|n l IH]; intros [|n' l']; cbn [nodes_eqb]; split; intro H; try easy; try (now inversion H).
  - apply andb_true_iff in H as [A B]. constructor; [easy|]. now apply IH.
  - inversion H; subst. apply andb_true_iff. split; [easy|]. now apply IH.
Qed.
Definition goodn (n : node) : Prop := match n with NElem c => elem_ok c /\ bound c | _ => True end.
Lemma lifted_equal n n' : lifted equal_bound n n' <-> goodn n /\ goodn n' /\ node_eqb n n' = true.
Proof.
  destruct n as [e|s|s|s], n' as [e'|s'|s'|s']; cbn; try (now split); try (now intuition).
  - unfold equal_bound. tauto.
  - rewrite str_eqb_eq. split; [intros [= ->]; tauto|now intros (_ & _ & ->)].
  - rewrite str_eqb_eq. split; [intros [= ->]; tauto|now intros (_ & _ & ->)].
  - rewrite str_eqb_eq. split; [intros [= ->]; tauto|now intros (_ & _ & ->)].
Qed.
Lemma equal_kids l l' : Forall2 (lifted equal_bound) l l' <->
  (forall c, In (NElem c) l -> elem_ok c /\ bound c) /\ (forall c, In (NElem c) l' -> elem_ok c /\ bound c) /\ nodes_eqb l l' = true.
Proof.
  rewrite nodes_eqb_forall. split.
  - induction 1 as [|n n' l l' Hn Hl IH].
    + split; [now intros c []|]. split; [now intros c []|constructor].
    + apply lifted_equal in Hn as (A & B & C). destruct IH as (D & E & F). split; [|split; [|now constructor]].
      * intros c [->|H]; [exact A|now apply D].
      * intros c [->|H]; [exact B|now apply E].
  - intros (A & B & C). induction C as [|n n' l l' Hn Hl IH]; [constructor|]. constructor.
    + apply lifted_equal. split; [|split]; [| |easy].
      * destruct n; cbn; try easy. apply A. now left.
      * destruct n'; cbn; try easy. apply B. now left.
    + apply IH; intros c Hc; [apply A|apply B]; now right.
Qed.
Lemma equal_iff e e' : equal_bound e e' <->
  e_name e = e_name e' /\ e_xmlns e = e_xmlns e' /\ e_prefix e = e_prefix e' /\ same_map (e_attributes e) (e_attributes e') /\
  map_ok (e_context e) /\ map_ok (e_context e') /\ (e_prefix e <> None -> e_xmlns e <> None) /\
  Forall2 (lifted equal_bound) (e_children e) (e_children e').
Proof.
  rewrite equal_kids. unfold equal_bound. rewrite elem_eqb_eq, !andb_true_iff, str_eqb_eq, !ostr_eqb_eq. split.
  - intros (A & B & C & D & ((((E1 & E2) & E3) & E4) & E5)). apply elem_ok_inv in A as (A1 & A2 & A3). apply elem_ok_inv in B as (B1 & B2 & B3).
    apply bound_inv in C as (C1 & C2). apply bound_inv in D as (D1 & D2). apply amap_eqb_spec in E4; [|easy..].
    repeat (split; [easy|]). split; [intros c Hc; split; auto|]. split; [intros c Hc; split; auto|easy].
  - intros (E1 & E2 & E3 & E4 & X & X' & Y & A & B & E5). pose proof (same_map_ok _ _ E4) as [M M'].
    split; [constructor; try easy; intros c Hc; now apply A|]. split; [constructor; try easy; intros c Hc; now apply B|].
    split; [constructor; try easy; intros c Hc; now apply A|]. split; [constructor; [now rewrite <- E2, <- E3|intros c Hc; now apply B]|].
    repeat split; try easy. apply amap_eqb_spec; [easy..|]. apply E4.
Qed.
Lemma inherited_equal e e' n n' : equal_bound e e' -> lifted equal_bound n n' -> lifted equal_bound (inherited e n) (inherited e' n').
Proof.
  intros H Hn. destruct (lifted_inv _ _ _ Hn) as [(c & c' & -> & -> & Hc)|[-> Hb]].
  2: { unfold inherited. destruct n' as [x|s|s|s]; cbn; try easy. now destruct (Hb x). }
  cbn [inherited apply_xmlns_context lifted]. apply equal_iff in H as (_ & Ex & Ep & _ & X & X' & _ & _).
  assert (default_namespace e = default_namespace e') as Ed by (unfold default_namespace; now rewrite Ex, Ep). rewrite <- Ed.
  apply equal_iff in Hc as (E1 & E2 & E3 & E4 & Y & Y' & Z1 & K).
  pose proof (inherit_ok (e_context e) _ Y) as I. pose proof (inherit_ok (e_context e') _ Y') as I'.
  unfold set_namespace_context, default_namespace at 1 4. destruct c as [nm ch at_ ns px cx], c' as [nm' ch' at_' ns' px' cx'].
  cbn [e_name e_xmlns e_prefix e_attributes e_context e_children] in *. subst nm' ns' px'.
  destruct px as [p|], ns as [x|]; cbn; apply equal_iff; cbn; try easy.
  - destruct Z1; easy.
  - destruct (default_namespace e); easy.
Qed.
Theorem equal_calls cs e e' : Forall (blind equal_bound) cs -> equal_bound e e' ->
  same_outcome equal_bound (perform cs e) (perform cs e').
Proof.
  apply calls_same; clear.
  - intros e e' H. now apply equal_iff.
  - intros e e' H. now apply equal_iff in H.
  - intros e e' l l' H Hl. apply equal_iff in H as (? & ? & ? & ? & ? & ? & ? & ?). now apply equal_iff.
  - intros e e' k v H. apply equal_iff in H as (? & ? & ? & ? & ? & ? & ? & ?). apply equal_iff. do 3 (split; [easy|]). split; [now apply same_map_aset|easy].
  - intros e e' k H. apply equal_iff in H as (? & ? & ? & ? & ? & ? & ? & ?). apply equal_iff. do 3 (split; [easy|]). split; [now apply same_map_adel|easy].
  - intros e e' H. apply equal_iff in H as (? & ? & ? & ? & ? & ? & ? & ?). apply equal_iff. do 3 (split; [easy|]). split; [apply same_map_refl; constructor|easy].
  - apply inherited_equal.
Qed.

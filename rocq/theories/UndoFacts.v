(** Proofs about undoing and reordering changes. *)
From Coq Require Import List NArith Arith Bool Ascii String Lia Permutation.
From Verif Require Import Base Escape Dom BaseFacts Spec SpecDom SpecApi DomFacts ApiFacts SerFacts Orders SpecOrders OrdersFacts SpecTell TellFacts
  SpecLocal LocalFacts SpecUndo.
Import ListNotations.

(** * Nothing to take over *)

Lemma set_context_same e : set_context e (e_context e) = e.
Proof. now destruct e. Qed.
Lemma set_children_same e : set_children e (e_children e) = e.
Proof. now destruct e. Qed.
Lemma inherit_fixed_iff ctx parent : inherit_context ctx parent = ctx <-> forall p, In p (map fst parent) -> In p (map fst ctx).
Proof.
  split.
  - intros E p Hp. destruct (aget p ctx) as [v|] eqn:G.
    + apply aget_in in G. apply in_map_iff. now exists (p, v).
    + pose proof (aget_inherit_context parent ctx p) as X. rewrite E, G in X. symmetry in X. apply aget_none in X. now destruct X.
  - intro H. apply inherit_context_fixed. intros k Hk. apply ahas_spec. now apply H.
Qed.
Lemma at_home_iff e n : at_home e n <-> inherited e n = n.
Proof.
  destruct n as [c|s|s|s]; try easy. cbn [at_home inherited apply_xmlns_context].
  unfold get_namespace_context, namespace, namespace_prefix. rewrite <- inherit_fixed_iff.
  unfold inherited, apply_xmlns_context, set_namespace_context, default_namespace at 2.
  destruct c as [nm ch at_ ns px cx]. cbn [e_context e_xmlns e_prefix].
  destruct px as [p|], ns as [x|]; cbn.
  - split; [intros [-> _]; easy|]. intros [= E]. split; [easy|discriminate].
  - split.
    + intros [E H]. specialize (H eq_refl). rewrite E. apply aget_none in H. now rewrite H.
    + intros [= E1 E2]. split; [easy|]. intros _. rewrite E2 in E1. now apply aget_none.
  - split; [intros [-> _]; easy|]. intros [= E]. split; [easy|discriminate].
  - destruct (default_namespace e) as [d|]; cbn.
    + split; [intros [_ H]; now specialize (H eq_refl)|discriminate].
    + split; [intros [-> _]; easy|]. intros [= E]. now split.
Qed.

(** * Inserting and removing *)

Lemma cleaned_length l l' : cleaned l l' -> List.length l' <= List.length l /\ (List.length l' = List.length l -> l' = l).
Proof.
  induction 1 as [|n l l' Hn H IH|run l l' Hr Hl Hb H IH|run l l' Hr Hl Hb H IH]; cbn [List.length].
  - now split.
  - split; [lia|]. intro E. f_equal. apply IH. lia.
  - rewrite app_length, map_length. destruct run as [|s run]; [easy|]. cbn [List.length]. split; [lia|].
    intro E. destruct run as [|t run]; cbn [List.length] in E; [|lia]. cbn. rewrite app_nil_r. f_equal. apply IH. lia.
  - rewrite app_length, map_length. destruct run as [|s run]; [easy|]. cbn [List.length]. split; lia.
Qed.
Lemma clean_length l : List.length (clean l) <= List.length l.
Proof. apply cleaned_length, clean_cleaned. Qed.
Lemma clean_full l : List.length (clean l) = List.length l -> text_normal l.
Proof. intro E. rewrite <- (proj2 (cleaned_length _ _ (clean_cleaned l)) E). apply clean_normal. Qed.
Lemma sort_normal a n n' : (forall t, n = NText t <-> n' = NText t) -> text_normal (a ++ [n]) -> text_normal (a ++ [n']).
Proof.
  intros S [A B]. split.
  - intros x s t y E. destruct (@exists_last_or _ y) as [->|(y' & z & ->)].
    + rewrite app_nil_r in E. change (x ++ [NText s; NText t]) with (x ++ [NText s] ++ [NText t]) in E. rewrite app_assoc in E.
      apply app_inj_tail in E as [-> E]. apply S in E. apply (A x s t []). rewrite E. now rewrite <- app_assoc.
    + rewrite !app_assoc in E. apply app_inj_tail in E as [-> _]. apply (A x s t (y' ++ [n])). now rewrite <- !app_assoc.
  - intros s Hs. apply B. apply in_app_or in Hs as [Hs|[Hs|[]]]; apply in_or_app; [now left|]. right. left. now apply S.
Qed.
Lemma inherited_sort e n t : inherited e n = NText t <-> n = NText t.
Proof. now destruct n. Qed.
Lemma remove_inv e i x e' : remove e i = Ok (x, e') ->
  exists a b, e_children e = a ++ x :: b /\ List.length a = i /\ e' = set_children e (a ++ b).
Proof.
  intro H. destruct (le_lt_dec (List.length (e_children e)) i) as [L|L].
  - unfold remove in H. apply Nat.leb_le in L. now rewrite L in H.
  - apply nth_error_Some in L. destruct (nth_error (e_children e) i) as [y|] eqn:E; [|easy].
    apply nth_error_split in E as (a & b & E & La). rewrite <- La, (remove_eq e a y b E) in H. injection H as <- <-. now exists a, b.
Qed.
Lemma children_of_set e l l' : set_children e l = set_children e l' -> l = l'.
Proof. intro H. now injection H. Qed.

(** Removing what was inserted. *)
Lemma insert_remove e i n : (exists e1 x, insert e i n = Ok e1 /\ remove e1 i = Ok (x, e)) <->
  i <= List.length (e_children e) /\ text_normal (firstn i (e_children e) ++ [n] ++ skipn i (e_children e)) /\
  (i < List.length (e_children e) -> last_at_home e).
Proof.
  split.
  - intros (e1 & x & H1 & H2). destruct (le_lt_dec i (List.length (e_children e))) as [L|L].
    2: { rewrite insert_out_of_bounds in H1 by easy. discriminate H1. }
    split; [easy|]. destruct (insert_shape e i n L) as (front & last & E & H1'). rewrite H1' in H1. injection H1 as <-.
    apply remove_inv in H2 as (a & b & E2 & La & Ee). cbn [e_children set_children] in E2, Ee.
    assert (e_children e = a ++ b) as Ec by (rewrite Ee at 1; reflexivity).
    assert (List.length (front ++ [last]) = S (List.length (e_children e))) as Lf.
    { rewrite <- E. rewrite app_length. cbn [List.length]. rewrite firstn_length, skipn_length. lia. }
    assert (text_normal (front ++ [inherited e last])) as T.
    { apply clean_full. rewrite E2, !app_length. rewrite app_length in Lf. cbn [List.length] in *. rewrite Ec, app_length in Lf. lia. }
    split.
    { cbn [app]. rewrite E. revert T. apply sort_normal. intro t. now rewrite inherited_sort. }
    intros L' f l Ef. unfold children in Ef. apply at_home_iff.
    assert (last = l) as ->.
    { rewrite <- (firstn_skipn i (e_children e)) in Ef. destruct (exists_last_or (skipn i (e_children e))) as [F|(f2 & l2 & F)].
      - apply (f_equal (@List.length node)) in F. rewrite skipn_length in F. cbn in F. lia.
      - rewrite F in E, Ef. rewrite app_comm_cons, !app_assoc in E. rewrite app_assoc in Ef. apply app_inj_tail in E as [_ <-]. now apply app_inj_tail in Ef as [_ ->]. }
    rewrite (clean_fixed _ T) in E2.
    destruct (exists_last_or b) as [->|(b' & z & ->)].
    { exfalso. rewrite app_nil_r in Ec. rewrite Ec, La in L'. lia. }
    rewrite app_comm_cons, app_assoc in E2. apply app_inj_tail in E2 as [_ E2]. rewrite Ec, app_assoc in Ef. apply app_inj_tail in Ef as [_ <-]. easy.
  - intros (L & T & S). destruct (insert_shape e i n L) as (front & last & E & H1).
    assert (clean (front ++ [inherited e last]) = front ++ [inherited e last]) as C.
    { apply clean_fixed. cbn [app] in T. rewrite E in T. revert T. apply sort_normal. intro t. now rewrite inherited_sort. }
    rewrite C in H1. destruct (Nat.eq_dec i (List.length (e_children e))) as [->|N].
    + rewrite firstn_all, skipn_all in E. apply app_inj_tail in E as [<- <-]. eexists _, _. split; [exact H1|].
      rewrite (remove_eq _ (e_children e) (inherited e n) []); [|easy]. rewrite set_children_twice, app_nil_r, set_children_same. reflexivity.
    + destruct (exists_last_or (skipn i (e_children e))) as [F|(f2 & l2 & F)].
      { apply (f_equal (@List.length node)) in F. rewrite skipn_length in F. cbn in F. lia. }
      assert (at_home e l2) as S2. { apply (S ltac:(lia) (firstn i (e_children e) ++ f2)). unfold children. now rewrite <- app_assoc, <- F, firstn_skipn. }
      apply at_home_iff in S2. pose proof E as E'. rewrite F in E. rewrite app_comm_cons, app_assoc in E. apply app_inj_tail in E as [<- <-]. rewrite S2 in H1.
      eexists _, _. split; [exact H1|]. assert (i = List.length (firstn i (e_children e))) as Li by (rewrite firstn_length; lia).
      rewrite Li at 2. rewrite (remove_eq _ (firstn i (e_children e)) n (f2 ++ [l2])).
      * rewrite set_children_twice, <- F, firstn_skipn, set_children_same. reflexivity.
      * cbn [e_children set_children]. now rewrite <- app_assoc.
Qed.
(** Putting back what was removed. *)
Lemma remove_insert e i : (exists x e1, remove e i = Ok (x, e1) /\ insert e1 i x = Ok e) <->
  i < List.length (e_children e) /\ text_normal (e_children e) /\ last_at_home e.
Proof.
  assert (forall a x b, e_children e = a ++ x :: b -> exists front last, e_children e = front ++ [last] /\
    insert (set_children e (a ++ b)) (List.length a) x = Ok (set_children e (clean (front ++ [inherited e last])))) as X.
  { intros a x b E. destruct (exists_last_or (a ++ x :: b)) as [F|(front & last & F)]; [now destruct a|].
    exists front, last. split; [congruence|].
    rewrite (insert_eq (set_children e (a ++ b)) a b x eq_refl front last F). now rewrite set_children_twice. }
  split.
  - intros (x & e1 & H1 & H2). apply remove_inv in H1 as (a & b & E & La & ->). rewrite <- La in *.
    destruct (X a x b E) as (front & last & Ef & H). rewrite H in H2. injection H2 as H2.
    assert (clean (front ++ [inherited e last]) = e_children e) as C by (rewrite <- H2 at 2; reflexivity).
    split; [rewrite E, app_length; cbn; lia|]. split; [rewrite <- C; apply clean_normal|].
    assert (text_normal (front ++ [inherited e last])) as T.
    { apply clean_full. rewrite C, Ef, !app_length. easy. }
    rewrite (clean_fixed _ T), Ef in C. apply app_inj_tail in C as [_ C]. intros f l El. unfold children in El. rewrite Ef in El.
    apply app_inj_tail in El as [_ <-]. now apply at_home_iff.
  - intros (L & T & S). apply nth_error_Some in L. destruct (nth_error (e_children e) i) as [x|] eqn:E; [|easy].
    apply nth_error_split in E as (a & b & E & <-). exists x, (set_children e (a ++ b)). split; [now apply remove_eq|].
    destruct (X a x b E) as (front & last & Ef & H). rewrite H. pose proof (S _ _ Ef) as S'. apply at_home_iff in S'. rewrite S', <- Ef.
    now rewrite (clean_fixed _ T), set_children_same.
Qed.
Lemma append_remove e n : (exists e1 x, append e n = Ok e1 /\ remove e1 (List.length (e_children e)) = Ok (x, e)) <->
  text_normal (e_children e ++ [n]).
Proof.
  rewrite append_eq. split.
  - intros (e1 & x & [= <-] & H). apply remove_inv in H as (a & b & E & La & Ee). cbn [e_children set_children] in E, Ee.
    assert (e_children e = a ++ b) as Ec by (rewrite Ee at 1; reflexivity).
    assert (text_normal (e_children e ++ [inherited e n])) as T.
    { apply clean_full. rewrite E, Ec, !app_length. cbn. lia. }
    revert T. apply sort_normal. intro t. now rewrite inherited_sort.
  - intro T. assert (clean (e_children e ++ [inherited e n]) = e_children e ++ [inherited e n]) as ->.
    { apply clean_fixed. revert T. apply sort_normal. intro t. now rewrite inherited_sort. }
    eexists _, _. split; [reflexivity|]. rewrite (remove_eq _ (e_children e) (inherited e n) []); [|easy].
    rewrite set_children_twice, app_nil_r, set_children_same. reflexivity.
Qed.

(** * Attributes *)

Lemma set_attributes_same e e' m : same_map m (e_attributes e') -> elem_ok e' -> (forall l, set_attributes e l = set_attributes e' l) ->
  alike (set_attributes e m) e'.
Proof.
  intros M O H. rewrite H. pose proof (alike_refl _ O) as A. apply alike_inv in A as (? & ? & ? & ? & ? & ?). now apply alike_intro.
Qed.
Lemma set_attr_undo e k v e1 : elem_ok e -> set_attr e k v = (Ok tt, e1) ->
  (get_attr e k = None -> alike (snd (remove_attr e1 k)) e) /\
  (forall w, get_attr e k = Some w -> alike (snd (set_attr e1 k w)) e).
Proof.
  intros O H. destruct (valid_name_dec k) as [K|K]; [|rewrite set_attr_bad in H by easy; discriminate].
  rewrite set_attr_ok in H by easy. injection H as <-. pose proof (elem_ok_inv _ O) as (Ha & _).
  split.
  - intro G. cbn. apply (set_attributes_same (set_attributes e _)); [|easy|now destruct e]. apply same_map_of_get; [now apply nodup_adel, nodup_aset|easy|].
    intro k'. destruct (str_eq_dec k' k) as [->|N]; [unfold get_attr in G; now rewrite G, aget_adel_same by (now apply nodup_aset)|]. now rewrite aget_adel_other, aget_aset_other.
  - intros w G. rewrite set_attr_ok by easy. cbn. apply (set_attributes_same (set_attributes e _)); [|easy|now destruct e].
    apply same_map_of_get; [now apply nodup_aset, nodup_aset|easy|].
    intro k'. destruct (str_eq_dec k' k) as [->|N]; [unfold get_attr in G; now rewrite G, aget_aset_same|]. now rewrite !aget_aset_other.
Qed.
Lemma remove_attr_undo e k w : elem_ok e -> valid_name k -> get_attr e k = Some w ->
  alike (snd (set_attr (snd (remove_attr e k)) k w)) e.
Proof.
  intros O K G. rewrite set_attr_ok by easy. cbn. pose proof (elem_ok_inv _ O) as (Ha & _).
  apply (set_attributes_same (set_attributes e _)); [|easy|now destruct e]. apply same_map_of_get; [now apply nodup_aset, nodup_adel|easy|].
  intro k'. destruct (str_eq_dec k' k) as [->|N]; [unfold get_attr in G; now rewrite G, aget_aset_same|]. now rewrite aget_aset_other, aget_adel_other.
Qed.
Lemma attr_call c e e1 : on_attributes c -> perform1 c e = Ok e1 ->
  exists f, forall e', perform1 c e' = Ok (set_attributes e' (f (e_attributes e'))).
Proof.
  intros C H. destruct c; cbn in C; try easy; cbn [perform1] in *.
  - destruct (valid_name_dec k) as [K|K]; [|rewrite set_attr_bad in H by easy; discriminate]. exists (aset k v). intro e'. now rewrite set_attr_ok.
  - now exists (adel k).
  - now exists (fun _ => []).
Qed.
Lemma attr_call_fails c e x : on_attributes c -> perform1 c e = Err x -> forall e', perform1 c e' = Err x.
Proof.
  intros C H e'. destruct c; cbn in C; try easy; cbn [perform1] in *.
  destruct (valid_name_dec k) as [K|K]; [rewrite set_attr_ok in H by easy; discriminate|]. rewrite set_attr_bad in * by easy. easy.
Qed.
Lemma attr_call_total c e : on_attributes c -> perform1 c e <> Panic /\ perform1 c e <> Fuel.
Proof.
  intros C. destruct c; cbn in C; try easy; cbn [perform1].
  destruct (valid_name_dec k) as [K|K]; [rewrite set_attr_ok by easy|rewrite set_attr_bad by easy]; easy.
Qed.
Definition with_attributes (m : amap) (o : outcome elem) : outcome elem := do e <- o; Ok (set_attributes e m).
Lemma child_call c e m : on_children c -> perform1 c (set_attributes e m) = with_attributes m (perform1 c e) /\
  forall e', perform1 c e = Ok e' -> e_attributes e' = e_attributes e.
Proof.
  intro C. assert (forall n, inherited (set_attributes e m) n = inherited e n) as I by easy.
  assert (forall i, perform1 (call_remove i) (set_attributes e m) = with_attributes m (perform1 (call_remove i) e) /\
    forall e', perform1 (call_remove i) e = Ok e' -> e_attributes e' = e_attributes e) as Rm.
  { intro i. cbn [perform1]. unfold remove. cbn [e_children set_attributes]. destruct (_ <=? _); [now split|].
    destruct (vremove (e_children e) i) as [[x l]| | |]; cbn; now split; try (intros ? [= <-]). }
  destruct c; cbn in C; try easy; cbn [perform1].
  - rewrite !append_eq. cbn. rewrite I. split; [easy|]. now intros e' [= <-].
  - rewrite !append_all_eq. cbn. split; [easy|]. now intros e' [= <-].
  - destruct (le_lt_dec i (List.length (e_children e))) as [L|L].
    + destruct (insert_shape e i n L) as (f & l & E & ->). destruct (insert_shape (set_attributes e m) i n L) as (f' & l' & E' & ->).
      cbn [e_children set_attributes] in E'. rewrite E' in E. apply app_inj_tail in E as [-> ->]. split; [easy|]. now intros e' [= <-].
    + rewrite !insert_out_of_bounds by easy. now split.
  - rewrite !set_text_eq. cbn. split; [easy|]. now intros e' [= <-].
  - cbn. split; [easy|]. now intros e' [= <-].
  - rewrite !remove_by_eq. cbn. split; [easy|]. now intros e' [= <-].
  - destruct (remove_all_pruned p e) as (l & k & -> & Hl). destruct (remove_all_pruned p (set_attributes e m)) as (l' & k' & -> & Hl').
    cbn [e_children set_attributes] in Hl'. destruct (pruned_fun _ _ _ _ Hl' _ _ Hl) as [-> ->]. cbn. split; [easy|]. now intros e' [= <-].
  - destruct (le_lt_dec (List.length (elements_of (e_children e))) i) as [L|L].
    + unfold remove_element. cbn [e_children set_attributes]. rewrite !element_indices_length. apply Nat.leb_le in L. rewrite L. now split.
    + destruct (split_element i _ L) as (a & x & b & E & Li). rewrite <- Li.
      rewrite (remove_element_eq e a x b E), (remove_element_eq (set_attributes e m) a x b E). cbn. split; [easy|]. now intros e' [= <-].
  - rewrite !remove_elements_eq. cbn. split; [easy|]. now intros e' [= <-].
  - unfold remove_elements_by_name. rewrite !remove_elements_eq. cbn. split; [easy|]. now intros e' [= <-].
  - rewrite !remove_all_elements_eq. destruct (remove_all_pruned (elem_pred p) e) as (l & k & -> & Hl). destruct (remove_all_pruned (elem_pred p) (set_attributes e m)) as (l' & k' & -> & Hl').
    cbn [e_children set_attributes] in Hl'. destruct (pruned_fun _ _ _ _ Hl' _ _ Hl) as [-> ->]. cbn. split; [easy|]. now intros e' [= <-].
  - cbn. split; [easy|]. now intros e' [= <-].
Qed.
Lemma attributes_children a c e e1 : on_attributes a -> on_children c -> perform1 a e = Ok e1 ->
  (forall e2, perform1 c e = Ok e2 -> exists e3, perform1 c e1 = Ok e3 /\ perform1 a e2 = Ok e3) /\
  (forall x, perform1 c e = Err x -> perform1 c e1 = Err x).
Proof.
  intros A C H. destruct (attr_call a e e1 A H) as (f & F). rewrite F in H. injection H as <-.
  destruct (child_call c e (f (e_attributes e)) C) as [X Y]. rewrite X. split.
  - intros e2 E2. rewrite E2. cbn. exists (set_attributes e2 (f (e_attributes e))). split; [easy|]. rewrite F. now rewrite (Y _ E2).
  - intros x E. now rewrite E.
Qed.
Ltac run_attr H := repeat (progress (cbn [perform perform1 bind fst snd remove_attr] in H; rewrite ?set_attr_ok in H by easy)).
Ltac maps := repeat first [rewrite aget_aset_same | rewrite aget_adel_same by (repeat (apply nodup_aset || apply nodup_adel); easy)
  | rewrite aget_aset_other by congruence | rewrite aget_adel_other by congruence]; try easy.
Lemma two_attributes k k' a b e e1 e2 : elem_ok e -> k <> k' -> on_attribute k a -> on_attribute k' b ->
  perform [a; b] e = Ok e1 -> perform [b; a] e = Ok e2 -> alike e1 e2.
Proof.
  intros O N A B H1 H2. pose proof (elem_ok_inv _ O) as (Ha & _).
  assert (forall m m', same_map m m' -> alike (set_attributes e m) (set_attributes e m')) as G.
  { intros m m' M. pose proof (alike_refl _ O) as X. apply alike_inv in X as (? & ? & ? & ? & ? & ?). now apply alike_intro. }
  destruct a as [| | | | |ka va|ka| | | | | | | | | | | | |], b as [| | | | |kb vb|kb| | | | | | | | | | | | |]; cbn in A, B; try easy; subst; cbn [perform perform1] in H1, H2.
  - destruct (valid_name_dec k) as [K|K]; [|rewrite (set_attr_bad _ k) in H1 by easy; discriminate].
    destruct (valid_name_dec k') as [K'|K']; [|rewrite (set_attr_bad _ k') in H2 by easy; discriminate].
    run_attr H1. run_attr H2. injection H1 as <-. injection H2 as <-.
    change (alike (set_attributes e (aset k' vb (aset k va (e_attributes e)))) (set_attributes e (aset k va (aset k' vb (e_attributes e))))).
    apply G. apply same_map_of_get; [now apply nodup_aset, nodup_aset..|]. intro q.
    destruct (str_eq_dec q k) as [->|Q]; [maps|].
    destruct (str_eq_dec q k') as [->|Q']; maps.
  - destruct (valid_name_dec k) as [K|K]; [|rewrite (set_attr_bad _ k) in H1 by easy; discriminate].
    run_attr H1. run_attr H2. injection H1 as <-. injection H2 as <-.
    change (alike (set_attributes e (adel k' (aset k va (e_attributes e)))) (set_attributes e (aset k va (adel k' (e_attributes e))))).
    apply G. apply same_map_of_get; [now apply nodup_adel, nodup_aset|now apply nodup_aset, nodup_adel|]. intro q.
    destruct (str_eq_dec q k) as [->|Q]; [maps|].
    destruct (str_eq_dec q k') as [->|Q']; maps.
  - destruct (valid_name_dec k') as [K'|K']; [|rewrite (set_attr_bad _ k') in H2 by easy; discriminate].
    run_attr H1. run_attr H2. injection H1 as <-. injection H2 as <-.
    change (alike (set_attributes e (aset k' vb (adel k (e_attributes e)))) (set_attributes e (adel k (aset k' vb (e_attributes e))))).
    apply G. apply same_map_of_get; [now apply nodup_aset, nodup_adel|now apply nodup_adel, nodup_aset|]. intro q.
    destruct (str_eq_dec q k) as [->|Q]; [maps|].
    destruct (str_eq_dec q k') as [->|Q']; maps.
  - run_attr H1. run_attr H2. injection H1 as <-. injection H2 as <-.
    change (alike (set_attributes e (adel k' (adel k (e_attributes e)))) (set_attributes e (adel k (adel k' (e_attributes e))))).
    apply G. apply same_map_of_get; [now apply nodup_adel, nodup_adel..|]. intro q.
    destruct (str_eq_dec q k) as [->|Q]; [maps|].
    destruct (str_eq_dec q k') as [->|Q']; maps.
Qed.

(** * Places *)

Lemma nth_put i (l : list node) n m : nth_error l i = Some n -> nth_error (firstn i l ++ m :: skipn (S i) l) i = Some m.
Proof.
  intro H. apply nth_error_split in H as (a & b & -> & <-). rewrite firstn_app, firstn_all, Nat.sub_diag. cbn [firstn]. rewrite app_nil_r.
  rewrite nth_error_app2 by lia. now rewrite Nat.sub_diag.
Qed.
Lemma nth_put_other i j (l : list node) n m : nth_error l i = Some n -> i <> j -> nth_error (firstn i l ++ m :: skipn (S i) l) j = nth_error l j.
Proof.
  intros H N. apply nth_error_split in H as (a & b & -> & <-). rewrite firstn_app, firstn_all, Nat.sub_diag. cbn [firstn]. rewrite app_nil_r.
  replace (skipn (S (List.length a)) (a ++ n :: b)) with b.
  2: { rewrite skipn_app. rewrite skipn_all2 by lia. replace (S (List.length a) - List.length a) with 1 by lia. easy. }
  destruct (lt_dec j (List.length a)) as [L|L]; [now rewrite !nth_error_app1|]. rewrite !nth_error_app2 by lia.
  destruct (j - List.length a) as [|k] eqn:E; [lia|]. easy.
Qed.
Lemma list_ext {A} : forall l l' : list A, (forall i, nth_error l i = nth_error l' i) -> l = l'.
Proof.
  induction l as [|a l IH]; intros [|b l'] H; [easy|now specialize (H 0)|now specialize (H 0)|].
  pose proof (H 0) as E. injection E as ->. f_equal. apply IH. intro i. apply (H (S i)).
Qed.
Lemma put_twice k (l : list node) n m z : nth_error l k = Some n ->
  firstn k (firstn k l ++ m :: skipn (S k) l) ++ z :: skipn (S k) (firstn k l ++ m :: skipn (S k) l) = firstn k l ++ z :: skipn (S k) l.
Proof.
  intro H. apply list_ext. intro i. destruct (Nat.eq_dec k i) as [<-|K].
  - rewrite (nth_put k _ m) by now apply (nth_put k _ n). now rewrite (nth_put k _ n).
  - rewrite (nth_put_other k i _ m) by (try easy; now apply (nth_put k _ n)). now rewrite !(nth_put_other k i _ n).
Qed.
Lemma put_cons i p c e d : nth_error (children e) i = Some (NElem d) ->
  put_element (i :: p) c e = set_children e (firstn i (children e) ++ NElem (put_element p c d) :: skipn (S i) (children e)).
Proof. intro H. cbn [put_element]. now rewrite H. Qed.
Lemma at_cons i p e d : nth_error (children e) i = Some (NElem d) -> element_at e (i :: p) = element_at d p.
Proof. intro H. cbn [element_at]. now rewrite H. Qed.
Lemma at_cons_inv i p e c : element_at e (i :: p) = Some c -> exists d, nth_error (children e) i = Some (NElem d) /\ element_at d p = Some c.
Proof. cbn [element_at]. destruct (nth_error (children e) i) as [[d| | |]|] eqn:E; try discriminate. intro H. now exists d. Qed.
Lemma put_at p : forall e c c', element_at e p = Some c -> element_at (put_element p c' e) p = Some c'.
Proof.
  induction p as [|i p IH]; intros e c c' H; [easy|]. apply at_cons_inv in H as (d & E & H). rewrite (put_cons _ _ _ _ _ E).
  rewrite (at_cons i p _ (put_element p c' d)); [now apply (IH d c)|]. cbn [children e_children set_children]. now apply (nth_put i _ (NElem d)).
Qed.
Lemma apart_commute p q e c d c' d' : apart p q -> element_at e p = Some c -> element_at e q = Some d ->
  element_at (put_element p c' e) q = Some d /\ element_at (put_element q d' e) p = Some c /\
  put_element q d' (put_element p c' e) = put_element p c' (put_element q d' e).
Proof.
  intros (common & i & j & p' & q' & N & -> & ->). revert e. induction common as [|k common IH]; intros e Hp Hq; cbn [app] in *.
  - apply at_cons_inv in Hp as (x & Ex & Hp). apply at_cons_inv in Hq as (y & Ey & Hq).
    assert (N' : j <> i) by congruence.
    rewrite (put_cons i p' c' e x Ex), (put_cons j q' d' e y Ey).
    set (e1 := set_children e (firstn i (children e) ++ NElem (put_element p' c' x) :: skipn (S i) (children e))).
    set (e2 := set_children e (firstn j (children e) ++ NElem (put_element q' d' y) :: skipn (S j) (children e))).
    assert (E1 : nth_error (children e1) j = Some (NElem y)) by (unfold e1; cbn [children e_children set_children]; now rewrite (nth_put_other _ _ _ _ _ Ex)).
    assert (E2 : nth_error (children e2) i = Some (NElem x)) by (unfold e2; cbn [children e_children set_children]; now rewrite (nth_put_other _ _ _ _ _ Ey)).
    rewrite (at_cons _ _ _ _ E1), (at_cons _ _ _ _ E2). split; [easy|]. split; [easy|].
    rewrite (put_cons _ _ _ _ _ E1), (put_cons _ _ _ _ _ E2). unfold e1, e2. rewrite !set_children_twice. f_equal. cbn [children e_children set_children].
    apply list_ext. intro k. destruct (Nat.eq_dec k i) as [->|K].
    { rewrite (nth_put_other j i _ (NElem y)); [|exact E1|easy]. rewrite (nth_put i _ (NElem x)) by easy. rewrite (nth_put i _ (NElem x)); [easy|]. exact E2. }
    destruct (Nat.eq_dec k j) as [->|K'].
    { rewrite (nth_put j _ (NElem y)) by exact E1. rewrite (nth_put_other i j _ (NElem x)); [|exact E2|easy]. now rewrite (nth_put j _ (NElem y)). }
    rewrite (nth_put_other j k _ (NElem y)); [|exact E1|congruence]. rewrite (nth_put_other i k _ (NElem x)) by congruence.
    rewrite (nth_put_other i k _ (NElem x)); [|exact E2|congruence]. now rewrite (nth_put_other j k _ (NElem y)) by congruence.
  - apply at_cons_inv in Hp as (x & Ex & Hp). apply at_cons_inv in Hq as (y & Ey & Hq). rewrite Ex in Ey. injection Ey as <-.
    destruct (IH x Hp Hq) as (A & B & C). rewrite !(put_cons k _ _ e x Ex).
    assert (forall z, nth_error (children (set_children e (firstn k (children e) ++ NElem z :: skipn (S k) (children e)))) k = Some (NElem z)) as G.
    { intro z. cbn [children e_children set_children]. now apply (nth_put k _ (NElem x)). }
    rewrite !(at_cons k _ _ _ (G _)). split; [easy|]. split; [easy|]. rewrite !(put_cons k _ _ _ _ (G _)), !set_children_twice. f_equal.
    rewrite C. cbn [children e_children set_children]. now rewrite !(put_twice k _ _ _ _ Ex).
Qed.
(** Attributes of an element above. *)
Lemma put_app p : forall q e c d', element_at e p = Some c -> put_element (p ++ q) d' e = put_element p (put_element q d' c) e.
Proof.
  induction p as [|i p IH]; intros q e c d' H; [now injection H as ->|]. cbn [app]. apply at_cons_inv in H as (x & Ex & H).
  rewrite !(put_cons i _ _ e x Ex). now rewrite (IH q x c d' H).
Qed.
Lemma put_put p : forall e c x y, element_at e p = Some c -> put_element p x (put_element p y e) = put_element p x e.
Proof.
  induction p as [|i p IH]; intros e c x y H; [easy|]. apply at_cons_inv in H as (d & E & H). rewrite !(put_cons i _ _ e d E).
  rewrite (put_cons i _ _ _ (put_element p y d)) by (cbn [children e_children set_children]; now apply (nth_put i _ (NElem d))).
  rewrite set_children_twice. f_equal. rewrite (IH d c x y H). cbn [children e_children set_children]. now rewrite (put_twice i _ _ _ _ E).
Qed.
Lemma above_commute p i q e c d d' m : element_at e p = Some c -> element_at e (p ++ i :: q) = Some d ->
  exists c1, element_at (put_element (p ++ i :: q) d' e) p = Some c1 /\ attributes c1 = attributes c /\
    element_at (put_element p (other_attributes c m) e) (p ++ i :: q) = Some d /\
    put_element p (other_attributes c1 m) (put_element (p ++ i :: q) d' e) =
    put_element (p ++ i :: q) d' (put_element p (other_attributes c m) e).
Proof.
  intros Hp Hq. rewrite (put_app p (i :: q) e c d' Hp).
  assert (forall p q e c, element_at e p = Some c -> element_at e (p ++ q) = element_at c q) as A.
  { clear. induction p as [|i p IH]; intros q e c H; [now injection H as ->|]. cbn [app]. apply at_cons_inv in H as (x & Ex & H).
    rewrite (at_cons _ _ _ _ Ex). now apply IH. }
  rewrite (A p (i :: q) e c Hp) in Hq. apply at_cons_inv in Hq as (x & Ex & Hq).
  exists (put_element (i :: q) d' c). rewrite (put_at p e c _ Hp). split; [easy|]. split; [now rewrite (put_cons _ _ _ _ _ Ex)|].
  rewrite (A p (i :: q) _ (other_attributes c m)) by now apply (put_at p e c).
  split; [now rewrite (at_cons i q _ x)|].
  rewrite (put_app p (i :: q) _ (other_attributes c m)) by now apply (put_at p e c).
  rewrite !(put_put p e c) by easy. f_equal. rewrite (put_cons _ _ _ _ _ Ex). now rewrite (put_cons i q d' (other_attributes c m) x).
Qed.

(** * Removals *)

Lemma remove_twice e i j x y e1 e2 : remove e i = Ok (x, e1) -> remove e1 j = Ok (y, e2) -> i <= j ->
  exists e1', remove e (S j) = Ok (y, e1') /\ remove e1' i = Ok (x, e2).
Proof.
  intros H1 H2 L. apply remove_inv in H1 as (a & b & E & La & ->). apply remove_inv in H2 as (a2 & b2 & E2 & La2 & ->).
  cbn [e_children set_children] in *. assert (exists m, a2 = a ++ m /\ b = m ++ y :: b2) as (m & -> & ->).
  { assert (List.length a <= List.length a2) as L' by lia. clear - L' E2. revert a2 L' E2. induction a as [|z a IH]; intros a2 L E2; cbn in *.
    - now exists a2.
    - destruct a2 as [|z2 a2]; cbn in *; [lia|]. injection E2 as <- E2. destruct (IH a2) as (m & -> & ->); [lia|easy|]. now exists m. }
  exists (set_children e ((a ++ x :: m) ++ b2)). split.
  - replace (S j) with (List.length (a ++ x :: m)); [apply remove_eq; now rewrite <- app_assoc|]. rewrite app_length in *. cbn. lia.
  - rewrite <- La. rewrite (remove_eq _ a x (m ++ b2)) by (cbn [e_children set_children]; now rewrite <- app_assoc). now rewrite !set_children_twice, <- app_assoc.
Qed.
Lemma filter_two (p q : node -> bool) l : filter (fun n => negb (q n)) (filter (fun n => negb (p n)) l) = filter (fun n => negb (p n || q n)) l.
Proof. induction l as [|n l IH]; [easy|]. cbn. destruct (p n) eqn:P; cbn; [easy|]. destruct (q n); cbn; now rewrite IH. Qed.
Lemma filter_count (p q : node -> bool) l : List.length (filter p l) + List.length (filter q (filter (fun n => negb (p n)) l)) =
  List.length (filter (fun n => p n || q n) l).
Proof. induction l as [|n l IH]; [easy|]. cbn. destruct (p n) eqn:P; cbn; [lia|]. destruct (q n); cbn; lia. Qed.
Lemma remove_by_two e p q e1 k1 e2 k2 : remove_by e p = Ok (e1, k1) -> remove_by e1 q = Ok (e2, k2) ->
  remove_by e (fun n => p n || q n) = Ok (e2, k1 + k2).
Proof.
  rewrite remove_by_eq. intros [= <- <-]. rewrite !remove_by_eq. intros [= <- <-]. cbn [e_children set_children].
  now rewrite set_children_twice, filter_two, filter_count.
Qed.
Lemma pruned_two p q : shallow_only p -> shallow_only q -> forall l l1 k1, pruned p l l1 k1 -> forall l2 k2, pruned q l1 l2 k2 ->
  exists k, pruned (fun n => p n || q n) l l2 k.
Proof.
  intros P Q. induction 1 as [|n l l' k Pn H IH|n l l' k Pn Hn H IH|e ch' l l' k1 k2 Pn Hc IHc H IH]; intros m km Hm.
  - inversion Hm; subst. exists 0. constructor.
  - destruct (IH _ _ Hm) as (k' & X). exists (S k'). constructor; [now rewrite Pn|easy].
  - inversion Hm as [|? ? ? ? Qn Hm'|? ? ? ? Qn _ Hm'|? ? ? ? ? ? Qn Hc' Hm']; subst.
    + destruct (IH _ _ Hm') as (k' & X). exists (S k'). constructor; [now rewrite Pn, Qn|easy].
    + destruct (IH _ _ Hm') as (k' & X). exists k'. constructor; [now rewrite Pn, Qn|easy|easy].
    + now destruct (Hn e).
  - assert (q (NElem (set_children e ch')) = q (NElem e)) as Eq.
    { rewrite (Q (NElem (set_children e ch'))), (Q (NElem e)). cbn [shallow]. now rewrite set_children_twice. }
    inversion Hm as [|? ? ? ? Qn Hm'|? ? ? ? Qn Hn Hm'|? ? ? ? ? ? Qn Hc' Hm']; subst.
    + destruct (IH _ _ Hm') as (k' & X). exists (S k'). constructor; [|easy]. rewrite Eq in Qn. now rewrite Qn, orb_true_r.
    + now destruct (Hn (set_children e ch')).
    + cbn [e_children set_children] in Hc'. destruct (IHc _ _ Hc') as (j & X). destruct (IH _ _ Hm') as (j' & X'). exists (j + j').
      rewrite set_children_twice. constructor; [|easy|easy]. rewrite Eq in Qn. now rewrite Pn, Qn.
Qed.
Lemma remove_all_two p q e e1 k1 e2 k2 : shallow_only p -> shallow_only q ->
  remove_all p e = Ok (e1, k1) -> remove_all q e1 = Ok (e2, k2) -> exists k, remove_all (fun n => p n || q n) e = Ok (e2, k).
Proof.
  intros P Q. destruct (remove_all_pruned p e) as (l & k & -> & Hl). intros [= <- <-].
  destruct (remove_all_pruned q (set_children e l)) as (l' & k' & -> & Hl'). intros [= <- <-]. cbn [e_children set_children] in Hl'.
  destruct (pruned_two p q P Q _ _ _ Hl _ _ Hl') as (j & X). destruct (remove_all_pruned (fun n => p n || q n) e) as (l2 & k2 & -> & H2).
  destruct (pruned_fun _ _ _ _ H2 _ _ X) as [-> _]. exists k2. now rewrite set_children_twice.
Qed.
Lemma pruned_ext p q l l' k : (forall n, p n = q n) -> pruned p l l' k -> pruned q l l' k.
Proof. intros E H. induction H; constructor; auto; now rewrite <- E. Qed.
Lemma remove_all_order p q e e1 k1 e2 k2 : shallow_only p -> shallow_only q ->
  remove_all p e = Ok (e1, k1) -> remove_all q e1 = Ok (e2, k2) ->
  exists e1' k1' k2', remove_all q e = Ok (e1', k1') /\ remove_all p e1' = Ok (e2, k2').
Proof.
  intros P Q H1 H2. destruct (remove_all_two p q e e1 k1 e2 k2 P Q H1 H2) as (k & H).
  destruct (remove_all_pruned q e) as (l & j & E & _). destruct (remove_all_pruned p (set_children e l)) as (l' & j' & E' & _).
  destruct (remove_all_two q p e _ _ _ _ Q P E E') as (k' & H'). exists (set_children e l), j, j'. split; [easy|]. rewrite E'.
  destruct (remove_all_pruned (fun n => p n || q n) e) as (x & kx & Ex & Px). destruct (remove_all_pruned (fun n => q n || p n) e) as (y & ky & Ey & Py).
  rewrite Ex in H. rewrite Ey in H'. injection H as <- <-. injection H' as H' _.
  apply (pruned_ext _ (fun n => p n || q n)) in Py; [|intro n; apply orb_comm]. destruct (pruned_fun _ _ _ _ Px _ _ Py) as [-> _]. now rewrite H'.
Qed.
Lemma pruned_again p : shallow_only p -> forall l l1 k1, pruned p l l1 k1 -> pruned p l1 l1 0.
Proof.
  intros P. induction 1 as [|n l l' k Pn H IH|n l l' k Pn Hn H IH|e ch' l l' k1 k2 Pn Hc IHc H IH]; try easy.
  - constructor.
  - now constructor.
  - replace (NElem (set_children e ch') :: l') with (NElem (set_children (set_children e ch') ch') :: l') at 2 by now rewrite set_children_twice.
    apply (pr_elem p (set_children e ch') ch' l' l' 0 0); try easy.
    rewrite P in Pn |- *. cbn [shallow] in *. now rewrite set_children_twice.
Qed.
Lemma remove_all_again p e e1 k : shallow_only p -> remove_all p e = Ok (e1, k) -> remove_all p e1 = Ok (e1, 0).
Proof.
  intros P. destruct (remove_all_pruned p e) as (l & k' & -> & Hl). intros [= <- <-].
  destruct (remove_all_pruned p (set_children e l)) as (l' & j & -> & Hl'). cbn [e_children set_children] in Hl'.
  destruct (pruned_fun _ _ _ _ Hl' _ _ (pruned_again p P _ _ _ Hl)) as [-> ->]. now rewrite set_children_twice.
Qed.

(** * Appending *)

Lemma append_all_app e l1 l2 e1 : no_blank_text (e_children e ++ l1) -> append_all e l1 = Ok e1 ->
  append_all e1 l2 = append_all e (l1 ++ l2).
Proof.
  intros B. rewrite !append_all_eq. intros [= <-]. cbn [e_children set_children]. rewrite set_children_twice. do 2 f_equal.
  rewrite map_app, app_assoc, <- (clean_clean_app (e_children e ++ map (inherited e) l1)); [easy|].
  apply no_blank_keep. intros s Hs. apply B. apply in_app_or in Hs as [Hs|Hs]; apply in_or_app; [now left|]. right.
  apply in_map_iff in Hs as (n & E & Hn). apply inherited_sort in E. now subst.
Qed.

(** The arena of src/parsing.rs refines the stack machine of SpecTree.v. *)
From Coq Require Import List NArith Arith Bool Lia.
From Verif Require Import Base BaseFacts Dom Spec SpecDom DomFacts SpecApi ApiFacts ParseTree SpecTree.
Import ListNotations.

(** * The arena as a list of (value, parent), indexed by id *)

Definition arena := list (node * option nat).

Section NatMap.
  Context {V : Type}.
  Implicit Types m : list (nat * V).
  Notation nget := (mget (V := V) Nat.eqb).
  Notation nset := (mset (V := V) Nat.eqb).
  Notation ndel := (mdel (V := V) Nat.eqb).

  Lemma nget_nset k k' v m : nget k' (nset k v m) = if k' =? k then Some v else nget k' m.
  Proof.
    induction m as [|[x w] m IH]; cbn.
    - now destruct (k' =? k).
    - destruct (k =? x) eqn:E; cbn.
      + apply Nat.eqb_eq in E. subst x. now destruct (k' =? k).
      + rewrite IH. destruct (k' =? x) eqn:E1; [|easy].
        apply Nat.eqb_eq in E1. subst x. rewrite Nat.eqb_sym in E. now rewrite E.
  Qed.

  Lemma nset_length_old k v m w : nget k m = Some w -> length (nset k v m) = length m.
  Proof.
    induction m as [|[x u] m IH]; cbn; [easy|].
    destruct (k =? x); cbn; [easy|]. intro H. now rewrite IH.
  Qed.
  Lemma nset_length_new k v m : nget k m = None -> length (nset k v m) = S (length m).
  Proof.
    induction m as [|[x u] m IH]; cbn; [easy|].
    destruct (k =? x); cbn; [easy|]. intro H. now rewrite IH.
  Qed.
  Lemma nget_none k m : nget k m = None <-> ~ In k (map fst m).
  Proof.
    induction m as [|[x u] m IH]; cbn; [easy|].
    destruct (k =? x) eqn:E.
    - apply Nat.eqb_eq in E. subst x. split; [easy|]. intro H. exfalso. apply H. now left.
    - apply Nat.eqb_neq in E. rewrite IH. split; intro H; [intros [F|F]; [now apply E|now apply H]|].
      intro F. apply H. now right.
  Qed.
  Lemma nset_keys k v m x : In x (map fst (nset k v m)) -> x = k \/ In x (map fst m).
  Proof.
    induction m as [|[y u] m IH]; cbn.
    - intros [H|[]]. now left.
    - destruct (k =? y) eqn:E; cbn; intros [H|H]; auto. apply IH in H. tauto.
  Qed.
  Lemma nset_nodup k v m : NoDup (map fst m) -> NoDup (map fst (nset k v m)).
  Proof.
    induction m as [|[y u] m IH]; cbn; intro H.
    - constructor; [easy|constructor].
    - inversion H as [|? ? H1 H2]; subst. destruct (k =? y) eqn:E; cbn; [now constructor|].
      constructor; [|now apply IH]. intro F. apply nset_keys in F. destruct F as [F|F]; [|easy].
      subst y. now rewrite Nat.eqb_refl in E.
  Qed.
  Lemma ndel_keys k m x : In x (map fst (ndel k m)) -> In x (map fst m).
  Proof.
    induction m as [|[y u] m IH]; cbn; [easy|].
    destruct (k =? y); cbn; [now right|]. intros [H|H]; auto.
  Qed.
  Lemma ndel_nodup k m : NoDup (map fst m) -> NoDup (map fst (ndel k m)).
  Proof.
    induction m as [|[y u] m IH]; cbn; intro H; [easy|].
    inversion H as [|? ? H1 H2]; subst. destruct (k =? y); cbn; [easy|].
    constructor; [|now apply IH]. intro F. now apply ndel_keys in F.
  Qed.
  Lemma nget_ndel k k' m : NoDup (map fst m) -> nget k' (ndel k m) = if k' =? k then None else nget k' m.
  Proof.
    induction m as [|[y u] m IH]; cbn; intro H; [now destruct (k' =? k)|].
    inversion H as [|? ? H1 H2]; subst. destruct (k =? y) eqn:E; cbn.
    - apply Nat.eqb_eq in E. subst y. destruct (k' =? k) eqn:E1; [|easy].
      apply Nat.eqb_eq in E1. subst k'. now apply nget_none.
    - rewrite IH by easy. destruct (k' =? y) eqn:E1; [|easy].
      apply Nat.eqb_eq in E1. subst y. rewrite Nat.eqb_sym in E. now rewrite E.
  Qed.
End NatMap.

(** [rep data L]: the map holds exactly the entries of [L], by index. *)
Definition view (n : ptnode) : node * option nat := (pt_value n, pt_parent n).
Definition rep (data : list (nat * ptnode)) (L : arena) : Prop :=
  NoDup (map fst data) /\ length data = length L /\
  forall i, option_map view (dget i data) = nth_error L i.

Fixpoint upd {A} (l : list A) (i : nat) (a : A) : list A :=
  match l, i with
  | [], _ => []
  | _ :: l', O => a :: l'
  | x :: l', S i' => x :: upd l' i' a
  end.
Lemma upd_length {A} (l : list A) i a : length (upd l i a) = length l.
Proof. revert i. induction l; intros [|i]; cbn; auto. Qed.
Lemma nth_error_upd {A} (l : list A) i a : forall j,
  nth_error (upd l i a) j = if j =? i then option_map (fun _ => a) (nth_error l i) else nth_error l j.
Proof.
  revert i. induction l as [|x l IH]; intros i j.
  - destruct i, j; cbn; try easy. now destruct (j =? i).
  - destruct i as [|i], j as [|j]; cbn; try easy.
Qed.
Lemma upd_app_l {A} (l r : list A) i a : i < length l -> upd (l ++ r) i a = upd l i a ++ r.
Proof.
  revert i. induction l as [|x l IH]; intros [|i] H; cbn in *; try lia; [easy|].
  rewrite IH by lia. easy.
Qed.
Lemma upd_last {A} (l : list A) x a : upd (l ++ [x]) (length l) a = l ++ [a].
Proof. induction l as [|y l IH]; cbn; [easy|]. now rewrite IH. Qed.
Lemma upd_upd {A} (l : list A) i a b : upd (upd l i a) i b = upd l i b.
Proof. revert i. induction l as [|x l IH]; intros [|i]; cbn; [easy..|]. now rewrite IH. Qed.
Lemma upd_same {A} (l : list A) i a : nth_error l i = Some a -> upd l i a = l.
Proof.
  revert i. induction l as [|x l IH]; intros [|i]; cbn; try easy.
  - now intros [= ->].
  - intro H. now rewrite IH.
Qed.

Lemma rep_get data L i x : rep data L -> nth_error L i = Some x ->
  exists n, dget i data = Some n /\ view n = x.
Proof.
  intros (_ & _ & H) E. rewrite <- H in E. destruct (dget i data) as [n|]; [|easy].
  exists n. cbn in E. split; [easy|]. now injection E.
Qed.

Lemma rep_set data L i n x : rep data L -> nth_error L i = Some x ->
  rep (dset i n data) (upd L i (view n)).
Proof.
  intros (H1 & H2 & H3) E. split; [now apply nset_nodup|]. split.
  - rewrite upd_length, <- H2.
    destruct (rep_get data L i x) as (n0 & E0 & _); [easy..|]. now apply nset_length_old with n0.
  - intro j. unfold dget, dset. rewrite nget_nset, nth_error_upd. destruct (j =? i) eqn:Ej.
    + now rewrite E.
    + apply H3.
Qed.

Lemma rep_new data L n : rep data L -> rep (dset (length L) n data) (L ++ [view n]).
Proof.
  intros (H1 & H2 & H3).
  assert (N : dget (length L) data = None).
  { destruct (dget (length L) data) eqn:E; [|easy].
    specialize (H3 (length L)). rewrite E in H3. cbn in H3.
    now rewrite (proj2 (nth_error_None L (length L))) in H3. }
  split; [now apply nset_nodup|]. split.
  - rewrite app_length. cbn. unfold dset. rewrite nset_length_new by easy. lia.
  - intro j. unfold dget, dset. rewrite nget_nset. destruct (j =? length L) eqn:Ej.
    + apply Nat.eqb_eq in Ej. subst j. now rewrite nth_error_app2, Nat.sub_diag by lia.
    + apply Nat.eqb_neq in Ej. destruct (Nat.lt_ge_cases j (length L)) as [Hj|Hj].
      * rewrite nth_error_app1 by easy. apply H3.
      * transitivity (nth_error L j); [apply H3|].
        rewrite (proj2 (nth_error_None L j)) by lia. symmetry.
        apply nth_error_None. rewrite app_length. cbn. lia.
Qed.

(** During [to_dom] the map shrinks; only look-ups matter. *)
Definition rep' (data : list (nat * ptnode)) (L : arena) : Prop :=
  NoDup (map fst data) /\ forall i, option_map view (dget i data) = nth_error L i.

Lemma rep_rep' data L : rep data L -> rep' data L.
Proof. intros (H1 & _ & H3). now split. Qed.
Lemma rep'_get data L i x : rep' data L -> nth_error L i = Some x ->
  exists n, dget i data = Some n /\ view n = x.
Proof.
  intros (_ & H) E. rewrite <- H in E. destruct (dget i data) as [n|]; [|easy].
  exists n. cbn in E. split; [easy|]. now injection E.
Qed.
Lemma rep'_set data L i n x : rep' data L -> nth_error L i = Some x ->
  rep' (dset i n data) (upd L i (view n)).
Proof.
  intros (H1 & H3) E. split; [now apply nset_nodup|].
  intro j. unfold dget, dset. rewrite nget_nset, nth_error_upd. destruct (j =? i) eqn:Ej.
  - now rewrite E.
  - apply H3.
Qed.
Lemma rep'_del data L x : rep' data (L ++ [x]) -> rep' (ddel (length L) data) L.
Proof.
  intros (H1 & H3). split; [now apply ndel_nodup|].
  intro j. unfold dget, ddel. rewrite nget_ndel by easy. destruct (j =? length L) eqn:Ej.
  - apply Nat.eqb_eq in Ej. subst j. now rewrite (proj2 (nth_error_None L (length L))).
  - apply Nat.eqb_neq in Ej. specialize (H3 j). unfold dget in H3. rewrite H3.
    destruct (Nat.lt_ge_cases j (length L)) as [Hj|Hj].
    + now rewrite nth_error_app1.
    + rewrite (proj2 (nth_error_None L j)) by lia.
      apply nth_error_None. rewrite app_length. cbn. lia.
Qed.

(** * Assembling *)

(** What [to_dom] does with an element [e] whose finished children are [ns]:
    append them from the last to the first, then reverse. *)
Definition adopt1 (e : elem) (n : node) : elem :=
  set_children e (clean (e_children e ++ [inherited e n])).
Definition gather (e : elem) (ns : list node) : elem := fold_left adopt1 (rev ns) e.
Definition build (e : elem) (ns : list node) : elem := reverse_children (gather e ns).
Fixpoint assemble (t : rtree) : node :=
  match t with
  | RT (NElem e) ks => NElem (build e (map assemble ks))
  | RT v _ => v
  end.

Lemma rtree_ind' (P : rtree -> Prop)
  (H : forall v ks, (forall k, In k ks -> P k) -> P (RT v ks)) : forall t, P t.
Proof.
  fix IH 1. intros [v ks]. apply H.
  induction ks as [|k ks IHks]; [intros x []|]. intros x [<-|Hx]; [apply IH|now apply IHks].
Qed.

(** Arena entries of a list of trees, in pre-order, from id [base] on. *)
Fixpoint tsize (t : rtree) : nat :=
  match t with RT _ ks => S (fold_right (fun k a => tsize k + a) 0 ks) end.
Fixpoint flat1 (parent base : nat) (t : rtree) : arena :=
  match t with
  | RT v ks =>
      (v, Some parent) ::
      (fix go (b : nat) (l : list rtree) : arena :=
         match l with
         | [] => []
         | k :: l' => flat1 base b k ++ go (b + tsize k) l'
         end) (S base) ks
  end.
Fixpoint flat (parent base : nat) (l : list rtree) : arena :=
  match l with
  | [] => []
  | k :: l' => flat1 parent base k ++ flat parent (base + tsize k) l'
  end.
Lemma flat1_eq parent base v ks : flat1 parent base (RT v ks) = (v, Some parent) :: flat base (S base) ks.
Proof.
  cbn [flat1]. f_equal. generalize (S base) as b. induction ks as [|k ks IH]; intro b; cbn; [easy|].
  now rewrite IH.
Qed.
Definition fsize (l : list rtree) : nat := fold_right (fun k a => tsize k + a) 0 l.
Lemma fsize_app a b : fsize (a ++ b) = fsize a + fsize b.
Proof. unfold fsize. induction a as [|k a IH]; cbn; [easy|]. rewrite IH. lia. Qed.
Lemma flat_length_aux ks : (forall k, In k ks -> forall p b, length (flat1 p b k) = tsize k) ->
  forall p b, length (flat p b ks) = fsize ks.
Proof.
  induction ks as [|k ks IH]; intros H p b; cbn; [easy|].
  rewrite app_length, H by now left. rewrite IH; [easy|]. intros. apply H. now right.
Qed.
Lemma flat1_length : forall t p b, length (flat1 p b t) = tsize t.
Proof.
  induction t as [v ks IH] using rtree_ind'. intros p b. rewrite flat1_eq. cbn [length].
  rewrite (flat_length_aux ks IH). easy.
Qed.
Lemma flat_length p b ks : length (flat p b ks) = fsize ks.
Proof. apply flat_length_aux. intros. apply flat1_length. Qed.
Lemma flat_app p : forall a b base, flat p base (a ++ b) = flat p base a ++ flat p (base + fsize a) b.
Proof.
  induction a as [|k a IH]; intros b base; cbn.
  - now rewrite Nat.add_0_r.
  - rewrite IH, app_assoc. now rewrite Nat.add_assoc.
Qed.

(** Leaves have nothing below them. *)
Inductive rt_ok : rtree -> Prop :=
| ro_elem e ks : (forall k, In k ks -> rt_ok k) -> rt_ok (RT (NElem e) ks)
| ro_leaf n : (forall e, n <> NElem e) -> rt_ok (RT n []).

Lemma to_dom_step_ok data pre v p pe pp :
  rep' data (pre ++ [(v, Some p)]) -> nth_error pre p = Some (NElem pe, pp) ->
  exists data', to_dom_step (length pre) data = Ok data' /\
    rep' data' (upd pre p (NElem (adopt1 pe (match v with NElem e => NElem (reverse_children e) | _ => v end)), pp)).
Proof.
  intros R E. unfold to_dom_step.
  destruct (rep'_get _ _ (length pre) (v, Some p) R) as (n & En & Vn).
  { now rewrite nth_error_app2, Nat.sub_diag by lia. }
  rewrite En. cbn [unwrap bind]. unfold view in Vn. injection Vn as Vv Vp.
  rewrite Vv, Vp. cbn [unwrap bind].
  apply rep'_del in R. destruct (rep'_get _ _ _ _ R E) as (q & Eq & Vq).
  rewrite Eq. cbn [unwrap bind]. unfold view in Vq. injection Vq as Vqv Vqp.
  rewrite Vqv. cbn [as_element expect bind]. rewrite append_eq. cbn [bind].
  eexists. split; [reflexivity|].
  set (x := mkPT _ _ _ _).
  assert (view x = (NElem (adopt1 pe match v with NElem e => NElem (reverse_children e) | _ => v end), pp)) as <-.
  { unfold x, view. cbn [pt_value pt_parent]. rewrite Vqp. unfold adopt1. now destruct v. }
  now apply rep'_set with (NElem pe, pp).
Qed.

(** Processing the entries of [ks] adds the finished trees to the parent. *)
Lemma to_dom_flat_aux : forall ks, (forall k, In k ks -> forall data pre p pe pp k0,
    rt_ok k -> rep' data (pre ++ flat1 p (length pre) k) -> nth_error pre p = Some (NElem pe, pp) ->
    length pre = S k0 ->
    exists data', to_dom_loop (k0 + tsize k) data = to_dom_loop k0 data' /\
      rep' data' (upd pre p (NElem (adopt1 pe (assemble k)), pp))) ->
  forall data pre p pe pp k0, (forall k, In k ks -> rt_ok k) ->
    rep' data (pre ++ flat p (length pre) ks) -> nth_error pre p = Some (NElem pe, pp) ->
    length pre = S k0 ->
    exists data', to_dom_loop (k0 + fsize ks) data = to_dom_loop k0 data' /\
      rep' data' (upd pre p (NElem (gather pe (map assemble ks)), pp)).
Proof.
  induction ks as [|k ks IH]; intros Hk data pre p pe pp k0 Hok R E Hl.
  - cbn. rewrite Nat.add_0_r. exists data. split; [easy|].
    rewrite upd_same by easy. cbn in R. now rewrite app_nil_r in R.
  - cbn [flat] in R. rewrite app_assoc in R.
    assert (Hp : p < length pre) by (apply nth_error_Some; now rewrite E).
    destruct (IH (fun x Hx => Hk x (or_intror Hx)) data (pre ++ flat1 p (length pre) k) p pe pp (k0 + tsize k))
      as (d1 & L1 & R1).
    + intros x Hx. apply Hok. now right.
    + now rewrite app_length, flat1_length.
    + now rewrite nth_error_app1.
    + rewrite app_length, flat1_length. lia.
    + rewrite upd_app_l in R1 by easy.
      destruct (Hk k (or_introl eq_refl) d1 (upd pre p (NElem (gather pe (map assemble ks)), pp)) p
                  (gather pe (map assemble ks)) pp k0) as (d2 & L2 & R2).
      * apply Hok. now left.
      * now rewrite upd_length.
      * rewrite nth_error_upd, Nat.eqb_refl, E. easy.
      * now rewrite upd_length.
      * exists d2. split.
        -- replace (k0 + fsize (k :: ks)) with (k0 + tsize k + fsize ks) by (unfold fsize; cbn; lia).
           now rewrite L1, L2.
        -- rewrite upd_upd in R2. unfold gather. cbn [map rev]. rewrite fold_left_app. exact R2.
Qed.

Lemma to_dom_flat1 : forall k data pre p pe pp k0,
    rt_ok k -> rep' data (pre ++ flat1 p (length pre) k) -> nth_error pre p = Some (NElem pe, pp) ->
    length pre = S k0 ->
    exists data', to_dom_loop (k0 + tsize k) data = to_dom_loop k0 data' /\
      rep' data' (upd pre p (NElem (adopt1 pe (assemble k)), pp)).
Proof.
  induction k as [v ks IH] using rtree_ind'. intros data pre p pe pp k0 Hok R E Hl.
  rewrite flat1_eq in R.
  assert (Hp : p < length pre) by (apply nth_error_Some; now rewrite E).
  assert (S1 : forall v' d1, rep' d1 (pre ++ [(v', Some p)]) ->
    exists data', to_dom_loop (S k0) d1 = to_dom_loop k0 data' /\
      rep' data' (upd pre p (NElem (adopt1 pe (match v' with NElem e => NElem (reverse_children e) | _ => v' end)), pp))).
  { intros v' d1 R1. destruct (to_dom_step_ok _ _ _ _ _ _ R1 E) as (d2 & L2 & R2).
    exists d2. split; [|easy]. cbn [to_dom_loop]. rewrite <- Hl, L2. easy. }
  inversion Hok as [e ks' Hks|n Hn]; subst.
  - destruct (to_dom_flat_aux ks IH data (pre ++ [(NElem e, Some p)]) (length pre) e (Some p) (S k0))
      as (d1 & L1 & R1).
    + easy.
    + rewrite app_length. cbn [length]. rewrite Nat.add_1_r, <- app_assoc. exact R.
    + now rewrite nth_error_app2, Nat.sub_diag by lia.
    + rewrite app_length. cbn. lia.
    + rewrite upd_last in R1. destruct (S1 _ _ R1) as (d2 & L2 & R2). exists d2. split.
      * replace (k0 + tsize (RT (NElem e) ks)) with (S k0 + fsize ks) by (unfold fsize; cbn; lia).
        now rewrite L1, L2.
      * exact R2.
  - cbn in R. destruct (S1 _ _ R) as (d2 & L2 & R2). exists d2. split.
    + cbn [tsize fold_right]. now rewrite Nat.add_1_r, L2.
    + destruct v; try exact R2.
Qed.

Lemma to_dom_flat : forall ks data pre p pe pp k0, (forall k, In k ks -> rt_ok k) ->
    rep' data (pre ++ flat p (length pre) ks) -> nth_error pre p = Some (NElem pe, pp) ->
    length pre = S k0 ->
    exists data', to_dom_loop (k0 + fsize ks) data = to_dom_loop k0 data' /\
      rep' data' (upd pre p (NElem (gather pe (map assemble ks)), pp)).
Proof. intros ks. apply to_dom_flat_aux. intros k _. apply to_dom_flat1. Qed.

(** * The machine and the arena *)

(** Arena contents for a stack of open elements (innermost first). *)
Fixpoint outer_arena (outer : list (elem * list rtree)) : arena * option nat :=
  match outer with
  | [] => ([], None)
  | (e, ks) :: outer' =>
      let (L, pp) := outer_arena outer' in
      (L ++ (NElem e, pp) :: flat (length L) (S (length L)) ks, Some (length L))
  end.

Definition kids_ok (l : list (elem * list rtree)) : Prop :=
  forall e ks k, In (e, ks) l -> In k ks -> rt_ok k.
Definition sim (t : ptree) (m : machine) : Prop :=
  match m with
  | MNew => t = pt_new
  | MOpen e ks outer =>
      rep (t_data t) (fst (outer_arena ((e, ks) :: outer))) /\
      t_pos t = snd (outer_arena ((e, ks) :: outer)) /\ kids_ok ((e, ks) :: outer)
  | MDone e ks =>
      rep (t_data t) (fst (outer_arena [(e, ks)])) /\ t_pos t = None /\ kids_ok [(e, ks)]
  end.

Lemma outer_nth e ks outer :
  let (L, pp) := outer_arena outer in
  nth_error (fst (outer_arena ((e, ks) :: outer))) (length L) = Some (NElem e, pp).
Proof.
  cbn. destruct (outer_arena outer) as [L pp]. cbn.
  now rewrite nth_error_app2, Nat.sub_diag by lia.
Qed.

Lemma add_child_ok data L pos x id : rep data L -> nth_error L pos = Some x ->
  exists data', pt_add_child data pos id = Ok data' /\ rep data' L.
Proof.
  intros R E. destruct (rep_get _ _ _ _ R E) as (n & En & Vn). unfold pt_add_child.
  rewrite En. cbn [unwrap bind]. eexists. split; [reflexivity|].
  set (y := mkPT _ _ _ _).
  assert (view y = x) by (subst x; easy).
  replace L with (upd L pos (view y)) by (apply upd_same; congruence).
  now apply rep_set with x.
Qed.

Lemma kids_ok_cons e ks outer : kids_ok ((e, ks) :: outer) <->
  (forall k, In k ks -> rt_ok k) /\ kids_ok outer.
Proof.
  unfold kids_ok. split.
  - intro H. split; [intros; now apply (H e ks k); [left|]|]. intros e' ks' k H1 H2. now apply (H e' ks' k); [right|].
  - intros [H1 H2] e' ks' k [E|H3] H4; [injection E as <- <-; now apply H1|now apply (H2 e' ks' k)].
Qed.

(** Each call behaves as on the machine and never panics. *)
Lemma rt_ok_node n : rt_ok (RT n []).
Proof. destruct n; constructor; easy. Qed.

Lemma sim_step t m op : sim t m ->
  match m_do m op with
  | Some m' => exists t', pt_do t op = Ok t' /\ sim t' m'
  | None => exists x, pt_do t op = Err x
  end.
Proof.
  intro S. destruct m as [|e ks outer|e ks]; destruct op as [x|n|]; cbn [m_do pt_do].
  - (* new, push *)
    cbn in S. subst t. eexists. split; [reflexivity|]. cbn. split; [|split; [easy|]].
    + split; [cbn; constructor; [easy|constructor]|]. split; [easy|].
      intros [|[|i]]; easy.
    + apply kids_ok_cons. split; easy.
  - cbn in S. subst t. eexists. reflexivity.
  - cbn in S. subst t. eexists. reflexivity.
  - (* open, push *)
    destruct S as (R & P & K). unfold pt_push. rewrite P.
    pose proof (outer_nth e ks outer) as N.
    change (outer_arena ((e, ks) :: outer)) with
      (let (L, pp) := outer_arena outer in
       (L ++ (NElem e, pp) :: flat (length L) (S (length L)) ks, Some (length L))) in *.
    destruct (outer_arena outer) as [L pp] eqn:EO. cbn [fst snd] in *.
    set (A := L ++ _) in *.
    destruct (add_child_ok _ _ _ _ (length A) R N) as (data' & E & R').
    assert (length (t_data t) = length A) as -> by apply R.
    rewrite E. cbn [bind]. eexists. split; [reflexivity|]. cbn [sim t_data t_pos].
    assert (EA : outer_arena ((x, []) :: (e, ks) :: outer) = (A ++ [(NElem x, Some (length L))], Some (length A))).
    { cbn. rewrite EO. reflexivity. }
    rewrite EA. cbn [fst snd]. split; [|split; [easy|]].
    + now apply (rep_new data' A (mkPT (length A) (NElem x) (Some (length L)) [])).
    + apply kids_ok_cons. split; easy.
  - (* open, append *)
    destruct S as (R & P & K). unfold pt_append. rewrite P.
    pose proof (outer_nth e ks outer) as N.
    change (outer_arena ((e, ks) :: outer)) with
      (let (L, pp) := outer_arena outer in
       (L ++ (NElem e, pp) :: flat (length L) (S (length L)) ks, Some (length L))) in *.
    destruct (outer_arena outer) as [L pp] eqn:EO. cbn [fst snd] in *.
    set (A := L ++ _) in *.
    destruct (add_child_ok _ _ _ _ (length A) R N) as (data' & E & R').
    assert (length (t_data t) = length A) as -> by apply R.
    rewrite E. cbn [bind]. eexists. split; [reflexivity|]. cbn [sim t_data t_pos].
    assert (EA : outer_arena ((e, ks ++ [RT n []]) :: outer) = (A ++ [(n, Some (length L))], Some (length L))).
    { cbn. rewrite EO. unfold A. rewrite flat_app. cbn [flat]. rewrite flat1_eq. cbn [flat].
      now rewrite <- app_assoc. }
    rewrite EA. cbn [fst snd]. split; [|split; [easy|]].
    + now apply (rep_new data' A (mkPT (length A) n (Some (length L)) [])).
    + apply kids_ok_cons in K. apply kids_ok_cons. split; [|easy].
      intros k Hk. apply in_app_or in Hk. destruct Hk as [Hk|[<-|[]]]; [now apply K|apply rt_ok_node].
  - (* open, pop *)
    destruct S as (R & P & K). unfold pt_pop. rewrite P.
    pose proof (outer_nth e ks outer) as N.
    destruct outer as [|[e1 ks1] outer].
    + cbn in N, R, P |- *. destruct (rep_get _ _ 0 (NElem e, None) R eq_refl) as (q & Eq & Vq).
      rewrite Eq. cbn [unwrap bind]. eexists. split; [reflexivity|]. cbn [sim t_data t_pos].
      injection Vq as _ Vp. now rewrite Vp.
    + assert (EA : outer_arena ((e, ks) :: (e1, ks1) :: outer) =
        let (L, pp) := outer_arena ((e1, ks1) :: outer) in
        (L ++ (NElem e, pp) :: flat (length L) (S (length L)) ks, Some (length L))) by reflexivity.
      rewrite EA in *.
      destruct (outer_arena ((e1, ks1) :: outer)) as [L1 pp1] eqn:E1. cbn [fst snd] in *.
      destruct (rep_get _ _ _ _ R N) as (q & Eq & Vq).
      rewrite Eq. cbn [unwrap bind]. eexists. split; [reflexivity|]. cbn [sim t_data t_pos].
      injection Vq as _ Vp. rewrite Vp.
      cbn in E1 |- *. destruct (outer_arena outer) as [L0 pp0]. injection E1 as <- <-.
      cbn [fst snd]. split; [|split; [easy|]].
      * rewrite flat_app. cbn [flat]. rewrite flat1_eq, app_nil_r.
        revert R. rewrite app_length. cbn [length]. rewrite flat_length. rewrite <- app_assoc. cbn [app].
        now rewrite Nat.add_succ_r.
      * apply kids_ok_cons in K. destruct K as [K1 K2]. apply kids_ok_cons in K2. destruct K2 as [K2 K3].
        apply kids_ok_cons. split; [|easy]. intros k Hk. apply in_app_or in Hk.
        destruct Hk as [Hk|[<-|[]]]; [now apply K2|]. now constructor.
  - (* done, push *)
    destruct S as (R & P & K). unfold pt_push. rewrite P. eexists. split; [reflexivity|].
    cbn in R |- *. split; [|split; [easy|]].
    + exact (rep_set _ _ 0 (mkPT 0 (NElem x) None []) (NElem e, None) R eq_refl).
    + now apply kids_ok_cons in K; apply kids_ok_cons.
  - destruct S as (R & P & K). unfold pt_append. rewrite P. eexists. reflexivity.
  - destruct S as (R & P & K). unfold pt_pop. rewrite P. eexists. reflexivity.
Qed.

Lemma sim_new : sim pt_new MNew.
Proof. reflexivity. Qed.

Lemma sim_run : forall ops t m, sim t m -> exists t', pt_run t ops = Ok t' /\ sim t' (m_run m ops).
Proof.
  induction ops as [|op ops IH]; intros t m S; cbn [pt_run m_run].
  - now exists t.
  - pose proof (sim_step t m op S) as H. destruct (m_do m op) as [m'|].
    + destruct H as (t' & E & S'). rewrite E. cbn [recover bind]. now apply IH.
    + destruct H as (x & E). rewrite E. cbn [recover bind]. now apply IH.
Qed.

Lemma sim_top t m : sim t m -> pt_top_element t = Ok (m_top m).
Proof.
  intro S. destruct m as [|e ks outer|e ks]; cbn [m_top].
  - cbn in S. now subst t.
  - destruct S as (R & P & K). unfold pt_top_element. rewrite P.
    pose proof (outer_nth e ks outer) as N. cbn in N, R |- *.
    destruct (outer_arena outer) as [L pp]. cbn [fst snd] in *.
    destruct (rep_get _ _ _ _ R N) as (q & Eq & Vq). rewrite Eq. cbn [unwrap bind].
    injection Vq as Vv _. rewrite Vv. reflexivity.
  - destruct S as (R & P & K). unfold pt_top_element. now rewrite P.
Qed.

Lemma sim_empty t m : sim t m -> pt_empty_stack t = match m with MOpen _ _ _ => false | _ => true end.
Proof.
  intro S. destruct m as [|e ks outer|e ks]; unfold pt_empty_stack.
  - cbn in S. now subst t.
  - destruct S as (R & P & K). rewrite P. cbn. now destruct (outer_arena outer).
  - destruct S as (R & P & K). now rewrite P.
Qed.

(** The tree that [to_dom] assembles: open elements are closed first. *)
Fixpoint close_all (e : elem) (ks : list rtree) (outer : list (elem * list rtree)) : elem * list rtree :=
  match outer with
  | [] => (e, ks)
  | (e1, ks1) :: outer' => close_all e1 (ks1 ++ [RT (NElem e) ks]) outer'
  end.
Definition m_root (m : machine) : option (elem * list rtree) :=
  match m with
  | MNew => None
  | MOpen e ks outer => Some (close_all e ks outer)
  | MDone e ks => Some (e, ks)
  end.

Lemma close_all_arena : forall outer e ks, fst (outer_arena ((e, ks) :: outer)) =
  let (r, ks0) := close_all e ks outer in (NElem r, None) :: flat 0 1 ks0.
Proof.
  induction outer as [|[e1 ks1] outer IH]; intros e ks; [reflexivity|].
  cbn [close_all]. rewrite <- IH.
  assert (EA : outer_arena ((e, ks) :: (e1, ks1) :: outer) =
    let (L, pp) := outer_arena ((e1, ks1) :: outer) in
    (L ++ (NElem e, pp) :: flat (length L) (S (length L)) ks, Some (length L))) by reflexivity.
  rewrite EA. cbn. destruct (outer_arena outer) as [L0 pp0]. cbn [fst snd].
  rewrite flat_app. cbn [flat]. rewrite flat1_eq, app_nil_r, app_length. cbn [length].
  rewrite flat_length, <- app_assoc. cbn [app]. now rewrite Nat.add_succ_r.
Qed.
Lemma close_all_ok : forall outer e ks, kids_ok ((e, ks) :: outer) ->
  forall k, In k (snd (close_all e ks outer)) -> rt_ok k.
Proof.
  induction outer as [|[e1 ks1] outer IH]; intros e ks K; cbn [close_all].
  - apply kids_ok_cons in K. apply K.
  - apply IH. apply kids_ok_cons in K. destruct K as [K1 K2]. apply kids_ok_cons in K2. destruct K2 as [K2 K3].
    apply kids_ok_cons. split; [|easy]. intros k Hk. apply in_app_or in Hk.
    destruct Hk as [Hk|[<-|[]]]; [now apply K2|]. now constructor.
Qed.

Lemma to_dom_arena t r ks : rep (t_data t) ((NElem r, None) :: flat 0 1 ks) ->
  (forall k, In k ks -> rt_ok k) -> pt_to_dom t = Ok (build r (map assemble ks)).
Proof.
  intros R K. unfold pt_to_dom.
  pose proof (proj1 (proj2 R)) as R2.
  destruct (t_data t) as [|x data0] eqn:ED; [cbn in R2; discriminate|]. rewrite <- ED in *.
  rewrite R2. cbn [length]. rewrite flat_length, Nat.sub_succ, Nat.sub_0_r.
  destruct (to_dom_flat ks (t_data t) [(NElem r, None)] 0 r None 0) as (d & L & R').
  - easy.
  - now apply rep_rep'.
  - easy.
  - easy.
  - cbn [Nat.add] in L. rewrite L. cbn [to_dom_loop bind].
    cbn [upd] in R'. destruct (rep'_get _ _ 0 _ R' eq_refl) as (q & Eq & Vq).
    rewrite Eq. cbn [unwrap bind]. injection Vq as Vv _. rewrite Vv. reflexivity.
Qed.

Lemma sim_to_dom t m : sim t m ->
  pt_to_dom t = match m_root m with
                | None => Err (ParsingError PNoRootElement None)
                | Some (r, ks) => Ok (build r (map assemble ks))
                end.
Proof.
  intro S. destruct m as [|e ks outer|e ks]; cbn [m_root].
  - cbn in S. now subst t.
  - destruct S as (R & P & K). rewrite close_all_arena in R.
    pose proof (close_all_ok _ _ _ K) as K'.
    destruct (close_all e ks outer) as [r ks0]. now apply to_dom_arena.
  - destruct S as (R & P & K). apply to_dom_arena; [easy|]. now apply kids_ok_cons in K.
Qed.

(** * Normal children are gathered in order *)

Lemma text_normal_tail n l : text_normal (n :: l) -> text_normal l.
Proof.
  intros [H1 H2]. split.
  - intros a s t b E. apply (H1 (n :: a) s t b). now rewrite E.
  - intros s Hs. apply H2. now right.
Qed.
Lemma text_normal_rev l : text_normal l -> text_normal (rev l).
Proof.
  intros [H1 H2]. split.
  - intros a s t b E. apply (H1 (rev b) t s (rev a)).
    apply (f_equal (@rev _)) in E. rewrite rev_involutive in E. rewrite E.
    rewrite !rev_app_distr. cbn. now rewrite <- !app_assoc.
  - intros s Hs. apply H2. now apply in_rev.
Qed.
Lemma text_normal_app_l a b : text_normal (a ++ b) -> text_normal a.
Proof.
  intros [H1 H2]. split.
  - intros x s t y E. apply (H1 x s t (y ++ b)). rewrite E. now rewrite <- !app_assoc.
  - intros s Hs. apply H2. apply in_or_app. now left.
Qed.

Lemma inherited_text e n s : inherited e n = NText s <-> n = NText s.
Proof. destruct n; cbn; split; congruence. Qed.
Lemma text_normal_map (f : node -> node) l : (forall n s, f n = NText s <-> n = NText s) ->
  text_normal l -> text_normal (map f l).
Proof.
  intros F [H1 H2]. split.
  - intros a s t b E. apply map_eq_app in E. destruct E as (a' & r & -> & <- & E).
    apply map_eq_app in E. destruct E as (m & b' & -> & E & <-).
    destruct m as [|n1 [|n2 [|n3 m]]]; try discriminate. injection E as E1 E2.
    apply (proj1 (F _ _)) in E1, E2. subst. now apply (H1 a' s t b').
  - intros s Hs. apply in_map_iff in Hs. destruct Hs as (n & E & Hn).
    apply (proj1 (F _ _)) in E. subst n. now apply H2.
Qed.
Lemma text_normal_inherited e l : text_normal l -> text_normal (map (inherited e) l).
Proof. apply text_normal_map. intros. apply inherited_text. Qed.

Lemma adopt1_inherited e e' n : e' = set_children e (e_children e') -> inherited e' n = inherited e n.
Proof. intros ->. now rewrite inherited_set_children. Qed.

Lemma fold_adopt1 e : forall ms l0, text_normal (l0 ++ map (inherited e) ms) ->
  fold_left adopt1 ms (set_children e l0) = set_children e (l0 ++ map (inherited e) ms).
Proof.
  induction ms as [|m ms IH]; intros l0 H; cbn [fold_left map].
  - cbn in *. now rewrite app_nil_r.
  - unfold adopt1 at 2. rewrite inherited_set_children, set_children_twice.
    cbn [e_children set_children].
    cbn [map] in H. change (inherited e m :: map (inherited e) ms) with ([inherited e m] ++ map (inherited e) ms) in H |- *.
    rewrite app_assoc in H |- *.
    rewrite clean_fixed by now apply text_normal_app_l in H. now apply IH.
Qed.

Lemma build_normal e ns : e_children e = [] -> text_normal ns ->
  build e ns = set_children e (map (inherited e) ns).
Proof.
  intros E H. unfold build, gather.
  replace e with (set_children e []) at 1 by (rewrite <- E; apply set_children_id).
  rewrite fold_adopt1.
  - unfold reverse_children. cbn [app e_children set_children]. rewrite set_children_twice.
    now rewrite map_rev, rev_involutive.
  - cbn [app]. apply text_normal_inherited. now apply text_normal_rev.
Qed.

(** * Histories *)

Definition pushed (ops : list pt_op) : Prop := exists e, In (OpPush e) ops.

Lemma m_run_new ops : m_run MNew ops = MNew <-> ~ pushed ops.
Proof.
  induction ops as [|op ops IH]; cbn.
  - split; [now intros _ (e & [])|easy].
  - destruct op as [x|n|]; cbn.
    + split.
      * intro H. exfalso.
        assert (G : forall l m, m <> MNew -> m_run m l <> MNew).
        { induction l as [|o l IHl]; intros m Hm; cbn; [easy|]. apply IHl.
          destruct (m_do m o) as [m'|] eqn:E; [|easy].
          destruct o, m as [|? ? [|[]]|]; cbn in E; try discriminate; injection E as <-; easy. }
        now apply (G ops (MOpen x [] [])).
      * intro H. exfalso. apply H. exists x. now left.
    + rewrite IH. split; intros H (e & He); apply H; [destruct He as [|He]; [easy|]|]; exists e; cbn; auto.
    + rewrite IH. split; intros H (e & He); apply H; [destruct He as [|He]; [easy|]|]; exists e; cbn; auto.
Qed.

Theorem history ops : exists t, pt_run pt_new ops = Ok t /\
  pt_top_element t = Ok (m_top (m_run MNew ops)) /\
  (pt_empty_stack t = true <-> m_top (m_run MNew ops) = None) /\
  (~ pushed ops -> pt_to_dom t = Err (ParsingError PNoRootElement None)) /\
  (pushed ops -> exists e, pt_to_dom t = Ok e).
Proof.
  destruct (sim_run ops pt_new MNew sim_new) as (t & E & S). exists t.
  split; [easy|]. split; [now apply sim_top|]. split.
  - rewrite (sim_empty _ _ S). destruct (m_run MNew ops); cbn; split; easy.
  - pose proof (m_run_new ops) as N. pose proof (sim_to_dom _ _ S) as D.
    destruct (m_run MNew ops) as [|e ks outer|e ks]; cbn [m_root] in D.
    + split; [easy|]. intro H. exfalso. now apply N.
    + split; [intro H; apply N in H; discriminate|]. intros _.
      destruct (close_all e ks outer). eauto.
    + split; [intro H; apply N in H; discriminate|]. intros _. eauto.
Qed.

(** * Events *)

(** The trees built by the events of a child list. *)
Fixpoint tree_of_elem_ (e : elem) : rtree :=
  match e with
  | mkElem nm ch at_ ns px cx =>
      RT (NElem (mkElem nm [] at_ ns px cx))
        (map (fun n => match n with NElem c => tree_of_elem_ c | _ => RT n [] end) ch)
  end.
Definition tree_of (n : node) : rtree :=
  match n with NElem c => tree_of_elem_ c | _ => RT n [] end.
Lemma tree_of_elem e : tree_of (NElem e) = RT (NElem (set_children e [])) (map tree_of (e_children e)).
Proof. now destruct e. Qed.
Lemma tree_of_leaf n : (forall e, n <> NElem e) -> tree_of n = RT n [].
Proof. destruct n; intro H; try easy. now destruct (H e). Qed.

Lemma m_run_app m a b : m_run m (a ++ b) = m_run (m_run m a) b.
Proof. revert m. induction a; intro m; cbn; auto. Qed.

Lemma below_run : forall l ops, below_events l ops -> forall e ks outer,
  m_run (MOpen e ks outer) ops = MOpen e (ks ++ map tree_of l) outer.
Proof.
  intros l ops H.
  induction H using below_events_mut with
    (P := fun e0 ops => forall e ks outer,
       m_run (MOpen e ks outer) ops = MOpen e (ks ++ [tree_of (NElem e0)]) outer).
  - intros e0 ks outer. cbn [m_run m_do]. rewrite m_run_app, IHbelow_events. cbn [m_run m_do app].
    now rewrite tree_of_elem.
  - intros. cbn. now rewrite app_nil_r.
  - intros e ks outer. cbn [m_run m_do]. rewrite IHbelow_events. cbn [map].
    rewrite (tree_of_leaf n) by easy. now rewrite <- app_assoc.
  - intros e0 ks outer. cbn [m_run m_do]. rewrite IHbelow_events. cbn [map].
    rewrite tree_of_elem, H. cbn [map].
    replace (set_children e []) with e by (rewrite <- H; symmetry; apply set_children_id).
    now rewrite <- app_assoc.
  - intros e0 ks outer. rewrite m_run_app, IHbelow_events, IHbelow_events0. cbn [map].
    now rewrite <- app_assoc.
Qed.

Lemma events_run e ops : events_of e ops ->
  m_run MNew ops = MDone (set_children e []) (map tree_of (e_children e)).
Proof.
  intro H. destruct H as [e ops H]. cbn [m_run m_do]. rewrite m_run_app, (below_run _ _ H).
  reflexivity.
Qed.


Lemma assemble_tree_text n s : assemble (tree_of n) = NText s <-> n = NText s.
Proof. destruct n as [[]| | |]; cbn; split; congruence. Qed.

Lemma settled_below_eq p (f : node -> node) : (forall n, (forall e, n <> NElem e) -> f n = n) ->
  forall l, (forall c, In (NElem c) l -> exists c', f (NElem c) = NElem c' /\ settled c c') ->
  settled_below p l (map (inherited p) (map f l)).
Proof.
  intros F. induction l as [|n l IH]; intro H; cbn [map]; [constructor|].
  assert (Hl : settled_below p l (map (inherited p) (map f l))).
  { apply IH. intros c Hc. apply H. now right. }
  destruct n as [c|s|s|s].
  - destruct (H c (or_introl eq_refl)) as (c' & E & Hs). rewrite E.
    apply sb_elem with c'; [easy| |easy]. apply inherited_adopted.
  - rewrite F by easy. cbn. now constructor.
  - rewrite F by easy. cbn. now constructor.
  - rewrite F by easy. cbn. now constructor.
Qed.

Lemma tree_normal_inv e : tree_normal e -> text_normal (e_children e) /\
  (forall c, In (NElem c) (e_children e) -> tree_normal c).
Proof. now intros [e' H1 H2]. Qed.

Lemma settled_build : forall e, tree_normal e ->
  settled e (build (set_children e []) (map assemble (map tree_of (e_children e)))).
Proof.
  induction e as [e IH] using elem_ind'. intro H. apply tree_normal_inv in H. destruct H as [H1 H2].
  rewrite map_map.
  rewrite build_normal; [|easy|].
  - rewrite set_children_twice. apply se.
    replace (map (inherited (set_children e [])) (map (fun n => assemble (tree_of n)) (e_children e)))
      with (map (inherited e) (map (fun n => assemble (tree_of n)) (e_children e))).
    2:{ apply map_ext. intro n. symmetry. apply inherited_set_children. }
    apply settled_below_eq.
    + intros n Hn. now rewrite (tree_of_leaf n Hn); destruct n; try easy; destruct (Hn e0).
    + intros c Hc. rewrite tree_of_elem. cbn [assemble]. eexists. split; [reflexivity|].
      apply IH; [easy|]. now apply H2.
  - apply text_normal_map; [|easy]. intros. apply assemble_tree_text.
Qed.

Theorem events_to_dom e ops : tree_normal e -> events_of e ops ->
  exists t e', pt_run pt_new ops = Ok t /\ pt_empty_stack t = true /\
    pt_to_dom t = Ok e' /\ settled e e'.
Proof.
  intros N H. destruct (sim_run ops pt_new MNew sim_new) as (t & E & S).
  rewrite (events_run _ _ H) in S. exists t.
  eexists. split; [easy|]. split; [now rewrite (sim_empty _ _ S)|].
  rewrite (sim_to_dom _ _ S). cbn [m_root]. split; [reflexivity|]. now apply settled_build.
Qed.

(** When nothing is left to adopt, the tree itself comes back. *)
Lemma adopted_self p c : adopted p (NElem c) (NElem c) -> inherited p (NElem c) = NElem c.
Proof.
  intro H. destruct H as (_ & _ & _ & _ & Hc & Hx).
  assert (C : inherit_context (e_context c) (e_context p) = e_context c).
  { unfold inherit_context.
    assert (G : forall l, (forall k v, In (k, v) l -> ahas k (e_context c) = true) ->
                fold_left inherit_step l (e_context c) = e_context c).
    { induction l as [|[k v] l IH]; intro Hl; [easy|]. cbn [fold_left]. unfold inherit_step at 2. cbn [fst snd].
      rewrite (Hl k v) by now left. apply IH. intros k' v' H'. apply (Hl k' v'). now right. }
    apply G. intros k v Hk. apply ahas_spec. specialize (Hc k).
    destruct (aget k (e_context c)) as [w|] eqn:E.
    - apply aget_in in E. now apply (in_map fst) in E.
    - exfalso. symmetry in Hc. apply (proj1 (aget_none _ _)) in Hc. apply Hc. now apply (in_map fst) in Hk. }
  unfold inherited, apply_xmlns_context, set_namespace_context. f_equal.
  unfold default_namespace, inheritable in *.
  destruct c as [nm ch at_ ns px cx]; cbn in *. rewrite ?C.
  destruct px as [p0|]; destruct ns as [x|]; cbn; rewrite ?C; cbn; try easy.
  - now rewrite <- Hx.
  - now rewrite <- Hx.
Qed.

Lemma resolved_build : forall e, tree_normal e -> resolved e ->
  build (set_children e []) (map assemble (map tree_of (e_children e))) = e.
Proof.
  induction e as [e IH] using elem_ind'. intros H R.
  apply tree_normal_inv in H. destruct H as [H1 H2].
  inversion R as [e' R1 R2]; subst e'.
  rewrite map_map, build_normal; [|easy|].
  - rewrite set_children_twice, map_map.
    transitivity (set_children e (e_children e)); [|apply set_children_id]. f_equal.
    rewrite <- (map_id (e_children e)) at 2. apply map_ext_in. intros n Hn.
    rewrite inherited_set_children. destruct n as [c|s|s|s]; try easy.
    rewrite tree_of_elem. cbn [assemble]. rewrite IH; [|easy|now apply H2|now apply R2].
    now apply adopted_self, R1.
  - apply text_normal_map; [|easy]. intros. apply assemble_tree_text.
Qed.

Theorem events_to_dom_resolved e ops : tree_normal e -> resolved e -> events_of e ops ->
  exists t, pt_run pt_new ops = Ok t /\ pt_empty_stack t = true /\ pt_to_dom t = Ok e.
Proof.
  intros N R H. destruct (sim_run ops pt_new MNew sim_new) as (t & E & S).
  rewrite (events_run _ _ H) in S. exists t.
  split; [easy|]. split; [now rewrite (sim_empty _ _ S)|].
  rewrite (sim_to_dom _ _ S). cbn [m_root]. now rewrite resolved_build.
Qed.

Theorem call_result ops op : exists t, pt_run pt_new ops = Ok t /\
  match m_do (m_run MNew ops) op with
  | Some m' => exists t', pt_do t op = Ok t' /\ pt_top_element t' = Ok (m_top m')
  | None => exists x, pt_do t op = Err x
  end.
Proof.
  destruct (sim_run ops pt_new MNew sim_new) as (t & E & S). exists t. split; [easy|].
  pose proof (sim_step _ _ op S) as H. destruct (m_do (m_run MNew ops) op) as [m'|]; [|easy].
  destruct H as (t' & E' & S'). exists t'. split; [easy|]. now apply sim_top.
Qed.

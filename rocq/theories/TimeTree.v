(** How long it takes to search a tree, to collect its text, and to take nodes out. *)
From Coq Require Import List NArith Arith Bool Ascii String Lia.
From Verif Require Import Base Escape Dom ParseTree Parse Time BaseFacts Spec SpecDom DomFacts SpecStack StackFacts ParsedFacts TimeFacts TimeUnesc TimeElem.
From Verif Require Import SpecSize SizeFacts SizeMore SpecTime TimeDom TimeWide TimeCount TimeEdit SpecTimeEdit.
Import ListNotations.

Local Arguments sum {A} f l : simpl never.

(** * Searching *)

Definition walk_node (n : node) : nat := match n with NElem c => steps (children_recursive_t c) + 1 + List.length (children_recursive c) | _ => 0 end.
Definition rec_node (n : node) : list node := match n with NElem c => children_recursive c | _ => [] end.
Lemma walk_eq e : result (children_recursive_t e) = Ok (children_recursive e) /\
  steps (children_recursive_t e) = 4 + 2 * List.length (e_children e) + sum walk_node (e_children e).
Proof.
  induction e as [e IH] using elem_ind'. rewrite children_recursive_eq. destruct e as [nm ch at_ ns px cx]. cbn [e_children children_recursive_t] in *.
  match goal with |- context [tbind (?g ch) _] => set (go := g) end.
  assert (G : forall l, incl l ch -> result (go l) = Ok (flat_map rec_node l) /\ steps (go l) = 1 + sum walk_node l).
  { induction l as [|n l IHl]; intro I; [easy|]. destruct (IHl (fun x h => I x (or_intror h))) as [R S]. cbn [flat_map]. rewrite sum_cons.
    destruct n as [c|t|t|t]; cbn [rec_node walk_node app]; try (now split).
    destruct (IH c (I _ (or_introl eq_refl))) as [Rc _]. cbn [go]. fold go. split.
    - rewrite result_tbind, Rc. cbn [bind]. rewrite result_tbind, R. reflexivity.
    - rewrite (steps_bind_ok _ _ _ Rc), (steps_bind_ok _ _ _ R), S. cbn [after steps]. lia. }
  destruct (G ch (incl_refl _)) as [R S]. cbn [spend steps result]. split.
  - rewrite result_tbind, R. reflexivity.
  - rewrite (steps_bind_ok _ _ _ R), S. cbn [after steps]. lia.
Qed.
Lemma search_t_ok e p q : result (search_t e p q) = Ok (search e p).
Proof. unfold search_t. rewrite result_tbind, (proj1 (walk_eq e)). reflexivity. Qed.
Lemma search_steps e p q : steps (search_t e p q) = steps (children_recursive_t e) + 1 + sum (fun n => 1 + q n) (children_recursive e).
Proof. unfold search_t. rewrite (steps_bind_ok _ _ _ (proj1 (walk_eq e))). cbn [after steps]. lia. Qed.
Lemma recursive_length e : S (List.length (children_recursive e)) = nodes e.
Proof.
  induction e as [e IH] using elem_ind'. rewrite children_recursive_eq, nodes_eq, app_length.
  change (flat_map _ (e_children e)) with (flat_map rec_node (e_children e)).
  assert (G : forall l, incl l (e_children e) -> List.length l + List.length (flat_map rec_node l) = sum count l).
  { induction l as [|n l IHl]; intro I; [easy|]. specialize (IHl (fun x h => I x (or_intror h))). cbn [flat_map List.length]. rewrite app_length, sum_cons.
    destruct n as [c|t|t|t]; cbn [rec_node count List.length]; [|lia..]. rewrite <- (IH c (I _ (or_introl eq_refl))). lia. }
  rewrite <- (G _ (incl_refl _)). lia.
Qed.
Lemma walk_le e : steps (children_recursive_t e) + 4 <= (levels e + 9) * nodes e.
Proof.
  induction e as [e IH] using elem_ind'. rewrite (proj2 (walk_eq e)), nodes_eq, levels_eq.
  assert (G : forall l, incl l (e_children e) -> 2 * List.length l + sum walk_node l <= (S (below_levels (e_children e)) + 9) * sum count l).
  { induction l as [|n l IHl]; intro I; [apply Nat.le_0_l|]. specialize (IHl (fun x h => I x (or_intror h))). rewrite !sum_cons. cbn [List.length].
    destruct n as [c|t|t|t]; cbn [walk_node count]; [|lia..].
    pose proof (IH c (I _ (or_introl eq_refl))) as H. pose proof (recursive_length c) as L.
    pose proof (below_levels_in c _ (I _ (or_introl eq_refl))) as V.
    assert (Q : (levels c + 10) * nodes c <= (S (below_levels (e_children e)) + 9) * nodes c) by (apply Nat.mul_le_mono_r; lia). lia. }
  specialize (G _ (incl_refl _)). lia.
Qed.
Lemma walk_least e : levels e * levels e <= 2 * steps (children_recursive_t e).
Proof.
  induction e as [e IH] using elem_ind'. rewrite (proj2 (walk_eq e)), levels_eq.
  destruct (Nat.eq_dec (below_levels (e_children e)) 0) as [->|Z]; [lia|].
  destruct (below_levels_ex (e_children e) ltac:(lia)) as (c & I & <-). specialize (IH c I).
  apply in_split in I as (a & b & ->). rewrite sum_app, sum_cons. cbn [walk_node].
  assert (L : levels c <= nodes c).
  { clear. induction c as [c IH] using elem_ind'. rewrite levels_eq, nodes_eq.
    destruct (Nat.eq_dec (below_levels (e_children c)) 0) as [->|Z]; [lia|].
    destruct (below_levels_ex (e_children c) ltac:(lia)) as (d & I & <-). specialize (IH d I).
    apply in_split in I as (a & b & ->). rewrite sum_app, sum_cons. cbn [count]. lia. }
  rewrite <- recursive_length in L. rewrite app_length. cbn [List.length]. lia.
Qed.

(** * Texts *)

Definition text_node_t (n : node) : nat :=
  match n with NText s => copy_t s + copy_t s | NElem c => steps (elem_text_t c) + copy_t (elem_text c) | _ => 1 end.
Definition text_part (n : node) : str := match n with NText s => s | NElem c => elem_text c | _ => [] end.
Lemma elem_text_parts e : elem_text e = flat_map text_part (e_children e).
Proof. destruct e as [nm ch at_ ns px cx]. cbn [elem_text e_children]. induction ch as [|[c|t|t|t] ch IH]; cbn [flat_map text_part]; now rewrite <- ?IH. Qed.
Lemma text_steps e : result (elem_text_t e) = Ok (elem_text e) /\ steps (elem_text_t e) = 1 + sum text_node_t (e_children e).
Proof.
  induction e as [e IH] using elem_ind'. rewrite elem_text_parts. destruct e as [nm ch at_ ns px cx]. cbn [e_children elem_text_t] in *.
  match goal with |- context [result (?g ch)] => set (go := g) end.
  assert (G : forall l, incl l ch -> result (go l) = Ok (flat_map text_part l) /\ steps (go l) = 1 + sum text_node_t l).
  { induction l as [|n l IHl]; intro I; [easy|]. destruct (IHl (fun x h => I x (or_intror h))) as [R S]. cbn [flat_map]. rewrite sum_cons.
    destruct n as [c|t|t|t]; cbn [text_part text_node_t app]; cbn [go]; fold go.
    - destruct (IH c (I _ (or_introl eq_refl))) as [Rc _]. split.
      + rewrite result_tbind, Rc. cbn [bind]. rewrite result_tbind, R. reflexivity.
      + rewrite (steps_bind_ok _ _ _ Rc), (steps_bind_ok _ _ _ R), S. cbn [after steps]. lia.
    - split; [rewrite result_tbind, R; reflexivity|]. rewrite (steps_bind_ok _ _ _ R), S. cbn [after steps]. lia.
    - cbn [spend result steps]. split; [exact R|lia].
    - cbn [spend result steps]. split; [exact R|lia]. }
  apply (G ch (incl_refl _)).
Qed.
Lemma blen_flat {A} (f : A -> str) l : blen (flat_map f l) = sum (fun x => blen (f x)) l.
Proof. induction l as [|x l IH]; [reflexivity|]. cbn [flat_map]. rewrite blen_app, sum_cons, IH. reflexivity. Qed.
Lemma text_le e : steps (elem_text_t e) + 1 <= 2 * nodes e + (levels e + 1) * blen (elem_text e).
Proof.
  induction e as [e IH] using elem_ind'. rewrite (proj2 (text_steps e)), elem_text_parts, blen_flat, nodes_eq, levels_eq.
  assert (G : forall l, incl l (e_children e) -> sum text_node_t l <= 2 * sum count l + (S (below_levels (e_children e)) + 1) * sum (fun n => blen (text_part n)) l).
  { induction l as [|n l IHl]; intro I; [apply Nat.le_0_l|]. specialize (IHl (fun x h => I x (or_intror h))). rewrite !sum_cons.
    destruct n as [c|t|t|t]; cbn [text_node_t text_part count]; unfold copy_t; [|lia..].
    pose proof (IH c (I _ (or_introl eq_refl))) as H. 
    pose proof (below_levels_in c _ (I _ (or_introl eq_refl))) as V.
    assert (Q : (levels c + 2) * blen (elem_text c) <= (S (below_levels (e_children e)) + 1) * blen (elem_text c)) by (apply Nat.mul_le_mono_r; lia). lia. }
  specialize (G _ (incl_refl _)). lia.
Qed.
(** One text deep inside *)
Fixpoint wrapped (k : nat) (t : str) : elem :=
  match k with
  | O => mkElem (lit "a") [NText t] [] None None []
  | S k' => mkElem (lit "a") [NElem (wrapped k' t)] [] None None []
  end.
Lemma wrapped_text k t : elem_text (wrapped k t) = t /\ (k + 2) * blen t <= steps (elem_text_t (wrapped k t)) /\ nodes (wrapped k t) = k + 2.
Proof.
  induction k as [|k (I1 & I2 & I3)]; rewrite (proj2 (text_steps _)); cbn [wrapped e_children]; rewrite sum_cons; change (@sum node text_node_t []) with 0; cbn [text_node_t]; unfold copy_t; repeat split; try lia.
  - cbn. apply app_nil_r.
  - rewrite elem_text_parts. cbn [e_children flat_map text_part]. now rewrite app_nil_r.
  - rewrite I1. lia.
  - rewrite nodes_eq. cbn [e_children]. rewrite sum_cons. cbn [count]. change (@sum node count []) with 0. lia.
Qed.

(** * Taking nodes out *)

Lemma remove_t_ok e i : result (remove_t e i) = remove e i.
Proof. unfold remove_t, remove. erase. Qed.
Lemma remove_steps e i : steps (remove_t e i) <= 2 + (List.length (e_children e) - i).
Proof.
  unfold remove_t. destruct (_ <=? i); [cbn; lia|]. unfold tbind. cbn [after result steps]. destruct (vremove _ _); cbn [after steps]; unfold shift_t; lia.
Qed.
Section RemoveByTime.
  Context {A : Type} (p : A -> bool) (q : A -> nat).
  Lemma matching_t_ok l idx : result (matching_t p q l idx) = matching p l idx.
  Proof. induction idx as [|i idx IH]; cbn [matching_t matching]; erase. Qed.
  Lemma remove_indices_t_ok idx : forall l : list A, result (remove_indices_t l idx) = remove_indices l idx.
  Proof. induction idx as [|i idx IH]; intro l; cbn [remove_indices_t remove_indices]; erase. Qed.
  Lemma remove_by_vec_t_ok l : result (remove_by_vec_t p q l) = remove_by_vec p l.
  Proof. unfold remove_by_vec_t, remove_by_vec. rewrite result_tbind, matching_t_ok. apply bind_ext; [easy|]. intro rm. rewrite result_tbind, remove_indices_t_ok. now apply bind_ext. Qed.
  Lemma jumps_snoc l x : jumps p (l ++ [x]) = jumps p l + if p x then 0 else List.length (filter p l).
  Proof. clear q.
    induction l as [|y l IH]; cbn [app jumps filter List.length]; [destruct (p x); reflexivity|]. rewrite IH, filter_app, app_length. cbn [filter].
    destruct (p y), (p x); cbn [negb List.length]; lia.
  Qed.
  (** The row is emptied from its end; behind [l] stand the items kept so far. *)
  Lemma remove_by_clock : forall l : list A, exists rm, forall suf,
    matching p (l ++ suf) (rev (seq 0 (List.length l))) = Ok rm /\
    steps (matching_t p q (l ++ suf) (rev (seq 0 (List.length l)))) = 1 + sum (fun x => 2 + q x) l /\
    steps (remove_indices_t (l ++ suf) rm) = 1 + (2 + List.length suf) * List.length (filter p l) + jumps p l.
  Proof.
    induction l as [|x l (rm & IH)] using rev_ind.
    - exists []. intro suf. repeat split. cbn [remove_indices_t after steps filter jumps List.length]. lia.
    - exists (if p x then List.length l :: rm else rm). intro suf.
      rewrite app_length. cbn [List.length]. rewrite seq_app, rev_app_distr. cbn [seq rev app]. rewrite Nat.add_0_l.
      rewrite <- app_assoc. cbn [app matching matching_t].
      rewrite vget_app. cbn [bind]. rewrite steps_bind_after.
      destruct (IH (x :: suf)) as (H1 & H2 & H3). rewrite H1. cbn [bind].
      rewrite (steps_bind_ok _ _ rm) by (rewrite matching_t_ok; exact H1). cbn [after steps]. rewrite H2, sum_app, sum_cons.
      replace (@sum A (fun x => 2 + q x) []) with 0 by reflexivity. rewrite jumps_snoc, filter_app, app_length. cbn [filter].
      split; [easy|]. split; [lia|]. destruct (p x).
      + cbn [remove_indices_t]. rewrite vremove_app, steps_bind_after. cbn [snd]. destruct (IH suf) as (_ & _ & H4). rewrite H4.
        unfold shift_t. rewrite app_length. cbn [List.length]. lia.
      + rewrite H3. cbn [List.length]. lia.
  Qed.
  Lemma remove_by_vec_steps l : steps (remove_by_vec_t p q l) = 3 + sum (fun x => 2 + q x) l + 2 * List.length (filter p l) + jumps p l.
  Proof.
    destruct (remove_by_clock l) as (rm & H). specialize (H []). rewrite !app_nil_r in H.
    destruct H as (H1 & H2 & H3). unfold remove_by_vec_t. rewrite (steps_bind_ok _ _ rm) by (rewrite matching_t_ok; exact H1).
    assert (R : exists r, remove_indices l rm = Ok r).
    { pose proof (remove_by_vec_eq p l) as E. unfold remove_by_vec in E. rewrite H1 in E. cbn [bind] in E. destruct (remove_indices l rm); try discriminate. eauto. }
    destruct R as (r & R). rewrite (steps_bind_ok _ _ r) by (rewrite remove_indices_t_ok; exact R). rewrite H2, H3. cbn [after steps List.length]. lia.
  Qed.
  Lemma jumps_le l : jumps p l <= List.length (filter p l) * List.length (filter (fun x => negb (p x)) l).
  Proof. clear q. induction l as [|x l IH]; cbn [jumps filter]; [lia|]. destruct (p x); cbn [negb List.length]; lia. Qed.
  Lemma filter_both (l : list A) : List.length (filter p l) + List.length (filter (fun x => negb (p x)) l) = List.length l.
  Proof. clear q. induction l as [|x l IH]; cbn [filter]; [reflexivity|]. destruct (p x); cbn [negb List.length]; lia. Qed.
  Lemma jumps_square l : 4 * jumps p l <= List.length l * List.length l.
  Proof. clear q.
    pose proof (jumps_le l) as H. pose proof (filter_both l) as F. set (a := List.length (filter p l)) in *. set (b := List.length (filter (fun x => negb (p x)) l)) in *.
    rewrite <- F. clearbody a b. clear F.
    assert (Q : forall x d, 4 * (x * (x + d)) <= (x + (x + d)) * (x + (x + d))) by (intros; nia).
    destruct (Nat.le_ge_cases a b) as [L|L].
    - specialize (Q a (b - a)). replace (a + (b - a)) with b in Q by lia. nia.
    - specialize (Q b (a - b)). replace (b + (a - b)) with a in Q by lia. nia.
  Qed.
End RemoveByTime.
Lemma remove_by_t_ok e p q : result (remove_by_t e p q) = remove_by e p.
Proof. unfold remove_by_t, remove_by. rewrite result_tbind, remove_by_vec_t_ok. reflexivity. Qed.
Lemma remove_by_steps e p q : steps (remove_by_t e p q) =
  3 + sum (fun n => 2 + q n) (e_children e) + 2 * List.length (filter p (e_children e)) + jumps p (e_children e).
Proof.
  unfold remove_by_t. rewrite (steps_bind_ok _ _ _ (eq_trans (remove_by_vec_t_ok p q _) (remove_by_vec_eq p _))). rewrite remove_by_vec_steps. cbn [after steps]. lia.
Qed.

Definition annotate_t (p : node -> bool) (q : node -> nat) (c : node) : node * timed (elem * nat) :=
  (c, match c with NElem c' => remove_all_t p q c' | _ => after 0 Panic end).
Lemma remove_all_t_eq p q e : remove_all_t p q e =
  do* r <- remove_by_vec_t (fun a => p (fst a)) (fun a => q (fst a)) (map (annotate_t p q) (e_children e));
  do* rec <- collect_removed_t (fst r);
  after 0 (Ok (set_children e (fst rec), snd r + snd rec)).
Proof.
  destruct e as [nm ch at_ ns px cx]. cbn [remove_all_t e_children].
  match goal with |- tbind (remove_by_vec_t _ _ ?x) _ = _ => assert (x = map (annotate_t p q) ch) as -> end.
  { induction ch as [|c ch IH]; [easy|]. cbn [map]. now rewrite IH. }
  reflexivity.
Qed.
Lemma collect_removed_t_ok p q l : (forall c, In (NElem c) l -> result (remove_all_t p q c) = remove_all p c) ->
  result (collect_removed_t (map (annotate_t p q) l)) = collect_removed (map (annotate p) l).
Proof.
  induction l as [|n l IH]; intro H; [reflexivity|]. cbn [map annotate_t annotate collect_removed_t collect_removed].
  specialize (IH (fun c h => H c (or_intror h))). destruct n as [c|t|t|t]; rewrite result_tbind; (apply bind_ext; [|intro; try now rewrite result_tbind, IH]); try exact IH; try reflexivity.
  apply H. now left.
Qed.
Lemma remove_all_t_ok p q e : result (remove_all_t p q e) = remove_all p e.
Proof.
  induction e as [e IH] using elem_ind'. rewrite remove_all_t_eq, remove_all_unfold, result_tbind, remove_by_vec_t_ok, !remove_by_vec_eq. cbn [bind fst snd].
  rewrite !filter_map. cbn [annotate_t annotate fst]. rewrite !map_length. rewrite result_tbind, collect_removed_t_ok; [reflexivity|].
  intros c Hc. apply filter_In in Hc as [Hc _]. now apply IH.
Qed.
Definition stay_t (p : node -> bool) (q : node -> nat) (n : node) : nat := 1 + match n with NElem c => steps (remove_all_t p q c) | _ => 0 end.
Lemma collect_steps p q l : steps (collect_removed_t (map (annotate_t p q) l)) <= 1 + sum (stay_t p q) l.
Proof.
  induction l as [|n l IH]; [cbn; lia|]. cbn [map annotate_t collect_removed_t]. rewrite sum_cons. unfold stay_t at 1.
  destruct n as [c|t|t|t].
  - apply Nat.le_trans with (steps (remove_all_t p q c) + ((1 + sum (stay_t p q) l) + 1)); [|lia]. apply steps_bind_le; [lia|]. intros v _. apply steps_bind_le; [exact IH|]. intros w _. cbn [after steps]. lia.
  - apply Nat.le_trans with ((1 + sum (stay_t p q) l) + 1); [|lia]. apply steps_bind_le; [exact IH|]. intros w _. cbn [after steps]. lia.
  - apply Nat.le_trans with ((1 + sum (stay_t p q) l) + 1); [|lia]. apply steps_bind_le; [exact IH|]. intros w _. cbn [after steps]. lia.
  - apply Nat.le_trans with ((1 + sum (stay_t p q) l) + 1); [|lia]. apply steps_bind_le; [exact IH|]. intros w _. cbn [after steps]. lia.
Qed.
Lemma sum_map {A B} (f : A -> B) (g : B -> nat) l : sum g (map f l) = sum (fun x => g (f x)) l.
Proof. unfold sum. now rewrite map_map. Qed.
Lemma jumps_map {A B} (f : A -> B) p l : jumps p (map f l) = jumps (fun x => p (f x)) l.
Proof. induction l as [|x l IH]; [reflexivity|]. cbn [map jumps]. rewrite IH, filter_map, map_length. reflexivity. Qed.
Lemma filter_sum {A} (f : A -> nat) g l : sum f (filter g l) <= sum f l.
Proof. induction l as [|x l IH]; [apply le_n|]. cbn [filter]. destruct (g x); rewrite !sum_cons; lia. Qed.
Lemma sum_flat {A B} (f : B -> nat) (g : A -> list B) l : sum f (flat_map g l) = sum (fun x => sum f (g x)) l.
Proof. induction l as [|x l IH]; [reflexivity|]. cbn [flat_map]. rewrite sum_app, sum_cons, IH. reflexivity. Qed.
Lemma remove_all_steps p q e : steps (remove_all_t p q e) + 5 <= sum q (children_recursive e) + 9 * nodes e + squares e.
Proof.
  induction e as [e IH] using elem_ind'. rewrite remove_all_t_eq, children_recursive_eq, nodes_eq, squares_eq.
  rewrite (steps_bind_ok _ _ _ (eq_trans (remove_by_vec_t_ok _ _ _) (remove_by_vec_eq _ _))). rewrite remove_by_vec_steps. cbn [fst snd].
  set (l := e_children e) in *. rewrite sum_map, jumps_map, !filter_map, !map_length. cbn [annotate_t fst].
  set (k := filter (fun x => negb (p x)) l).
  assert (C : steps (do* rec <- collect_removed_t (map (annotate_t p q) k); after 0 (Ok (set_children e (fst rec), List.length (filter p l) + snd rec))) <= (1 + sum (stay_t p q) k) + 0).
  { apply steps_bind_le; [apply collect_steps|]. intros v _. cbn [after steps]. lia. }
  unfold k in C at 2. pose proof (filter_sum (stay_t p q) (fun x => negb (p x)) l) as F.
  pose proof (jumps_square p l) as J. 
  assert (R : List.length (filter p l) <= List.length l) by (pose proof (filter_both p l); lia).
  change (flat_map _ l) with (flat_map rec_node l). rewrite sum_app, sum_flat.
  assert (G : forall m, incl m l -> sum (fun x => 2 + q x) m + sum (stay_t p q) m + 2 * List.length m <= sum q m + sum (fun x => sum q (rec_node x)) m + 9 * sum count m + sum sq_node m).
  { induction m as [|n m IHm]; intro I; [apply le_n|]. specialize (IHm (fun x h => I x (or_intror h))). rewrite !sum_cons. cbn [List.length]. unfold stay_t at 1.
    destruct n as [c|t|t|t]; cbn [rec_node count sq_node]; change (sum q []) with 0; [|lia..]. pose proof (IH c (I _ (or_introl eq_refl))). lia. }
  specialize (G l (incl_refl _)). change (fun x : node => p x) with p. lia.
Qed.
Lemma jumps_halves {A} (p : A -> bool) x y k : p x = true -> p y = false -> jumps p (repeat x k ++ repeat y k) = k * k.
Proof.
  intros X Y. assert (B : forall j, jumps p (repeat y j) = 0) by (induction j as [|j IH]; cbn [repeat jumps]; [reflexivity|now rewrite Y]).
  assert (F : forall j, filter (fun z => negb (p z)) (repeat x j ++ repeat y k) = repeat y k).
  { induction j as [|j IH]; cbn [repeat app filter]; [|now rewrite X]. induction k as [|i IHk]; [reflexivity|]. cbn [repeat filter]. rewrite Y. cbn [negb]. now rewrite IHk. }
  enough (G : forall j, jumps p (repeat x j ++ repeat y k) = j * k) by apply G.
  induction j as [|j IH]; cbn [repeat app jumps]; [apply B|]. rewrite X, F, IH, repeat_length. lia.
Qed.

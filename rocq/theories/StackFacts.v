(** Proofs about the functions with a bound on the stack. *)
From Coq Require Import List NArith Arith Bool Ascii String Lia Permutation.
From Verif Require Import Base Escape Dom Stack BaseFacts SpecDom SpecStack DomFacts.
Import ListNotations.

(** * Levels *)

Fixpoint levels (e : elem) : nat :=
  match e with
  | mkElem _ ch _ _ _ _ =>
      S ((fix go (l : list node) : nat :=
            match l with
            | [] => 0
            | NElem c :: l' => Nat.max (levels c) (go l')
            | _ :: l' => go l'
            end) ch)
  end.
Fixpoint below_levels (l : list node) : nat :=
  match l with
  | [] => 0
  | NElem c :: l' => Nat.max (levels c) (below_levels l')
  | _ :: l' => below_levels l'
  end.
Lemma levels_eq e : levels e = S (below_levels (e_children e)).
Proof. now destruct e. Qed.

Lemma below_levels_in c l : In (NElem c) l -> levels c <= below_levels l.
Proof. induction l as [|n l IH]; [easy|]. intros [->|H]; cbn [below_levels]; [lia|]. specialize (IH H). destruct n; lia. Qed.
Lemma below_levels_ex l : 0 < below_levels l -> exists c, In (NElem c) l /\ levels c = below_levels l.
Proof.
  induction l as [|n l IH]; cbn [below_levels]; [lia|].
  destruct n as [c|s|s|s]; [|intro H; destruct (IH H) as (x & A & B); exists x; split; [now right|easy]..].
  intro H. destruct (le_lt_dec (below_levels l) (levels c)).
  - exists c. split; [now left|lia].
  - destruct IH as (x & A & B); [lia|]. exists x. split; [now right|lia].
Qed.
Lemma chain_levels e n : chain e n -> 0 < n <= levels e.
Proof.
  induction 1 as [e|e c n I H IH]; rewrite levels_eq; [lia|]. apply below_levels_in in I. unfold children in I. lia.
Qed.
Lemma levels_chain : forall n e, 0 < n <= levels e -> chain e n.
Proof.
  induction n as [|n IH]; intros e H; [lia|]. destruct n as [|n]; [constructor|].
  rewrite levels_eq in H. destruct (below_levels_ex (e_children e)) as (c & I & E); [lia|].
  apply chain_more with c; [exact I|]. apply IH. lia.
Qed.
Lemma deeper_levels k e : deeper k e <-> k < levels e.
Proof. unfold deeper. split; intro H; [apply chain_levels in H; lia|apply levels_chain; lia]. Qed.
Lemma levels_pos e : 0 < levels e.
Proof. rewrite levels_eq. lia. Qed.

(** [bounded n k a]: the answer [a] if there is room. *)
Definition bounded {A} (n k : nat) (a : A) : stacked A := if n <=? k then Fits a else Overflow.
Lemma bounded_fits {A} n k (a : A) : n <= k -> bounded n k a = Fits a.
Proof. intro H. unfold bounded. now rewrite (proj2 (Nat.leb_le n k) H). Qed.
Lemma bounded_over {A} n k (a : A) : k < n -> bounded n k a = Overflow.
Proof. intro H. unfold bounded. now rewrite (proj2 (Nat.leb_gt n k) H). Qed.
Lemma bounded_bind {A B} n m k (a : A) (f : A -> stacked B) b : f a = bounded m k b ->
  sbind (bounded n k a) f = bounded (Nat.max n m) k b.
Proof.
  intro H. unfold bounded in *. destruct (n <=? k) eqn:E; cbn [sbind].
  - rewrite H. apply Nat.leb_le in E. destruct (m <=? k) eqn:E'; [apply Nat.leb_le in E'|apply Nat.leb_gt in E'].
    + now rewrite (proj2 (Nat.leb_le _ _)) by lia.
    + now rewrite (proj2 (Nat.leb_gt _ _)) by lia.
  - apply Nat.leb_gt in E. now rewrite (proj2 (Nat.leb_gt _ _)) by lia.
Qed.
Lemma bounded_0 {A} k (a : A) : Fits a = bounded 0 k a.
Proof. reflexivity. Qed.
Lemma bounded_map {A B} n k (a : A) (g : A -> B) : sbind (bounded n k a) (fun x => Fits (g x)) = bounded n k (g a).
Proof. unfold bounded. now destruct (n <=? k). Qed.
Lemma bounded_S {A} n k (a : A) : bounded n k a = bounded (S n) (S k) a.
Proof. reflexivity. Qed.

Lemma text_bounded : forall k e, text_s k e = bounded (levels e) k (elem_text e).
Proof.
  induction k as [|k IH]; intros e; rewrite levels_eq; [reflexivity|]. rewrite <- bounded_S.
  destruct e as [nm ch at_ ns px cx]. cbn [text_s elem_text e_children].
  induction ch as [|[c|s|s|s] ch IHl]; cbn [below_levels]; [reflexivity|..].
  - rewrite IH. apply bounded_bind. now rewrite IHl, bounded_map.
  - now rewrite IHl, bounded_map.
  - exact IHl.
  - exact IHl.
Qed.

Lemma drop_bounded : forall k e, drop_s k e = bounded (levels e) k tt.
Proof.
  induction k as [|k IH]; intros e; rewrite levels_eq; [reflexivity|]. rewrite <- bounded_S.
  cbn [drop_s]. induction (e_children e) as [|[c|s|s|s] ch IHl]; cbn [below_levels]; [reflexivity| |exact IHl..].
  rewrite IH. now apply bounded_bind.
Qed.
Lemma drop_nodes_bounded k : forall l, drop_nodes k l = bounded (below_levels l) k tt.
Proof.
  induction l as [|[c|s|s|s] l IH]; cbn [below_levels drop_nodes]; [reflexivity| |exact IH..].
  rewrite drop_bounded. now apply bounded_bind.
Qed.
Lemma below_levels_app a b : below_levels (a ++ b) = Nat.max (below_levels a) (below_levels b).
Proof. induction a as [|[] a IH]; cbn [app below_levels]; lia. Qed.
Lemma below_levels_rev l : below_levels (rev l) = below_levels l.
Proof. induction l as [|n l IH]; [easy|]. cbn [rev]. rewrite below_levels_app, IH. destruct n; cbn [below_levels]; lia. Qed.

Lemma clone_bounded : forall k e, clone_s k e = bounded (levels e) k (clone_elem e).
Proof.
  induction k as [|k IH]; intros e; rewrite levels_eq; [reflexivity|]. rewrite <- bounded_S.
  destruct e as [nm ch at_ ns px cx]. cbn [clone_s clone_elem e_children].
  match goal with |- sbind (?f ch) _ = bounded _ _ (mkElem _ (?g ch) _ _ _ _) => set (F := f); set (G := g) end.
  assert (H : F ch = bounded (below_levels ch) k (G ch)).
  { induction ch as [|[c|s|s|s] ch IHl]; [reflexivity|..]; cbn [F G below_levels sbind]; fold F; fold G.
    - rewrite IH, bounded_map. apply bounded_bind. now rewrite IHl, bounded_map.
    - now rewrite IHl, bounded_map.
    - now rewrite IHl, bounded_map.
    - now rewrite IHl, bounded_map. }
  rewrite H, bounded_map. reflexivity.
Qed.

Lemma children_recursive_bounded : forall k e, children_recursive_s k e = bounded (levels e) k (children_recursive e).
Proof.
  induction k as [|k IH]; intros e; rewrite levels_eq; [reflexivity|]. rewrite <- bounded_S.
  destruct e as [nm ch at_ ns px cx]. cbn [children_recursive_s children_recursive e_children].
  match goal with |- sbind (?f ch) _ = bounded _ _ (ch ++ ?g ch) => set (F := f); set (G := g) end.
  assert (H : F ch = bounded (below_levels ch) k (G ch)).
  { induction ch as [|[c|s|s|s] ch IHl]; [reflexivity|..]; cbn [F G below_levels sbind]; fold F; fold G; [|exact IHl..].
    rewrite IH. apply bounded_bind. now rewrite IHl, bounded_map. }
  now rewrite H, bounded_map.
Qed.
Lemma search_bounded k e p : search_s k e p = bounded (levels e) k (search e p).
Proof. unfold search_s, search. now rewrite children_recursive_bounded, bounded_map. Qed.

Lemma to_string_bounded : forall k prefix indent inline e,
  elem_to_string_s k prefix indent inline e = bounded (levels e) k (elem_to_string prefix indent inline e).
Proof.
  induction k as [|k IH]; intros prefix indent inline e; rewrite levels_eq; [reflexivity|]. rewrite <- bounded_S.
  destruct e as [nm ch at_ ns px cx].
  cbn [elem_to_string_s elem_to_string e_children e_attributes]. change (tag_name (mkElem nm ch at_ ns px cx)) with (tag_name_of px nm).
  destruct ch as [|c0 rest]; [reflexivity|].
  destruct ((match rest with [] => true | _ => false end) && negb (is_element c0)) eqn:B.
  { destruct rest as [|]; [|discriminate B]. destruct c0; [discriminate B|reflexivity..]. }
  clear B. set (il := (inline || existsb is_text (c0 :: rest))%bool). clearbody il.
  match goal with |- context [sbind (?f rest)] => set (F := f) end.
  match goal with |- context [(if il then [] else [cNL]) ++ ?g rest] => set (G := g) end.
  assert (H : F rest = bounded (below_levels rest) k (G rest)).
  { induction rest as [|c ch IHl]; [reflexivity|]. cbn [F G]. fold F. fold G. rewrite IHl.
    destruct c as [c|s|s|s]; cbn [below_levels sbind]; [|now rewrite bounded_map..].
    rewrite IH. apply bounded_bind. now rewrite bounded_map. }
  rewrite H. destruct c0 as [c|s|s|s]; cbn [below_levels sbind]; [|now rewrite !bounded_map..].
  rewrite IH. etransitivity; [apply (f_equal (fun x => sbind x _)); apply bounded_bind; rewrite bounded_map; reflexivity|].
  now rewrite bounded_map.
Qed.
Lemma elem_to_string_bounded k e indent :
  elem_to_string_with_indent_s k e indent = bounded (levels e) k (elem_to_string_with_indent e indent).
Proof. unfold elem_to_string_with_indent_s, elem_to_string_with_indent. now destruct (validate_indent indent); rewrite to_string_bounded. Qed.
Lemma doc_to_string_bounded k d indent :
  doc_to_string_with_indent_s k d indent = bounded (levels (d_root d)) k (doc_to_string_with_indent d indent).
Proof. unfold doc_to_string_with_indent_s, doc_to_string_with_indent. now rewrite elem_to_string_bounded, bounded_map. Qed.

(** * Removing *)

Lemma below_levels_filter p l : below_levels l = Nat.max (below_levels (filter p l)) (below_levels (filter (fun n => negb (p n)) l)).
Proof. induction l as [|n l IH]; [easy|]. cbn [filter]. destruct (p n); cbn [negb]; destruct n; cbn [below_levels]; lia. Qed.
Lemma remove_by_bounded k e p : remove_by_s k e p = bounded (below_levels (filter p (e_children e))) k (remove_by e p).
Proof. unfold remove_by_s. rewrite drop_nodes_bounded, below_levels_rev. now rewrite bounded_map. Qed.
Lemma remove_elements_bounded k e p :
  remove_elements_s k e p = bounded (below_levels (filter (elem_pred p) (e_children e))) k (remove_elements e p).
Proof. unfold remove_elements_s. rewrite drop_nodes_bounded, below_levels_rev. now rewrite bounded_map. Qed.

Lemma remove_below_bounded k p (IH : forall e, remove_all_s k p e = bounded (levels e) k (remove_all p e)) : forall l,
  remove_below_s (remove_all_s k p) l = bounded (below_levels l) k (collect_removed (map (annotate p) l)).
Proof.
  induction l as [|[c|s|s|s] l IHl]; [reflexivity|..]; cbn [remove_below_s map annotate collect_removed below_levels];
    [|now rewrite IHl, bounded_map..].
  rewrite IH. apply bounded_bind. destruct (remove_all_pruned p c) as (l' & n & -> & _). cbn [bind].
  now rewrite IHl, bounded_map.
Qed.
Lemma remove_all_bounded : forall k p e, remove_all_s k p e = bounded (levels e) k (remove_all p e).
Proof.
  induction k as [|k IH]; intros p e; rewrite levels_eq; [reflexivity|]. rewrite <- bounded_S.
  cbn [remove_all_s]. rewrite remove_by_bounded, (below_levels_filter p (e_children e)). apply bounded_bind.
  rewrite remove_all_eq, remove_by_eq. cbn [bind fst snd e_children set_children].
  now rewrite (remove_below_bounded k p (IH p)), bounded_map.
Qed.
Lemma remove_all_elements_bounded k p e :
  remove_all_elements_s k p e = bounded (below_levels (e_children e)) k (remove_all_elements p e).
Proof.
  unfold remove_all_elements_s. rewrite remove_by_bounded, (below_levels_filter (elem_pred p) (e_children e)). apply bounded_bind.
  unfold remove_all_elements. rewrite remove_by_eq. cbn [bind fst snd e_children set_children].
  rewrite (remove_below_bounded k _ (remove_all_bounded k _)), bounded_map. reflexivity.
Qed.
Lemma remove_element_bounded k e i :
  remove_element_s k e i = bounded (match nth_error (child_elements e) i with Some c => levels c | None => 0 end) k (remove_element e i).
Proof.
  unfold remove_element_s. destruct (nth_error (child_elements e) i) as [c|]; [|reflexivity].
  rewrite clone_bounded, drop_bounded. transitivity (bounded (Nat.max (levels c) (levels c)) k (remove_element e i)); [|now rewrite Nat.max_id].
  apply bounded_bind. now rewrite bounded_map.
Qed.
Lemma clear_children_bounded k e : clear_children_s k e = bounded (below_levels (e_children e)) k (clear_children e).
Proof. unfold clear_children_s. now rewrite drop_nodes_bounded, bounded_map. Qed.
Lemma set_text_bounded k e t : set_text_s k e t = bounded (below_levels (e_children e)) k (set_text e t).
Proof. unfold set_text_s. now rewrite clear_children_bounded, bounded_map. Qed.

(** * Equality *)

Definition same_head (e1 e2 : elem) : bool :=
  str_eqb (e_name e1) (e_name e2) && ostr_eqb (e_xmlns e1) (e_xmlns e2)
  && ostr_eqb (e_prefix e1) (e_prefix e2) && amap_eqb (e_attributes e1) (e_attributes e2)
  && (List.length (e_children e1) =? List.length (e_children e2)).
Fixpoint eq_children (k : nat) (l1 l2 : list node) : stacked bool :=
  match l1, l2 with
  | n1 :: l1', n2 :: l2' =>
      sbind (match n1, n2 with
             | NElem a, NElem b => eq_s k a b
             | NText a, NText b => Fits (str_eqb a b)
             | NComment a, NComment b => Fits (str_eqb a b)
             | NCData a, NCData b => Fits (str_eqb a b)
             | _, _ => Fits false
             end) (fun same => if same then eq_children k l1' l2' else Fits false)
  | _, _ => Fits true
  end.
Lemma eq_s_eq k e1 e2 : eq_s (S k) e1 e2 =
  if same_head e1 e2 then eq_children k (e_children e1) (e_children e2) else Fits false.
Proof.
  cbn [eq_s]. fold (same_head e1 e2). destruct (same_head e1 e2); [|reflexivity].
  generalize (e_children e2). induction (e_children e1) as [|n1 l1 IH]; intros [|n2 l2]; try reflexivity.
  cbn [eq_children]. now rewrite IH.
Qed.
Fixpoint eqb_children (l1 l2 : list node) : bool :=
  match l1, l2 with
  | NElem a :: l1', NElem b :: l2' => elem_eqb a b && eqb_children l1' l2'
  | NText a :: l1', NText b :: l2' => str_eqb a b && eqb_children l1' l2'
  | NComment a :: l1', NComment b :: l2' => str_eqb a b && eqb_children l1' l2'
  | NCData a :: l1', NCData b :: l2' => str_eqb a b && eqb_children l1' l2'
  | [], [] => true
  | _, _ => false
  end.
Lemma elem_eqb_eq e1 e2 : elem_eqb e1 e2 = same_head e1 e2 && eqb_children (e_children e1) (e_children e2).
Proof. destruct e1, e2. reflexivity. Qed.

Lemma eq_children_fits k (IH : forall a b, levels a <= k \/ levels b <= k -> eq_s k a b = Fits (elem_eqb a b)) : forall l1 l2,
  List.length l1 = List.length l2 -> below_levels l1 <= k \/ below_levels l2 <= k ->
  eq_children k l1 l2 = Fits (eqb_children l1 l2).
Proof.
  induction l1 as [|n1 l1 IHl]; intros [|n2 l2] L H; try discriminate L; [reflexivity|]. injection L as L.
  assert (H' : below_levels l1 <= k \/ below_levels l2 <= k) by (destruct n1, n2; cbn [below_levels] in H; lia).
  cbn [eq_children]. rewrite (IHl l2 L H').
  destruct n1 as [a|s|s|s], n2 as [b|t|t|t]; cbn [eqb_children sbind]; try reflexivity;
    [|now destruct (str_eqb s t)..].
  rewrite IH by (cbn [below_levels] in H; lia). cbn [sbind]. now destruct (elem_eqb a b).
Qed.
Lemma eq_fits : forall k a b, levels a <= k \/ levels b <= k -> eq_s k a b = Fits (elem_eqb a b).
Proof.
  induction k as [|k IH]; intros a b H; [pose proof (levels_pos a); pose proof (levels_pos b); lia|].
  rewrite eq_s_eq, elem_eqb_eq. destruct (same_head a b) eqn:E; [|reflexivity]. cbn [andb].
  apply eq_children_fits; [exact IH| |rewrite !levels_eq in H; lia].
  unfold same_head in E. apply andb_prop in E as [_ E]. now apply Nat.eqb_eq.
Qed.
Lemma eq_children_right k (IH : forall a b r, eq_s k a b = Fits r -> r = elem_eqb a b) : forall l1 l2 r,
  List.length l1 = List.length l2 -> eq_children k l1 l2 = Fits r -> r = eqb_children l1 l2.
Proof.
  induction l1 as [|n1 l1 IHl]; intros [|n2 l2] r L H; try discriminate L; [now injection H|]. injection L as L.
  cbn [eq_children] in H.
  destruct n1 as [a|s|s|s], n2 as [b|t|t|t]; cbn [eqb_children sbind] in *; try (now injection H);
    [|destruct (str_eqb s t); [now apply IHl|now injection H]..].
  destruct (eq_s k a b) as [x|] eqn:E; [|discriminate H]. apply IH in E. subst x. cbn [sbind] in H.
  destruct (elem_eqb a b); [now apply IHl|now injection H].
Qed.
Lemma eq_right : forall k a b r, eq_s k a b = Fits r -> r = elem_eqb a b.
Proof.
  induction k as [|k IH]; intros a b r H; [discriminate H|].
  rewrite eq_s_eq in H. rewrite elem_eqb_eq. destruct (same_head a b) eqn:E; [|now injection H]. cbn [andb].
  apply (eq_children_right k IH _ _ _); [|exact H].
  unfold same_head in E. apply andb_prop in E as [_ E]. now apply Nat.eqb_eq.
Qed.
Lemma eq_children_over k (IH : forall a b, elem_eqb a b = true -> k < levels a -> eq_s k a b = Overflow) : forall l1 l2,
  eqb_children l1 l2 = true -> k < below_levels l1 -> eq_children k l1 l2 = Overflow.
Proof.
  induction l1 as [|n1 l1 IHl]; intros l2 E H; [cbn in H; lia|].
  destruct n1 as [a|s|s|s], l2 as [|[b|t|t|t] l2]; try discriminate E; cbn [eqb_children] in E; apply andb_prop in E as [E1 E2];
    cbn [eq_children below_levels sbind] in *; [|rewrite E1; now apply IHl..].
  destruct (le_lt_dec (levels a) k) as [L|L]; [|now rewrite (IH a b E1 L)].
  rewrite (eq_fits k a b) by now left. cbn [sbind]. rewrite E1. apply IHl; [exact E2|lia].
Qed.
Lemma eq_over : forall k a b, elem_eqb a b = true -> k < levels a -> eq_s k a b = Overflow.
Proof.
  induction k as [|k IH]; intros a b E H; [reflexivity|].
  rewrite eq_s_eq. rewrite elem_eqb_eq in E. apply andb_prop in E as [-> E].
  apply eq_children_over; [exact IH|exact E|]. rewrite levels_eq in H. lia.
Qed.

(** * Statements *)

Lemma stack_for_one {A} e (f : nat -> stacked A) a : (forall k, f k = bounded (levels e) k a) -> stack_for [e] f a.
Proof.
  intros H k. rewrite H. split.
  - intros (c & [<-|[]] & D). apply bounded_over. now apply deeper_levels.
  - intro N. apply bounded_fits. apply Nat.nlt_ge. intro L. apply (N e); [now left|now apply deeper_levels].
Qed.
Lemma stack_for_nodes {A} l (f : nat -> stacked A) a : (forall k, f k = bounded (below_levels l) k a) -> stack_for (elements_of l) f a.
Proof.
  intros H k. rewrite H. split.
  - intros (c & I & D). apply bounded_over. apply elements_of_in in I. apply below_levels_in in I. apply deeper_levels in D. lia.
  - intro N. apply bounded_fits. apply Nat.nlt_ge. intro L. destruct (below_levels_ex l) as (c & I & E); [lia|].
    apply (N c); [now apply elements_of_in|]. apply deeper_levels. lia.
Qed.
Lemma stack_for_option {A} (o : option elem) (f : nat -> stacked A) a :
  (forall k, f k = bounded (match o with Some c => levels c | None => 0 end) k a) ->
  stack_for (match o with Some c => [c] | None => [] end) f a.
Proof.
  destruct o as [c|]; [apply stack_for_one|]. intros H k. rewrite H. split; [now intros (c & [] & _)|reflexivity].
Qed.

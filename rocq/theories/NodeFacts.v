(** Facts about Nodes.v. *)
From Coq Require Import List NArith Arith Bool Ascii String Lia.
From Verif Require Import Base Escape Dom Nodes BaseFacts Spec SpecDom DomFacts SpecApi ApiFacts SerFacts.
Import ListNotations.

Lemma clone_node_lit_eq n : clone_node_lit n = Ok n.
Proof. destruct n as [e|s|s|s]; try reflexivity. unfold clone_node_lit. cbn. now rewrite clone_id. Qed.
Lemma node_eq_eq a b : node_eq a b = Ok (node_eqb a b).
Proof. destruct a, b; reflexivity. Qed.
Lemma eqb_children_eq l1 : forall l2, List.length l1 = List.length l2 ->
  (fix go (l1 l2 : list node) : bool :=
            match l1, l2 with
            | NElem a :: l1', NElem b :: l2' => elem_eqb a b && go l1' l2'
            | NText a :: l1', NText b :: l2' => str_eqb a b && go l1' l2'
            | NComment a :: l1', NComment b :: l2' => str_eqb a b && go l1' l2'
            | NCData a :: l1', NCData b :: l2' => str_eqb a b && go l1' l2'
            | [], [] => true
            | _, _ => false
            end) l1 l2 = forallb (fun xy => node_eqb (fst xy) (snd xy)) (combine l1 l2).
Proof.
  induction l1 as [|a l1 IH]; intros [|b l2] H; try discriminate; [easy|]. injection H as H. cbn [combine forallb fst snd].
  destruct a, b; cbn [node_eqb]; rewrite ?IH by easy; easy.
Qed.
Lemma vget_nth {A} (l : list A) i x : nth_error l i = Some x -> vget l i = Ok x.
Proof. unfold vget. now intros ->. Qed.
Lemma eq_from_eq l1 l2 : List.length l1 = List.length l2 -> forall k i, i + k = List.length l1 ->
  eq_from k i l1 l2 = Ok (forallb (fun xy => node_eqb (fst xy) (snd xy)) (combine (skipn i l1) (skipn i l2))).
Proof.
  intro L. induction k as [|k IH]; intros i Hi; cbn [eq_from].
  - rewrite !skipn_all2 by lia. reflexivity.
  - assert (exists a, nth_error l1 i = Some a) as [a Ha].
    { destruct (nth_error l1 i) eqn:E; [now eexists|]. apply nth_error_None in E. lia. }
    assert (exists b, nth_error l2 i = Some b) as [b Hb].
    { destruct (nth_error l2 i) eqn:E; [now eexists|]. apply nth_error_None in E. lia. }
    rewrite (vget_nth _ _ _ Ha), (vget_nth _ _ _ Hb). cbn [bind]. rewrite node_eq_eq. cbn [bind].
    assert (K : forall (l : list node) x, nth_error l i = Some x -> skipn i l = x :: skipn (S i) l).
    { clear. intro l. revert i. induction l as [|y l IH]; intros [|i] x H; cbn in H; try discriminate; [now injection H as ->|].
      cbn [skipn]. now apply IH. }
    rewrite (K _ _ Ha), (K _ _ Hb). cbn [combine forallb fst snd].
    destruct (node_eqb a b); cbn [negb andb]; [|easy]. rewrite IH by lia. reflexivity.
Qed.
(** The index loop of the source is the comparison of the model. *)
Theorem elem_eq_lit_eq x y : elem_eq_lit x y = Ok (elem_eqb x y).
Proof.
  unfold elem_eq_lit. destruct x as [n1 c1 a1 x1 p1 k1], y as [n2 c2 a2 x2 p2 k2]. cbn [e_name e_xmlns e_prefix e_attributes e_children elem_eqb].
  destruct (str_eqb n1 n2 && ostr_eqb x1 x2 && ostr_eqb p1 p2 && amap_eqb a1 a2 && (List.length c1 =? List.length c2)) eqn:E; [|easy].
  rewrite !andb_true_iff in E. destruct E as [_ E]. apply Nat.eqb_eq in E. rewrite (eq_from_eq c1 c2 E _ 0 eq_refl). cbn [skipn andb].
  now rewrite eqb_children_eq.
Qed.

(** * Namespace accessors *)

Lemma namespace_prefixes_none e : map_ok (e_attributes e) ->
  (namespace_prefixes e = None <-> forall p, get_attr e (lit "xmlns:" ++ p) = None).
Proof.
  intro H. unfold namespace_prefixes, get_attr. pose proof (context_get (e_attributes e) H) as G. change sXmlnsC with (lit "xmlns:") in G.
  destruct (xmlns_context_from_attributes (e_attributes e)) as [|[k v] m] eqn:E.
  - split; [|easy]. intros _ p. now rewrite <- G.
  - split; [discriminate|]. intro N. exfalso. specialize (G k). rewrite N in G. unfold aget in G. cbn [mget] in G.
    now rewrite str_eqb_refl in G.
Qed.
Lemma namespace_prefixes_some e m : map_ok (e_attributes e) -> namespace_prefixes e = Some m ->
  map_ok m /\ forall p, aget p m = get_attr e (lit "xmlns:" ++ p).
Proof.
  intros H E. unfold namespace_prefixes in E. pose proof (context_get (e_attributes e) H) as G.
  pose proof (context_ok (e_attributes e)) as O.
  destruct (xmlns_context_from_attributes (e_attributes e)); [discriminate|]. injection E as <-. now split.
Qed.

(** * Searching with a state *)

Section Stateful.
  Context {S A : Type} (p : S -> A -> bool * S).
  (** [asked s l r s']: asking [p] about the items of [l] one after the other,
      from state [s], it answers true for those in [r] and ends in [s']. *)
  Inductive asked : S -> list A -> list A -> S -> Prop :=
  | as_end s : asked s [] [] s
  | as_yes s x s1 l r s' : p s x = (true, s1) -> asked s1 l r s' -> asked s (x :: l) (x :: r) s'
  | as_no s x s1 l r s' : p s x = (false, s1) -> asked s1 l r s' -> asked s (x :: l) r s'.
  Lemma filter_st_asked l : forall s r s', filter_st p s l = (r, s') <-> asked s l r s'.
  Proof.
    induction l as [|x l IH]; intros s r s'; cbn [filter_st].
    - split; [intro H; injection H as <- <-; constructor|]. intro H. inversion H. subst. easy.
    - destruct (p s x) as [b s1] eqn:E. destruct (filter_st p s1 l) as [r1 s2] eqn:F. pose proof (proj1 (IH s1 r1 s2) F) as K. split.
      + intro H. injection H as <- <-. destruct b; [eapply as_yes; eassumption|eapply as_no; eassumption].
      + intro H. inversion H as [|? ? t1 ? r' ? Ep Hr|? ? t1 ? r' ? Ep Hr]; subst; rewrite Ep in E; injection E as <- <-.
        * apply IH in Hr. rewrite F in Hr. now injection Hr as <- <-.
        * apply IH in Hr. rewrite F in Hr. now injection Hr as <- <-.
  Qed.
End Stateful.
Lemma filter_st_log {A} (q : A -> bool) l : forall log,
  filter_st (fun log n => (q n, log ++ [n])) log l = (filter q l, log ++ l).
Proof.
  induction l as [|x l IH]; intro log; cbn [filter_st filter]; [now rewrite app_nil_r|].
  rewrite IH. rewrite <- app_assoc. reflexivity.
Qed.
Lemma all_children_eq e : all_children e = children_recursive e.
Proof. unfold all_children, search. apply filter_true. Qed.

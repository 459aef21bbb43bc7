(** Facts about the model with trait objects. *)
From Coq Require Import List NArith Arith Bool Ascii String Lia.
From Verif Require Import Base Escape Dom Nodes SpecDom DomFacts SerFacts Objects SpecObjects.
Import ListNotations.

(** * Outcomes and vectors *)

Lemma map_ok {A B} (f : A -> B) a : outcome_map f (Ok a) = Ok (f a).
Proof. reflexivity. Qed.
Lemma map_bind {A B C} (f : B -> C) (x : outcome A) (k : A -> outcome B) :
  outcome_map f (do a <- x; k a) = do a <- x; outcome_map f (k a).
Proof. now destruct x. Qed.
Lemma bind_map {A B C} (f : A -> B) (x : outcome A) (k : B -> outcome C) : (do b <- outcome_map f x; k b) = do a <- x; k (f a).
Proof. now destruct x. Qed.
Lemma map_map {A B C} (f : A -> B) (g : B -> C) (x : outcome A) : outcome_map g (outcome_map f x) = outcome_map (fun a => g (f a)) x.
Proof. now destruct x. Qed.
Lemma bind_ext {A B} (x : outcome A) (k k' : A -> outcome B) : (forall a, x = Ok a -> k a = k' a) -> (do a <- x; k a) = do a <- x; k' a.
Proof. intro H. destruct x; cbn; auto. Qed.
Lemma bind_ok {A B} (x : outcome A) (k : A -> outcome B) b : (do a <- x; k a) = Ok b -> exists a, x = Ok a /\ k a = Ok b.
Proof. destruct x as [a| | |]; cbn; intro H; try discriminate. now exists a. Qed.
Lemma vget_map {A B} (f : A -> B) l i : vget (map f l) i = outcome_map f (vget l i).
Proof. unfold vget. rewrite nth_error_map. now destruct (nth_error l i). Qed.
Lemma vremove_map {A B} (f : A -> B) l : forall i, vremove (map f l) i = outcome_map (fun p => (f (fst p), map f (snd p))) (vremove l i).
Proof. induction l as [|a l IH]; intro i; [easy|]. destruct i as [|i]; [easy|]. cbn [map vremove]. rewrite IH. now destruct (vremove l i) as [[x r]| | |]. Qed.
Lemma vinsert_map {A B} (f : A -> B) x : forall l i, vinsert (map f l) i (f x) = outcome_map (map f) (vinsert l i x).
Proof.
  induction l as [|a l IH]; intros [|i]; try reflexivity. cbn [map vinsert]. rewrite IH. now destruct (vinsert l i x).
Qed.
Lemma vset_map {A B} (f : A -> B) x : forall l i, vset (map f l) i (f x) = outcome_map (map f) (vset l i x).
Proof.
  induction l as [|a l IH]; intros [|i]; try reflexivity. cbn [map vset]. rewrite IH. now destruct (vset l i x).
Qed.
Lemma vget_vremove {A} : forall (l : list A) i a r, vget l i = Ok a -> vremove l i = Ok r -> fst r = a.
Proof.
  induction l as [|x l IH]; intros [|i] a r G H; try discriminate.
  - injection G as <-. now injection H as <-.
  - cbn [vremove] in H. apply bind_ok in H. destruct H as (r' & H & E). injection E as <-. now apply (IH i a r').
Qed.
Lemma vget_before {A} : forall (l : list A) i j r, j < i -> vremove l i = Ok r -> vget (snd r) j = vget l j.
Proof.
  induction l as [|x l IH]; intros [|i] j r L H; try discriminate; try lia.
  cbn [vremove] in H. apply bind_ok in H. destruct H as (r' & H & E). injection E as <-. destruct j as [|j]; [easy|]. exact (IH i j r' (proj2 (Nat.succ_lt_mono _ _) L) H).
Qed.
Section Kept.
Context {A : Type} (P : A -> Prop).
Lemma vget_kept l i a : Forall P l -> vget l i = Ok a -> P a.
Proof.
  unfold vget. intros F H. destruct (nth_error l i) as [x|] eqn:E; [|discriminate]. injection H as <-.
  rewrite Forall_forall in F. apply F. now apply nth_error_In in E.
Qed.
Lemma vremove_kept : forall l i r, Forall P l -> vremove l i = Ok r -> P (fst r) /\ Forall P (snd r).
Proof.
  induction l as [|a l IH]; intros i r F H; [discriminate|]. inversion F; subst. destruct i as [|i].
  - injection H as <-. now split.
  - cbn [vremove] in H. apply bind_ok in H. destruct H as ([x r'] & H & E). injection E as <-. apply IH in H; [|easy]. cbn in *. split; [easy|now constructor].
Qed.
Lemma vinsert_kept x : P x -> forall l i r, Forall P l -> vinsert l i x = Ok r -> Forall P r.
Proof.
  intro Px. induction l as [|a l IH]; intros [|i] r F H; try discriminate; try (injection H as <-; now constructor).
  inversion F; subst. cbn [vinsert] in H. apply bind_ok in H. destruct H as (r' & H & E). injection E as <-. constructor; [easy|]. now apply (IH i).
Qed.
Lemma vset_kept x : P x -> forall l i r, Forall P l -> vset l i x = Ok r -> Forall P r.
Proof.
  intro Px. induction l as [|a l IH]; intros [|i] r F H; try discriminate; inversion F; subst; [injection H as <-; now constructor|].
  cbn [vset] in H. apply bind_ok in H. destruct H as (r' & H & E). injection E as <-. constructor; [easy|]. now apply (IH i).
Qed.
Lemma remove_indices_kept : forall idx l r, Forall P l -> remove_indices l idx = Ok r -> Forall P r.
Proof.
  induction idx as [|i idx IH]; intros l r F H; [now injection H as <-|]. cbn [remove_indices] in H. apply bind_ok in H. destruct H as (x & H & E).
  apply vremove_kept in H; [|easy]. now apply (IH (snd x)).
Qed.
End Kept.

Lemma carries_ok {A B} (f : A -> B) (P : A -> Prop) a b : P a -> b = f a -> carries f P (Ok a) (Ok b).
Proof. intros H ->. split; [easy|]. intros x E. now injection E as <-. Qed.
Lemma carries_bind {A B C D} (f : A -> B) (P : A -> Prop) (g : C -> D) (Q : C -> Prop) x y k k' :
  carries f P x y -> (forall a, x = Ok a -> P a -> carries g Q (k a) (k' (f a))) -> carries g Q (do a <- x; k a) (do b <- y; k' b).
Proof.
  intros [-> H] K. destruct x as [a| | |]; cbn; try now split. apply K; [easy|now apply H].
Qed.
Lemma carries_err {A B} (f : A -> B) (P : A -> Prop) e : carries f P (Err e) (Err e).
Proof. now split. Qed.
Lemma carries_panic {A B} (f : A -> B) (P : A -> Prop) : carries f P Panic Panic.
Proof. now split. Qed.

Section Facts.
Context {St : Type} (M : methods St) (mark : St -> str).
Notation obj := (obj_ St (oelem St)).
Notation oelem := (oelem St).
Notation meant := (meant M mark).
Notation meant_obj := (meant_obj M mark).
Notation honest := (honest M).
Notation honest_obj := (honest_obj M).

(** * Structure *)

Lemma oelem_ind' (P : oelem -> Prop)
  (H : forall e, (forall n c, In n (o_children e) -> o_as_element n = Some c -> P c) -> P e) : forall e, P e.
Proof.
  fix IH 1. intro e. apply H. destruct e as [nm ch at_ ns px cx]. cbn [o_children].
  induction ch as [|n ch IHch]; [intros n c []|].
  intros m c [E|Hin]; [|exact (IHch m c Hin)]. subst m.
  destruct n as [e'| | | |s i]; cbn [o_as_element]; try (intro E; discriminate E).
  - pose proof (IH e') as HP. intro E. injection E as <-. exact HP.
  - destruct i as [e'|]; [|intro E; discriminate E]. pose proof (IH e') as HP. intro E. injection E as <-. exact HP.
Qed.
Lemma meant_eq e : meant e = mkElem (o_name e) (map meant_obj (o_children e)) (o_attributes e) (o_xmlns e) (o_prefix e) (o_context e).
Proof. now destruct e. Qed.
Lemma meant_children e : e_children (meant e) = map meant_obj (o_children e).
Proof. now rewrite meant_eq. Qed.
Lemma meant_name e : e_name (meant e) = o_name e.
Proof. now rewrite meant_eq. Qed.
Lemma meant_xmlns e : e_xmlns (meant e) = o_xmlns e.
Proof. now rewrite meant_eq. Qed.
Lemma meant_prefix e : e_prefix (meant e) = o_prefix e.
Proof. now rewrite meant_eq. Qed.
Lemma meant_context e : e_context (meant e) = o_context e.
Proof. now rewrite meant_eq. Qed.
Lemma meant_default e : default_namespace (meant e) = default_namespace (o_head e).
Proof. now rewrite meant_eq. Qed.
Lemma meant_set_children e l : meant (o_set_children e l) = set_children (meant e) (map meant_obj l).
Proof. now rewrite !meant_eq. Qed.
Lemma honest_inv e : honest e -> Forall honest_obj (o_children e).
Proof. intro H. inversion H as [? K]; subst. apply Forall_forall. exact K. Qed.
Lemma honest_of e l : Forall honest_obj l -> honest (o_set_children e l).
Proof. intro H. constructor. cbn. now apply Forall_forall. Qed.
Lemma honest_with e : Forall honest_obj (o_children e) -> honest e.
Proof. intro H. constructor. now apply Forall_forall. Qed.

(** * Nodes *)

Ltac kinds := repeat match goal with
  | H : acts_as_element _ _ |- _ => destruct H as ((? & ? & ? & ?) & ? & ?)
  | H : acts_as_text _ _ _ |- _ => destruct H as ((? & ? & ? & ?) & ? & ? & ?)
  | H : acts_as_comment _ _ _ |- _ => destruct H as ((? & ? & ? & ?) & ? & ? & ?)
  | H : acts_as_cdata _ _ _ |- _ => destruct H as ((? & ? & ? & ?) & ? & ? & ?)
  | H : stranger _ _ |- _ => destruct H as ((? & ? & ? & ?) & ?)
  end.
Ltac rewr := repeat match goal with
  | H : u_is_element _ _ = _ |- _ => progress rewrite H
  | H : u_is_text _ _ = _ |- _ => progress rewrite H
  | H : u_is_comment _ _ = _ |- _ => progress rewrite H
  | H : u_is_cdata _ _ = _ |- _ => progress rewrite H
  | H : u_as_text _ _ = _ |- _ => progress rewrite H
  | H : u_as_comment _ _ = _ |- _ => progress rewrite H
  | H : u_as_cdata _ _ = _ |- _ => progress rewrite H
  | H : u_node_type _ _ = _ |- _ => progress rewrite H
  end.
(** What an honest node is. *)
Inductive view : obj -> Prop :=
| v_elem n c : o_is_element M n = true -> o_is_text M n = false -> o_is_comment M n = false -> o_is_cdata M n = false ->
    o_node_type M n = Ok ElementNode -> o_as_element n = Some c -> honest c ->
    meant_obj n = NElem (meant c) -> o_node_text M n = o_text M c -> (forall A (f : oelem -> outcome A), on_element f n = f c) ->
    (forall f c', f c = Ok c' -> honest c' -> exists n', change_element f n = Ok n' /\ honest_obj n' /\ meant_obj n' = NElem (meant c')) ->
    (forall f, (forall c', f c <> Ok c') -> change_element f n = do c' <- f c; Ok (OElem c')) -> view n
| v_text n t : o_is_element M n = false -> o_is_text M n = true -> o_is_comment M n = false -> o_is_cdata M n = false ->
    o_node_type M n = Ok TextNode -> o_as_text M n = Some t -> meant_obj n = NText t -> o_node_text M n = t ->
    (forall ind, o_leaf_to_string M n ind = text_escape t) -> view n
| v_comment n t : o_is_element M n = false -> o_is_text M n = false -> o_is_comment M n = true -> o_is_cdata M n = false ->
    o_node_type M n = Ok CommentNode -> o_as_comment M n = Some t -> meant_obj n = NComment t ->
    (forall ind, o_leaf_to_string M n ind = lit "<!--" ++ t ++ lit "-->") -> view n
| v_cdata n t : o_is_element M n = false -> o_is_text M n = false -> o_is_comment M n = false -> o_is_cdata M n = true ->
    o_node_type M n = Ok CDataNode -> o_as_cdata M n = Some t -> meant_obj n = NCData t ->
    (forall ind, o_leaf_to_string M n ind = lit "<![CDATA[" ++ t ++ lit "]]>") -> view n
| v_stranger s i : stranger M s -> meant_obj (OUser s i) = NCData (mark s) -> view (OUser s i).
Lemma honest_view n : honest_obj n -> view n.
Proof.
  intro H. inversion H; subst; kinds.
  - apply v_elem with e; try easy.
    + intros f c' E Hc. cbn. rewrite E. cbn. eexists. split; [easy|]. split; [now constructor|easy].
  - now apply v_text with t.
  - now apply v_comment with t.
  - now apply v_cdata with t.
  - apply v_elem with e; cbn; rewr; try easy.
    + intros f c' E Hc. rewrite E. cbn. eexists. split; [easy|]. split; [now apply hon_as_element|]. cbn. now rewr.
    + intros f E. destruct (f e) as [c'| | |]; try easy. now destruct (E c').
  - apply v_text with t; cbn; rewr; try easy; intros; apply H6.
  - apply v_comment with t; cbn; rewr; easy.
  - apply v_cdata with t; cbn; rewr; easy.
  - apply v_stranger; [easy|]. cbn. now rewr.
Qed.

(** * Adding children *)

Lemma meant_of_head h l : meant (of_head h l) = mkElem (e_name h) (map meant_obj l) (e_attributes h) (e_xmlns h) (e_prefix h) (e_context h).
Proof. now rewrite meant_eq. Qed.
Lemma set_context_head c df ctx :
  meant (of_head (set_namespace_context (o_head c) df ctx) (o_children c)) = set_namespace_context (meant c) df ctx.
Proof.
  rewrite meant_of_head, meant_eq. unfold set_namespace_context, o_head, default_namespace, set_xmlns, set_context. cbn.
  destruct (o_prefix c) as [p|]; destruct (o_xmlns c) as [x|]; destruct ctx as [ctx|]; try destruct df as [df|]; reflexivity.
Qed.
Lemma honest_head c h : honest c -> honest (of_head h (o_children c)).
Proof. intro H. apply honest_with. cbn. now apply honest_inv. Qed.
Notation carried := (carries meant_obj honest_obj).
Notation carried_list := (carries (map meant_obj) (Forall honest_obj)).
Notation carried_elem := (carries meant honest).
Lemma apply_carried df ctx n : honest_obj n -> carried (o_apply_xmlns_context M df ctx n) (Ok (apply_xmlns_context df ctx (meant_obj n))).
Proof.
  intro H. unfold o_apply_xmlns_context. destruct (honest_view n H) as [n c H1 H2 H3 H4 H5 H6 H7 H8 H9 H10 H11 H12|n t H1 H2 H3 H4 H5 H6 H7 H8|n t H1 H2 H3 H4 H5 H6 H7|n t H1 H2 H3 H4 H5 H6 H7|s i S E].
  - rewrite H1, H8. cbn [apply_xmlns_context].
    destruct (H11 (fun c => Ok (of_head (set_namespace_context (o_head c) df (Some ctx)) (o_children c))) _ eq_refl (honest_head c (set_namespace_context (o_head c) df (Some ctx)) H7)) as (n' & -> & Hn & E).
    apply carries_ok; [easy|]. rewrite E. now rewrite <- set_context_head.
  - rewrite H1, H7. now apply carries_ok.
  - rewrite H1, H7. now apply carries_ok.
  - rewrite H1, H7. now apply carries_ok.
  - assert (o_is_element M (OUser s i) = false) as -> by apply S. rewrite E. now apply carries_ok.
Qed.
Lemma view_text n : honest_obj n -> is_text (meant_obj n) = o_is_text M n /\
  (o_is_text M n = true -> exists t, o_as_text M n = Some t /\ meant_obj n = NText t).
Proof.
  intro H. destruct (honest_view n H) as [n c H1 H2 H3 H4 H5 H6 H7 H8 H9 H10 H11 H12|n t H1 H2 H3 H4 H5 H6 H7 H8|n t H1 H2 H3 H4 H5 H6 H7|n t H1 H2 H3 H4 H5 H6 H7|s i S E].
  - rewrite H8, H2. split; [easy|discriminate].
  - rewrite H7, H2. split; [easy|]. intros _. now exists t.
  - rewrite H7, H2. split; [easy|discriminate].
  - rewrite H7, H2. split; [easy|discriminate].
  - rewrite E. assert (o_is_text M (OUser s i) = false) as -> by apply S. split; [easy|discriminate].
Qed.
Lemma view_element n : honest_obj n -> is_element (meant_obj n) = o_is_element M n /\
  (o_is_element M n = true -> exists c, o_as_element n = Some c /\ meant_obj n = NElem (meant c) /\ honest c /\
     (forall A (f : oelem -> outcome A), on_element f n = f c) /\
     (forall f c', f c = Ok c' -> honest c' -> exists n', change_element f n = Ok n' /\ honest_obj n' /\ meant_obj n' = NElem (meant c')) /\
     (forall f, (forall c', f c <> Ok c') -> change_element f n = do c' <- f c; Ok (OElem c'))) /\
  (o_is_element M n = false -> forall e, meant_obj n <> NElem e).
Proof.
  intro H. destruct (honest_view n H) as [n c H1 H2 H3 H4 H5 H6 H7 H8 H9 H10 H11 H12|n t H1 H2 H3 H4 H5 H6 H7 H8|n t H1 H2 H3 H4 H5 H6 H7|n t H1 H2 H3 H4 H5 H6 H7|s i S E].
  - rewrite H8, H1. split; [easy|]. split; [|discriminate]. intros _. now exists c.
  - rewrite H7, H1. split; [easy|]. split; [discriminate|]. intros _ e. discriminate.
  - rewrite H7, H1. split; [easy|]. split; [discriminate|]. intros _ e. discriminate.
  - rewrite H7, H1. split; [easy|]. split; [discriminate|]. intros _ e. discriminate.
  - rewrite E. assert (o_is_element M (OUser s i) = false) as -> by apply S. split; [easy|]. split; [discriminate|]. intros _ e. discriminate.
Qed.
Lemma vget_carried l i : Forall honest_obj l -> carried (vget l i) (vget (map meant_obj l) i).
Proof. intro F. split; [apply vget_map|]. intros a. now apply vget_kept. Qed.
Lemma vremove_carried l i : Forall honest_obj l ->
  carries (fun p => (meant_obj (fst p), map meant_obj (snd p))) (fun p => honest_obj (fst p) /\ Forall honest_obj (snd p)) (vremove l i) (vremove (map meant_obj l) i).
Proof. intro F. split; [apply vremove_map|]. intros a. now apply vremove_kept. Qed.
Lemma vinsert_carried l i n : honest_obj n -> Forall honest_obj l -> carried_list (vinsert l i n) (vinsert (map meant_obj l) i (meant_obj n)).
Proof. intros H F. split; [apply vinsert_map|]. intros a. now apply vinsert_kept. Qed.
Lemma vset_carried l i n : honest_obj n -> Forall honest_obj l -> carried_list (vset l i n) (vset (map meant_obj l) i (meant_obj n)).
Proof. intros H F. split; [apply vset_map|]. intros a. now apply vset_kept. Qed.
Lemma merge_carried : forall i l, Forall honest_obj l -> carried_list (o_merge_text_loop M i l) (merge_text_loop i (map meant_obj l)).
Proof.
  induction i as [|i IH]; intros l F; [now apply carries_ok|]. cbn [o_merge_text_loop merge_text_loop].
  apply carries_bind with (1 := vget_carried l (S i) F). intros a Ga Ha. destruct (view_text a Ha) as [Ea Ta]. rewrite Ea.
  destruct (o_is_text M a) eqn:Xa; [|now apply IH].
  apply carries_bind with (1 := vget_carried l i F). intros b Gb Hb. destruct (view_text b Hb) as [Eb Tb]. rewrite Eb.
  destruct (o_is_text M b) eqn:Xb; [|now apply IH].
  apply carries_bind with (1 := vremove_carried l (S i) F). intros r R1 [_ F1]. cbn [fst snd] in *.
  apply carries_bind with (1 := vremove_carried (snd r) i F1). intros r2 R2 [_ F2]. cbn [fst snd] in *.
  rewrite (vget_vremove _ _ _ _ Ga R1). rewrite <- (vget_before _ (S i) i _ (le_n _) R1) in Gb. rewrite (vget_vremove _ _ _ _ Gb R2).
  destruct (Ta eq_refl) as (ta & -> & ->). destruct (Tb eq_refl) as (tb & -> & ->). cbn [unwrap as_text expect bind].
  apply carries_bind with (1 := vinsert_carried (snd r2) i (OText (text_concat tb ta)) (hon_text M _) F2). intros l' _ F3. now apply IH.
Qed.
Lemma drop_carried : forall i l, Forall honest_obj l -> carried_list (o_drop_blank_loop M i l) (drop_blank_loop i (map meant_obj l)).
Proof.
  assert (K : forall i l, Forall honest_obj l -> forall a, honest_obj a ->
    carried_list (if o_is_text M a then do t <- unwrap (o_as_text M a); if text_is_whitespace t then do r <- vremove l i; Ok (snd r) else Ok l else Ok l)
      (if is_text (meant_obj a) then do t <- expect (as_text (meant_obj a)); if text_is_whitespace t then do r <- vremove (map meant_obj l) i; Ok (snd r) else Ok (map meant_obj l) else Ok (map meant_obj l))).
  { intros i l F a Ha. destruct (view_text a Ha) as [-> Ta]. destruct (o_is_text M a); [|now apply carries_ok].
    destruct (Ta eq_refl) as (ta & -> & ->). cbn [unwrap as_text expect bind]. destruct (text_is_whitespace ta); [|now apply carries_ok].
    apply carries_bind with (1 := vremove_carried l i F). intros r _ [_ Fr]. now apply carries_ok. }
  induction i as [|i IH]; intros l F; cbn [o_drop_blank_loop drop_blank_loop]; apply carries_bind with (1 := vget_carried l _ F); intros a _ Ha;
    apply carries_bind with (1 := K _ _ F a Ha); intros l' _ F'; [now apply carries_ok|now apply IH].
Qed.
Lemma cleanup_carried l : Forall honest_obj l -> carried_list (o_cleanup_text_nodes M l) (cleanup_text_nodes (map meant_obj l)).
Proof.
  intro F. destruct l as [|a l]; [now apply carries_ok|]. unfold o_cleanup_text_nodes, cleanup_text_nodes.
  change (map meant_obj (a :: l)) with (meant_obj a :: map meant_obj l) at 1. cbv iota beta. rewrite map_length.
  apply carries_bind with (1 := merge_carried _ _ F). intros l1 _ F1. destruct l1 as [|b l1]; [apply carries_panic|].
  change (map meant_obj (b :: l1)) with (meant_obj b :: map meant_obj l1) at 1. cbv iota beta. rewrite map_length. now apply drop_carried.
Qed.
Lemma set_children_carried e x y : carried_list x y -> carried_elem (do l <- x; Ok (o_set_children e l)) (do l <- y; Ok (set_children (meant e) l)).
Proof.
  intro C. apply carries_bind with (1 := C). intros l _ F. apply carries_ok; [now apply honest_of|]. now rewrite meant_set_children.
Qed.
Lemma append_carried e n : honest e -> honest_obj n -> carried_elem (o_append M e n) (append (meant e) (meant_obj n)).
Proof.
  intros He Hn. unfold o_append, append. rewrite meant_default, meant_context.
  apply (carries_bind meant_obj honest_obj meant honest _ (Ok _) _ (fun n' => do l <- cleanup_text_nodes (e_children (meant e) ++ [n']); Ok (set_children (meant e) l)) (apply_carried _ _ n Hn)).
  intros n' _ Hn'. apply set_children_carried. rewrite meant_children.
  replace (map meant_obj (o_children e) ++ [meant_obj n']) with (map meant_obj (o_children e ++ [n'])) by now rewrite map_app.
  apply cleanup_carried, Forall_app. split; [now apply honest_inv|now constructor].
Qed.
Lemma push_carried : forall nodes i l idx, Forall honest_obj nodes -> Forall honest_obj l ->
  push_recording (map meant_obj nodes) i (map meant_obj l) idx =
    (map meant_obj (fst (o_push_recording M nodes i l idx)), snd (o_push_recording M nodes i l idx)) /\
  Forall honest_obj (fst (o_push_recording M nodes i l idx)).
Proof.
  induction nodes as [|c nodes IH]; intros i l idx Fn Fl; [now split|]. inversion Fn; subst. cbn [map push_recording o_push_recording].
  rewrite (proj1 (view_element c H1)). replace (map meant_obj l ++ [meant_obj c]) with (map meant_obj (l ++ [c])) by now rewrite map_app.
  apply IH; [easy|]. apply Forall_app. split; [easy|now constructor].
Qed.
Lemma apply_at_carried df ctx : forall idx l, Forall honest_obj l -> carried_list (o_apply_at M df ctx idx l) (apply_at df ctx idx (map meant_obj l)).
Proof.
  induction idx as [|i idx IH]; intros l F; [now apply carries_ok|]. cbn [o_apply_at apply_at].
  apply carries_bind with (1 := vget_carried l i F). intros n _ Hn.
  apply (carries_bind meant_obj honest_obj (map meant_obj) (Forall honest_obj) _ (Ok _) _ (fun n' => do l' <- vset (map meant_obj l) i n'; apply_at df ctx idx l') (apply_carried df ctx n Hn)).
  intros n' _ Hn'. apply carries_bind with (1 := vset_carried l i n' Hn' F). intros l' _ F'. now apply IH.
Qed.
Lemma append_all_carried e nodes : honest e -> Forall honest_obj nodes -> carried_elem (o_append_all M e nodes) (append_all (meant e) (map meant_obj nodes)).
Proof.
  intros He Hn. unfold o_append_all, append_all. rewrite meant_default, meant_context, meant_children, map_length.
  destruct (push_carried nodes (List.length (o_children e)) (o_children e) [] Hn (honest_inv e He)) as [-> F].
  destruct (o_push_recording M nodes (List.length (o_children e)) (o_children e) []) as [l idx]. cbn [fst snd] in *.
  apply carries_bind with (1 := apply_at_carried _ _ idx l F). intros l1 _ F1. now apply set_children_carried, cleanup_carried.
Qed.
Lemma insert_carried e i n : honest e -> honest_obj n -> carried_elem (o_insert M e i n) (insert (meant e) i (meant_obj n)).
Proof.
  intros He Hn. unfold o_insert, insert. rewrite meant_default, meant_context, meant_children, map_length.
  destruct (List.length (o_children e) <? i); [apply carries_err|].
  apply carries_bind with (1 := vinsert_carried _ i n Hn (honest_inv e He)). intros l _ F. rewrite map_length.
  apply carries_bind with (1 := vget_carried l _ F). intros x _ Hx.
  apply (carries_bind meant_obj honest_obj meant honest _ (Ok _) _
    (fun n' => do l <- vset (map meant_obj l) (List.length l - 1) n'; do l <- cleanup_text_nodes l; Ok (set_children (meant e) l)) (apply_carried _ _ x Hx)).
  intros x' _ Hx'. apply carries_bind with (1 := vset_carried l _ x' Hx' F). intros l' _ F'. now apply set_children_carried, cleanup_carried.
Qed.
Lemma set_text_carried e t : honest e -> carried_elem (o_set_text M e t) (set_text (meant e) t).
Proof.
  intro He. unfold o_set_text, set_text. assert (E : clear_children (meant e) = meant (o_clear_children e)) by (unfold o_clear_children; now rewrite meant_set_children).
  rewrite E. apply (append_carried _ (OText t)); [|constructor]. now apply honest_of.
Qed.
Lemma element_new_head nm attrs ns px text l : element_new nm text attrs ns px l =
  do h <- element_new nm None attrs ns px None;
  do e <- match text with None => Ok h | Some t => append h (NText t) end;
  match l with None => Ok e | Some l => append_all e l end.
Proof.
  unfold element_new. destruct (check_elem_name nm); cbn [bind]; try easy.
  destruct (match attrs with None => Ok [] | Some m => convert_attrs m [] end); reflexivity.
Qed.
Lemma element_new_no_children nm attrs ns px h : element_new nm None attrs ns px None = Ok h -> e_children h = [].
Proof.
  unfold element_new. intro H. apply bind_ok in H. destruct H as (? & _ & H). apply bind_ok in H. destruct H as (? & _ & H). cbn [bind] in H. now injection H as <-.
Qed.
Lemma element_new_carried nm text attrs ns px l : (forall ns', l = Some ns' -> Forall honest_obj ns') ->
  carried_elem (o_element_new M nm text attrs ns px l) (element_new nm text attrs ns px (option_map (map meant_obj) l)).
Proof.
  intro H. rewrite element_new_head. unfold o_element_new. destruct (element_new nm None attrs ns px None) as [h|e| |] eqn:E; cbn [bind]; try now split.
  apply element_new_no_children in E. assert (meant (of_head h []) = h) as Eh by (rewrite meant_of_head; destruct h; cbn in *; now subst).
  assert (Hh : honest (of_head h [])) by now constructor. apply carries_bind with (f := meant) (P := honest).
  - destruct text as [t|]; [|now apply carries_ok]. rewrite <- Eh at 2. now apply (append_carried _ (OText t)); [|constructor].
  - intros a _ Ha. destruct l as [l|]; [|now apply carries_ok]. cbn [option_map]. apply append_all_carried; [easy|]. now apply H.
Qed.
End Facts.

(** Programs that use ordinary arguments keep to them. *)
From Coq Require Import List NArith Arith Bool Ascii String Lia.
From Verif Require Import Base Escape Dom BaseFacts Spec SpecDom SpecApi SpecTree DomFacts ApiFacts Parse SpecLex SpecParse SpecDoc SpecMore SpecMade
  SerFacts ParseTreeFacts ParsedFacts P_Parse.
Import ListNotations.

Section Made.
Variable K : kinds.
Variable any : bool.
Hypothesis Hjoin : joinable K.
Hypothesis Hkeys : forall k, k_key K k -> no_declaration k.

Definition head (e : elem) : Prop :=
  k_name K (e_name e) /\ k_namespace K (e_prefix e) (e_xmlns e) /\
  (forall k v, In (k, v) (e_attributes e) -> k_attr K k v) /\ map_ok (e_attributes e) /\ map_ok (e_context e).
Inductive good : elem -> Prop :=
| gd e : head e -> (any = false -> text_normal (e_children e)) ->
    (forall t, In (NText t) (e_children e) -> k_text K t) ->
    (forall c, In (NComment c) (e_children e) -> k_comment K c) ->
    (forall c, In (NCData c) (e_children e) -> k_cdata K c) ->
    (forall c, In (NElem c) (e_children e) -> good c) -> good e.
Definition good_node (n : node) : Prop :=
  match n with NElem e => good e | NText t => k_text K t | NComment c => k_comment K c | NCData c => k_cdata K c end.

Lemma good_inv e : good e -> head e /\ (any = false -> text_normal (e_children e)) /\ forall n, In n (e_children e) -> good_node n.
Proof. intros [x H1 H2 H3 H4 H5 H6]. repeat (split; [easy|]). intros [c|s|s|s]; cbn [good_node]; auto. Qed.
Lemma good_intro e : head e -> (any = false -> text_normal (e_children e)) -> (forall n, In n (e_children e) -> good_node n) -> good e.
Proof.
  intros H1 H2 H3. constructor; try easy; intros c Hc; apply H3 in Hc; exact Hc.
Qed.
Lemma good_set_children e l : good e -> (any = false -> text_normal l) -> (forall n, In n l -> good_node n) -> good (set_children e l).
Proof. intros H H1 H2. apply good_inv in H as (H & _ & _). apply good_intro; easy. Qed.

Lemma text_concat_ok run : run <> [] -> (forall t, In t run -> k_text K t) -> k_text K (List.concat run).
Proof.
  induction run as [|t run IH]; [easy|]. intros _ H. cbn [List.concat]. destruct run as [|u run].
  - cbn. rewrite app_nil_r. apply H. now left.
  - apply Hjoin; [apply H; now left|]. apply IH; [easy|]. intros x Hx. apply H. now right.
Qed.
Lemma cleaned_good l l' : cleaned l l' -> (forall n, In n l -> good_node n) -> forall n, In n l' -> good_node n.
Proof.
  induction 1 as [|x l l' Hn H IH|run l l' Hne Hl Hb H IH|run l l' Hne Hl Hb H IH]; intros Hv n Hi.
  - easy.
  - destruct Hi as [<-|Hi]; [apply Hv; now left|]. apply IH; [|easy]. intros y Hy. apply Hv. now right.
  - destruct Hi as [<-|Hi].
    + apply text_concat_ok; [easy|]. intros t Ht. apply (Hv (NText t)), in_or_app. left. now apply in_map.
    + apply IH; [|easy]. intros y Hy. apply Hv, in_or_app. now right.
  - apply IH; [|easy]. intros y Hy. apply Hv, in_or_app. now right.
Qed.
Lemma clean_good l : (forall n, In n l -> good_node n) -> forall n, In n (clean l) -> good_node n.
Proof. apply cleaned_good, clean_cleaned. Qed.
Lemma inherited_good e n : k_namespace K (e_prefix e) (e_xmlns e) -> map_ok (e_context e) -> good_node n -> good_node (inherited e n).
Proof.
  intros He Hm. destruct n as [c|s|s|s]; cbn [inherited apply_xmlns_context good_node]; try easy. intro H.
  apply good_inv in H as ((H1 & H2 & H3 & H4 & H5) & H6 & H7).
  assert (map_ok (inherit_context (e_context c) (e_context e))) as Hi by now apply nodup_inherit_context.
  unfold set_namespace_context, default_namespace. destruct c as [nm ch at_ ns px cx]. destruct H2 as [H2 H2'].
  cbn [e_name e_prefix e_xmlns e_attributes e_context e_children] in *.
  destruct px as [p|], ns as [x|]; cbn [set_xmlns set_context e_xmlns e_prefix e_context e_name e_attributes e_children];
    try (apply good_intro; [repeat split; assumption|assumption|assumption]).
  - now destruct H2'.
  - assert (match e_prefix e with None => e_xmlns e | Some _ => None end = None) as ->.
    { destruct He as [He _]. destruct (e_prefix e); [easy|]. congruence. }
    cbn. apply good_intro; [repeat split; assumption|assumption|assumption].
Qed.
Lemma map_inherited_good e l : k_namespace K (e_prefix e) (e_xmlns e) -> map_ok (e_context e) -> (forall n, In n l -> good_node n) ->
  forall n, In n (map (inherited e) l) -> good_node n.
Proof. intros H1 H2 H n Hn. apply in_map_iff in Hn as (x & <- & Hx). apply inherited_good; auto. Qed.
Lemma in_app_good a b : (forall n, In n a -> good_node n) -> (forall n, In n b -> good_node n) ->
  forall n : node, In n (a ++ b) -> good_node n.
Proof. intros Ha Hb n Hn. apply in_app_or in Hn as [Hn|Hn]; auto. Qed.

(** * Attributes *)

Lemma in_aset k v m : forall k' v', In (k', v') (aset k v m) -> (k' = k /\ v' = v) \/ In (k', v') m.
Proof.
  induction m as [|[a b] m IH]; intros k' v' H; cbn in H.
  - destruct H as [H|[]]. injection H as <- <-. now left.
  - destruct (str_eqb k a) eqn:F.
    + apply str_eqb_eq in F as <-. destruct H as [H|H]; [injection H as <- <-; now left|]. right. now right.
    + destruct H as [H|H]; [right; now left|]. apply IH in H as [H|H]; [now left|]. right. now right.
Qed.
Lemma in_fold_aset l : forall m k v, In (k, v) (fold_left (fun m kv => aset (fst kv) (snd kv) m) l m) ->
  In (k, v) l \/ In (k, v) m.
Proof.
  induction l as [|[a b] l IH]; intros m k v H; cbn [fold_left fst snd] in H; [now right|].
  apply IH in H as [H|H]; [left; now right|]. apply in_aset in H as [[-> ->]|H]; [left; now left|now right].
Qed.
Lemma in_adel k m : forall k' v', In (k', v') (adel k m) -> In (k', v') m.
Proof.
  induction m as [|[a b] m IH]; intros k' v' H; cbn in H; [easy|].
  destruct (str_eqb k a); [now right|]. destruct H as [H|H]; [now left|]. right. now apply IH.
Qed.
Lemma declares_inj p q : declares p = declares q -> p = q.
Proof.
  unfold declares. destruct p as [p|], q as [q|]; intro H; try easy.
  apply app_inv_head in H. now subst.
Qed.
Lemma attr_declares (m : amap) q v : (forall k v, In (k, v) m -> k_attr K k v) -> In (declares q, v) m -> k_namespaces K q = Some v.
Proof.
  intros H Hi. destruct (H _ _ Hi) as [[H1 _]|(q' & E & H1)].
  - apply Hkeys in H1 as [H1 H2]. destruct q as [p|]; [|easy]. destruct H2. now exists p.
  - apply declares_inj in E. now subst.
Qed.
Lemma good_attr e at_ : good e -> map_ok at_ -> (forall k v, In (k, v) at_ -> k_attr K k v) -> good (set_attributes e at_).
Proof. intros H H1 H2. apply good_inv in H as ((A & B & _ & _ & C) & D & F). now apply good_intro. Qed.

(** * Removal *)

(** Few texts: none, or at most one child. *)
Definition few (l : list node) : Prop := (forall t, ~ In (NText t) l) \/ List.length l <= 1.
Lemma unmixed_few e : unmixed e -> few (e_children e).
Proof.
  intros [x H _]. destruct (e_children x) as [|n l] eqn:E; [right; cbn; lia|].
  destruct (existsb is_text (n :: l)) eqn:F.
  - apply existsb_exists in F as (y & Hy & F). destruct y as [| t | |]; try easy. rewrite (H t Hy). right. cbn. lia.
  - left. intros t Ht. assert (existsb is_text (n :: l) = true) by (apply existsb_exists; now exists (NText t)). congruence.
Qed.
Lemma few_normal l : few l -> no_blank_text l -> text_normal l.
Proof.
  intros H B. split; [|easy]. intros a s t b E. destruct H as [H|H].
  - apply (H s). rewrite E. apply in_or_app. right. now left.
  - rewrite E, !app_length in H. cbn in H. lia.
Qed.
Lemma few_part l l' : few l -> List.length l' <= List.length l -> (forall t, In (NText t) l' -> In (NText t) l) -> text_normal l -> text_normal l'.
Proof.
  intros H L S [_ B]. apply few_normal.
  - destruct H as [H|H]; [left; intros t Ht; now apply (H t), S|right; lia].
  - intros t Ht. now apply B, S.
Qed.
Lemma cut_good e a n b : any = true \/ unmixed e -> good e -> children e = a ++ [n] ++ b -> good (set_children e (a ++ b)).
Proof.
  intros U H E. unfold children in E. pose proof (good_inv _ H) as (_ & N & C). rewrite E in N, C.
  apply good_set_children; [easy| |].
  - intro A. destruct U as [U|U]; [congruence|]. apply unmixed_few in U. rewrite E in U.
    apply (few_part _ _ U); [rewrite !app_length; cbn; lia| |auto].
    intros t Ht. apply in_app_or in Ht as [Ht|Ht]; apply in_or_app; [now left|right; now right].
  - intros x Hx. apply C. apply in_app_or in Hx as [Hx|Hx]; apply in_or_app; [now left|right; now right].
Qed.
Lemma cut_node e a n b : good e -> children e = a ++ [n] ++ b -> good_node n.
Proof. intros H E. apply good_inv in H as (_ & _ & C). unfold children in E. rewrite E in C. apply C, in_or_app. right. now left. Qed.
Lemma filter_good e p : any = true \/ unmixed e -> good e -> good (set_children e (filter p (e_children e))).
Proof.
  intros U H. pose proof (good_inv _ H) as (_ & N & C). apply good_set_children; [easy| |].
  - intro A. destruct U as [U|U]; [congruence|]. apply unmixed_few in U. apply (few_part _ _ U); [| |auto].
    + clear. induction (e_children e) as [|n l IH]; cbn; [lia|]. destruct (p n); cbn; lia.
    + intros t Ht. now apply filter_In in Ht.
  - intros x Hx. apply filter_In in Hx. now apply C.
Qed.
Lemma pruned_part p l l' k : pruned p l l' k -> List.length l' <= List.length l /\ forall t, In (NText t) l' -> In (NText t) l.
Proof.
  induction 1 as [|n l l' k Hp H IH|n l l' k Hp Hn H IH|e ch' l l' k1 k2 Hp H1 IH1 H2 IH2]; cbn [List.length].
  - easy.
  - split; [lia|]. intros t Ht. right. now apply IH.
  - split; [lia|]. intros t [->|Ht]; [now left|]. right. now apply IH.
  - split; [lia|]. intros t [Ht|Ht]; [easy|]. right. now apply IH2.
Qed.
Lemma pruned_good p l l' k : pruned p l l' k -> (any = true \/ forall c, In (NElem c) l -> unmixed c) ->
  (forall n, In n l -> good_node n) -> forall n, In n l' -> good_node n.
Proof.
  induction 1 as [|n l l' k Hp H IH|n l l' k Hp Hn H IH|e ch' l l' k1 k2 Hp H1 IH1 H2 IH2]; intros U Hv x Hx.
  - easy.
  - apply IH; [|intros y Hy; apply Hv; now right|easy]. destruct U as [U|U]; [now left|right]. intros c Hc. apply U. now right.
  - destruct Hx as [<-|Hx]; [apply Hv; now left|]. apply IH; [|intros y Hy; apply Hv; now right|easy].
    destruct U as [U|U]; [now left|right]. intros c Hc. apply U. now right.
  - destruct Hx as [<-|Hx].
    + assert (G : good e) by (apply (Hv (NElem e)); now left). pose proof (good_inv _ G) as (_ & N & C).
      assert (Ue : any = true \/ unmixed e) by (destruct U as [U|U]; [now left|right; apply U; now left]).
      apply good_set_children; [easy| |].
      * intro A. destruct Ue as [Ue|Ue]; [congruence|]. apply unmixed_few in Ue. apply pruned_part in H1 as [L S].
        now apply (few_part _ _ Ue); auto.
      * apply IH1; [|easy]. destruct Ue as [Ue|Ue]; [now left|right]. now destruct Ue.
    + apply IH2; [|intros y Hy; apply Hv; now right|easy].
      destruct U as [U|U]; [now left|right]. intros c Hc. apply U. now right.
Qed.
Lemma remove_all_good p e e' k : any = true \/ unmixed e -> good e -> remove_all p e = Ok (e', k) -> good e'.
Proof.
  intros U G E. destruct (remove_all_pruned p e) as (l' & k' & E' & Hp). rewrite E' in E. injection E as <- _.
  pose proof (good_inv _ G) as (_ & N & C). apply good_set_children; [easy| |].
  - intro A. destruct U as [U|U]; [congruence|]. apply unmixed_few in U. apply pruned_part in Hp as [L S]. apply (few_part _ _ U); auto.
  - apply (pruned_good _ _ _ _ Hp); [|easy]. destruct U as [U|U]; [now left|right]. now destruct U.
Qed.
Lemma descendants_good : forall e, good e -> forall n, In n (descendants e) -> good_node n.
Proof.
  induction e as [e IH] using elem_ind'. intros He n Hn. rewrite descendants_eq in Hn.
  apply in_flat_map in Hn as (x & Hx & Hn). apply good_inv in He as (_ & _ & Hc).
  destruct Hn as [<-|Hn]; [now apply Hc|]. destruct x as [c|s|s|s]; try easy.
  apply (IH c Hx); [now apply (Hc (NElem c))|easy].
Qed.

(** * Putting one node in place of another *)

Lemma splice_good e a n n' b : good e -> children e = a ++ [n] ++ b -> good_node n' ->
  (any = false -> text_normal (a ++ [n'] ++ b)) -> good (set_children e (a ++ [n'] ++ b)).
Proof.
  intros He E Hn Ht. apply good_set_children; [easy|easy|]. apply good_inv in He as (_ & _ & Hc).
  unfold children in E. rewrite E in Hc. intros x Hx. apply in_app_or in Hx as [Hx|[<-|Hx]]; try easy.
  - apply Hc, in_or_app. now left.
  - apply Hc, in_or_app. right. now right.
Qed.
(** A list without adjacent texts stays so if a node other than a text comes in
    place of any, or a text in place of a text. *)
Lemma text_positions (l : list node) : no_adjacent_text l <->
  forall i s t, nth_error l i = Some (NText s) -> nth_error l (S i) = Some (NText t) -> False.
Proof.
  split.
  - intros H i s t H1 H2. apply nth_error_split in H1 as (a & b & -> & L). subst i.
    rewrite nth_error_app2 in H2 by lia. replace (S (List.length a) - List.length a) with 1 in H2 by lia. cbn in H2.
    destruct b as [|x b]; [easy|]. injection H2 as ->. now apply (H a s t b).
  - intros H a s t b ->. apply (H (List.length a) s t).
    + rewrite nth_error_app2 by lia. now rewrite Nat.sub_diag.
    + rewrite nth_error_app2 by lia. now replace (S (List.length a) - List.length a) with 1 by lia.
Qed.
Lemma splice_nth (a : list node) n n' b i :
  nth_error (a ++ [n'] ++ b) i = if i =? List.length a then Some n' else nth_error (a ++ [n] ++ b) i.
Proof.
  destruct (Nat.eqb_spec i (List.length a)) as [->|N].
  - rewrite nth_error_app2 by lia. now rewrite Nat.sub_diag.
  - destruct (le_lt_dec (List.length a) i) as [L|L].
    + rewrite (nth_error_app2 a ([n'] ++ b)), (nth_error_app2 a ([n] ++ b)) by lia. destruct (i - List.length a) as [|j] eqn:F; [lia|]. reflexivity.
    + now rewrite !nth_error_app1.
Qed.
Lemma splice_normal a n n' b : text_normal (a ++ [n] ++ b) ->
  (forall t, n' = NText t -> ~ blank t /\ exists t0, n = NText t0) -> text_normal (a ++ [n'] ++ b).
Proof.
  intros [H B] T. split.
  - apply text_positions. intros i s t H1 H2. rewrite (splice_nth a n) in H1, H2. rewrite text_positions in H.
    assert (X : nth_error (a ++ [n] ++ b) (List.length a) = Some n).
    { rewrite nth_error_app2 by lia. now rewrite Nat.sub_diag. }
    destruct (Nat.eqb_spec i (List.length a)) as [->|N1].
    + injection H1 as ->. destruct (T s eq_refl) as (_ & t0 & ->).
      destruct (Nat.eqb_spec (S (List.length a)) (List.length a)); [lia|]. now apply (H _ _ _ X H2).
    + destruct (Nat.eqb_spec (S i) (List.length a)) as [E|N2].
      * injection H2 as ->. destruct (T t eq_refl) as (_ & t0 & ->). rewrite <- E in X. now apply (H _ _ _ H1 X).
      * now apply (H _ _ _ H1 H2).
  - intros t Ht. apply in_app_or in Ht as [Ht|[Ht|Ht]].
    + apply B, in_or_app. now left.
    + now destruct (T t Ht).
    + apply B, in_or_app. right. now right.
Qed.

(** * Programs *)

Lemma element_new_good nm text attrs xmlns prefix ch e : k_name K nm -> k_namespace K prefix xmlns ->
  (forall t, text = Some t -> k_text K t) ->
  (forall m k v, attrs = Some m -> In (k, v) m -> k_attr K k v) ->
  (forall l n, ch = Some l -> In n l -> good_node n) ->
  element_new nm text attrs xmlns prefix ch = Ok e -> good e.
Proof.
  intros Hn Hx Ht Ha Hch H. assert (exists e, element_new nm text attrs xmlns prefix ch = Ok e) as He by eauto.
  apply element_new_ok in He as [H1 H2]. rewrite element_new_eq in H by easy. injection H as <-.
  set (m := fold_left _ _ _).
  assert (Hm : map_ok m) by (apply fold_aset_ok; constructor).
  assert (Hma : forall k v, In (k, v) m -> k_attr K k v).
  { intros k v Hi. apply in_fold_aset in Hi as [Hi|[]]. destruct attrs as [m'|]; [|easy]. now apply (Ha m'). }
  assert (Hc : map_ok (xmlns_context_from_attributes m)) by apply context_ok.
  assert (Hxm : k_namespace K prefix (new_xmlns m xmlns prefix)).
  { destruct Hx as [E N]. destruct xmlns as [x|]; [easy|]. destruct prefix as [p|]; [now destruct N|].
    split; [|easy]. cbn [new_xmlns]. destruct (aget sXmlns m) as [v|] eqn:F; [|now rewrite <- E].
    apply aget_in in F. change sXmlns with (declares None) in F. now rewrite (attr_declares m None v). }
  apply good_intro; cbn [set_children e_name e_attributes e_context e_children e_prefix e_xmlns].
  - repeat split; try easy; apply Hxm.
  - intros _. apply clean_normal.
  - apply clean_good, in_app_good.
    + apply clean_good. intros n Hi. destruct text as [t|]; [|easy]. destruct Hi as [<-|[]]. now apply Ht.
    + apply map_inherited_good; [easy|easy|]. intros n Hi. destruct ch as [l|]; [|easy]. eauto.
Qed.

Lemma uses_good : forall e, uses K e -> elem_ok e -> (any = false -> tree_normal e) -> good e.
Proof.
  induction e as [e IH] using elem_ind'. intros U O T. inversion U as [x U1 U2 U3 U4 U5 U6 U7]; subst x. inversion O as [y O1 O2 O3]; subst y.
  constructor; try assumption.
  - repeat split; try assumption; apply U2.
  - intro A. now destruct (tree_normal_inv _ (T A)).
  - intros c Hc. apply (IH c Hc); [auto|auto|]. intro A. now apply (tree_normal_inv _ (T A)).
Qed.
Lemma good_uses : forall e, good e -> uses K e /\ elem_ok e /\ (any = false -> tree_normal e).
Proof.
  induction e as [e IH] using elem_ind'. intros G. inversion G as [x (H1 & H2 & H3 & H4 & H5) T G1 G2 G3 G4]; subst x.
  split; [|split].
  - constructor; try easy. intros c Hc. now apply (IH c Hc), G4.
  - constructor; try easy. intros c Hc. now apply (IH c Hc), G4.
  - intro A. constructor; [auto|]. intros c Hc. now apply (IH c Hc (G4 c Hc)).
Qed.

Lemma append_all_good e l : good e -> (forall n, In n l -> good_node n) ->
  good (set_children e (clean (e_children e ++ map (inherited e) l))).
Proof.
  intros He Hl. pose proof (good_inv _ He) as ((H1 & H2 & H3 & H4 & H5) & N & C).
  apply good_set_children; [easy|intros _; apply clean_normal|].
  apply clean_good, in_app_good; [easy|]. now apply map_inherited_good.
Qed.
Lemma insert_good e i n e' : good e -> good_node n -> insert e i n = Ok e' -> good e'.
Proof.
  intros He Hn E. pose proof (good_inv _ He) as ((H1 & H2 & H3 & H4 & H5) & N & C).
  destruct (le_lt_dec i (List.length (children e))) as [L|L].
  2: { rewrite insert_out_of_bounds in E by easy. discriminate. }
  assert (forall x, In x (firstn i (children e) ++ [n] ++ skipn i (children e)) -> good_node x) as Hv.
  { unfold children. intros x Hx. apply in_app_or in Hx as [Hx|[<-|Hx]]; [|easy|]; apply C.
    - rewrite <- (firstn_skipn i). apply in_or_app. now left.
    - rewrite <- (firstn_skipn i). apply in_or_app. now right. }
  destruct (exists_last_or (firstn i (children e) ++ [n] ++ skipn i (children e))) as [F|(front & last & F)].
  { now destruct (firstn i (children e)). }
  assert (insert e i n = Ok (set_children e (clean (front ++ [inherited e last])))) as E2.
  { assert (i = List.length (firstn i (e_children e))) as Hi by (unfold children in L; rewrite firstn_length; lia).
    rewrite Hi at 1. apply insert_eq with (b := skipn i (e_children e)); [|exact F]. now rewrite firstn_skipn. }
  rewrite E2 in E. injection E as <-. rewrite F in Hv. apply good_set_children; [easy|intros _; apply clean_normal|].
  apply clean_good, in_app_good.
  - intros x Hx. apply Hv, in_or_app. now left.
  - intros x [<-|[]]. apply inherited_good; [easy|easy|]. apply Hv, in_or_app. right. now left.
Qed.

Theorem made_good :
  (forall e, made K any e -> good e) /\ (forall n, made_node K any n -> good_node n) /\
  (forall e e', does K any e e' -> good e -> good e').
Proof.
  apply made_ind3.
  - intros nm text attrs xmlns prefix ch e H1 H2 H3 H4 _ H5 H. eapply element_new_good; eauto.
  - intros nm e H1 H2 H. rewrite new_from_name_new in H. eapply element_new_good; [exact H1| | | | |exact H]; try easy.
  - intros s d P U. destruct (C48_parsed_valid s d P) as [V T]. apply uses_good; [easy| |easy]. now apply elem_valid_ok.
  - intros e _ H. now rewrite clone_id.
  - intros e e' _ H _ IH. auto.
  - intros e i n e' _ H E c ->. apply remove_ok in E as (a & b & E & _). now apply (cut_node e a (NElem c) b) in E.
  - intros e i c e' _ H E. apply remove_element_ok in E as (a & b & E & _). now apply (cut_node e a (NElem c) b) in E.
  - intros e c _ H Hc. rewrite clone_id. exact (descendants_good e H (NElem c) Hc).
  - easy.
  - easy.
  - intros s c Hs H. unfold comment_new in H. destruct (contains _ s); [discriminate|]. now injection H as <-.
  - intros s c Hs H. unfold cdata_new in H. destruct (contains _ s); [discriminate|]. now injection H as <-.
  - intros e i n e' _ H E. apply remove_ok in E as (a & b & E & _). now apply (cut_node e a n b) in E.
  - intros e n _ H Hn. rewrite clone_node_id. now apply (descendants_good e).
  - intros e k v Ha He. destruct (valid_name_dec k) as [Hk|Hk].
    + rewrite set_attr_ok by easy. cbn [snd]. pose proof (good_inv _ He) as ((_ & _ & H3 & H4 & _) & _ & _).
      apply good_attr; [easy|now apply nodup_aset|]. intros k' v' Hi. apply in_aset in Hi as [[-> ->]|Hi]; auto.
    + now rewrite set_attr_bad.
  - intros e k He. cbn [remove_attr snd]. pose proof (good_inv _ He) as ((_ & _ & H3 & H4 & _) & _ & _).
    apply good_attr; [easy|now apply nodup_adel|]. intros k' v' Hi. apply H3. now apply in_adel in Hi.
  - intros e He. apply good_attr; [easy|constructor|easy].
  - intros e n e' _ Hn E He. rewrite append_eq in E. injection E as <-. apply (append_all_good e [n]); [easy|].
    intros x [<-|[]]. easy.
  - intros e l e' _ Hl E He. rewrite append_all_eq in E. injection E as <-. now apply append_all_good.
  - intros e i n e' _ Hn E He. now apply (insert_good e i n).
  - intros e t e' Ht E He. rewrite set_text_eq in E. injection E as <-. apply good_set_children; [easy| |].
    + intros _. pose proof (clean_normal [NText t]) as X. unfold clean in X.
      cbn [merge_text fold_right merge1 filter keep_node] in X. now destruct (text_is_whitespace t).
    + intros x Hx. destruct (text_is_whitespace t); [easy|]. destruct Hx as [<-|[]]. easy.
  - intros e He. apply good_set_children; [easy| |easy]. intros _. apply (clean_normal []).
  - intros e i n e' U E He. apply remove_ok in E as (a & b & E & ->). now apply (cut_good e a n b).
  - intros e p e' k U E He. rewrite remove_by_eq in E. injection E as <- _. now apply filter_good.
  - intros e p e' k U E He. now apply (remove_all_good p e e' k).
  - intros e i c e' U E He. apply remove_element_ok in E as (a & b & E & ->). now apply (cut_good e a (NElem c) b).
  - intros e p e' k U E He. rewrite remove_elements_eq in E. injection E as <- _. now apply filter_good.
  - intros e nm e' k U E He. unfold remove_elements_by_name in E. rewrite remove_elements_eq in E. injection E as <- _. now apply filter_good.
  - intros e p e' k U E He. rewrite remove_all_elements_eq in E. now apply (remove_all_good (elem_pred p) e e' k).
  - intros e a c c' b E _ IH He. apply (splice_good e a (NElem c)); [easy|easy| |].
    + apply IH. exact (cut_node e a (NElem c) b He E).
    + intro A. apply good_inv in He as (_ & N & _). unfold children in E. rewrite E in N.
      apply (splice_normal a (NElem c)); [auto|easy].
  - intros e a n n' b E _ Hn U He. apply (splice_good e a n); [easy|easy|easy|].
    intro A. apply good_inv in He as (_ & N & _). unfold children in E. rewrite E in N.
    apply (splice_normal a n); [auto|]. destruct U as [U|U]; [congruence|]. intros t ->. now destruct (U t).
  - intros e a t t' b E Hn U He. apply (splice_good e a (NText t)); [easy|easy|easy|].
    intro A. apply good_inv in He as (_ & N & _). unfold children in E. rewrite E in N.
    apply (splice_normal a (NText t)); [auto|]. destruct U as [U|U]; [congruence|]. intros x [= <-]. split; [easy|now exists t].
  - intros e a c s b E Hs He. apply (splice_good e a (NComment c)); [easy|easy| |].
    + cbn [good_node]. unfold comment_set_content. destruct (contains _ s); cbn [snd]; [|easy]. exact (cut_node e a (NComment c) b He E).
    + intro A. apply good_inv in He as (_ & N & _). unfold children in E. rewrite E in N.
      apply (splice_normal a (NComment c)); [auto|easy].
  - intros e a c s b E Hs He. apply (splice_good e a (NCData c)); [easy|easy| |].
    + cbn [good_node]. unfold cdata_set_text. destruct (contains _ s); cbn [snd]; [|easy]. exact (cut_node e a (NCData c) b He E).
    + intro A. apply good_inv in He as (_ & N & _). unfold children in E. rewrite E in N.
      apply (splice_normal a (NCData c)); [auto|easy].
Qed.
End Made.

(** Facts about the model with trait objects: look-ups, removing, copies. *)
From Coq Require Import List NArith Arith Bool Ascii String Lia.
From Verif Require Import Base Escape Dom Nodes SpecDom DomFacts SerFacts Objects SpecObjects ObjectsFacts.
Import ListNotations.

Section Facts.
Context {St : Type} (M : methods St) (mark : St -> str).
Notation obj := (obj_ St (oelem St)).
Notation oelem := (oelem St).
Notation meant := (meant M mark).
Notation meant_obj := (meant_obj M mark).
Notation honest := (honest M).
Notation honest_obj := (honest_obj M).
Notation carried := (carries meant_obj honest_obj).
Notation carried_list := (carries (map meant_obj) (Forall honest_obj)).
Notation carried_elem := (carries meant honest).
Notation carried_elems := (carries (map meant) (Forall honest)).
Notation carried_count := (carries (fun r => (meant (fst r), snd r : nat)) (fun r => honest (fst r))).

Lemma map_filter {A B} (f : A -> B) (P : A -> Prop) p q l : Forall P l -> (forall a, P a -> p a = q (f a)) -> filter q (map f l) = map f (filter p l) /\ Forall P (filter p l).
Proof.
  intros F H. induction F as [|a l Pa F [IH IH2]]; [split; [easy|constructor]|]. cbn [map filter]. rewrite <- (H a Pa), IH. destruct (p a); split; try easy. now constructor.
Qed.
Lemma bind_Ok {A B} (a : A) (k : A -> outcome B) : (do b <- Ok a; k b) = k a.
Proof. reflexivity. Qed.
Lemma view_comment n : honest_obj n -> is_comment (meant_obj n) = o_is_comment M n /\
  (o_is_comment M n = true -> exists t, o_as_comment M n = Some t /\ meant_obj n = NComment t).
Proof.
  intro H. destruct (honest_view M mark n H) as [n c H1 H2 H3 H4 H5 H6 H7 H8 H9 H10 H11 H12|n t H1 H2 H3 H4 H5 H6 H7 H8|n t H1 H2 H3 H4 H5 H6 H7|n t H1 H2 H3 H4 H5 H6 H7|s i S E].
  - rewrite H8, H3. split; [easy|discriminate].
  - rewrite H7, H3. split; [easy|discriminate].
  - rewrite H7, H3. split; [easy|]. intros _. now exists t.
  - rewrite H7, H3. split; [easy|discriminate].
  - rewrite E. assert (o_is_comment M (OUser s i) = false) as -> by apply S. split; [easy|discriminate].
Qed.

(** * Look-ups *)

Lemma elements_carried l : Forall honest_obj l -> carried_elems (filter_cast (o_is_element M) o_as_element l) (Ok (elements_of (map meant_obj l))).
Proof.
  induction 1 as [|n l Hn F IH]; [now apply carries_ok|]. cbn [filter_cast map]. destruct (view_element M mark n Hn) as (E & V & W).
  destruct (o_is_element M n).
  - destruct (V eq_refl) as (c & -> & -> & Hc & _). cbn [unwrap bind elements_of].
    change (Ok (meant c :: elements_of (map meant_obj l))) with (do r <- Ok (elements_of (map meant_obj l)); Ok (meant c :: r)).
    apply carries_bind with (1 := IH). intros r _ Fr. apply carries_ok; [now constructor|easy].
  - assert (elements_of (meant_obj n :: map meant_obj l) = elements_of (map meant_obj l)) as ->; [|exact IH].
    destruct (meant_obj n) as [e| | |] eqn:X; try easy; now destruct (W eq_refl e).
Qed.
Lemma texts_carried l : Forall honest_obj l -> filter_cast (o_is_text M) (o_as_text M) l = Ok (texts_of (map meant_obj l)).
Proof.
  induction 1 as [|n l Hn F IH]; [easy|]. cbn [filter_cast map]. destruct (view_text M mark n Hn) as (E & V). rewrite IH.
  destruct (o_is_text M n); [|now destruct (meant_obj n)]. now destruct (V eq_refl) as (t & -> & ->).
Qed.
Lemma comments_carried l : Forall honest_obj l -> filter_cast (o_is_comment M) (o_as_comment M) l = Ok (comments_of (map meant_obj l)).
Proof.
  induction 1 as [|n l Hn F IH]; [easy|]. cbn [filter_cast map]. destruct (view_comment n Hn) as (E & V). rewrite IH.
  destruct (o_is_comment M n); [|now destruct (meant_obj n)]. now destruct (V eq_refl) as (t & -> & ->).
Qed.
Lemma filter_carried (x : outcome (list oelem)) y p q : carried_elems x (Ok y) -> (forall c, honest c -> p c = q (meant c)) ->
  carried_elems (do l <- x; Ok (filter p l)) (Ok (filter q y)).
Proof.
  intros C H. rewrite <- (bind_Ok y (fun l => Ok (filter q l))). apply carries_bind with (1 := C). intros l _ F.
  destruct (map_filter meant honest p q l F H) as [E G]. now apply carries_ok.
Qed.
Lemma child_elements_carried e : honest e -> carried_elems (o_child_elements M e) (Ok (child_elements (meant e))).
Proof. intro H. unfold o_child_elements, child_elements. rewrite meant_children. now apply elements_carried, honest_inv. Qed.
Lemma by_namespace_carried e ns : honest e -> carried_elems (o_elements_by_namespace M e ns) (Ok (elements_by_namespace (meant e) ns)).
Proof. intro H. apply filter_carried; [now apply child_elements_carried|]. intros c _. now rewrite meant_xmlns. Qed.
Lemma by_prefix_carried e p : honest e -> carried_elems (o_elements_by_namespace_prefix M e p) (Ok (elements_by_namespace_prefix (meant e) p)).
Proof. intro H. apply filter_carried; [now apply child_elements_carried|]. intros c _. now rewrite meant_prefix. Qed.
Lemma by_name_carried e n : honest e -> carried_elems (o_elements_by_name M e n) (Ok (elements_by_name (meant e) n)).
Proof. intro H. apply filter_carried; [now apply child_elements_carried|]. intros c _. now rewrite meant_name. Qed.
Lemma first_carried e n : honest e -> carried_elem (o_first_element_by_name M e n) (first_element_by_name (meant e) n).
Proof.
  intro H. unfold o_first_element_by_name, first_element_by_name, child_elements. rewrite meant_children. apply honest_inv in H.
  induction H as [|a l Ha F IH]; [apply carries_err|]. cbn [o_first_named map]. destruct (view_element M mark a Ha) as (E & V & W).
  destruct (o_is_element M a).
  - destruct (V eq_refl) as (c & -> & -> & Hc & _). cbn [unwrap bind elements_of first_named]. unfold name. rewrite meant_name.
    destruct (str_eqb (o_name c) n); [now apply carries_ok|exact IH].
  - assert (elements_of (meant_obj a :: map meant_obj l) = elements_of (map meant_obj l)) as ->; [|exact IH].
    destruct (meant_obj a) as [e'| | |] eqn:X; try easy; now destruct (W eq_refl e').
Qed.
Lemma update_carried p f q g : (forall c, honest c -> p c = q (meant c)) -> (forall c, honest c -> honest (f c) /\ meant (f c) = g (meant c)) ->
  forall l, Forall honest_obj l -> carried_list (o_update_elements M p f l) (Ok (update_elements q g (map meant_obj l))).
Proof.
  intros Hp Hf l. induction 1 as [|n l Hn F IH]; [now apply carries_ok|]. cbn [o_update_elements map].
  assert (C : carried (if o_is_element M n then change_element (fun e => Ok (if p e then f e else e)) n else Ok n)
    (Ok match meant_obj n with NElem c => NElem (if q c then g c else c) | m => m end)).
  { destruct (view_element M mark n Hn) as (E & V & W). destruct (o_is_element M n).
    - destruct (V eq_refl) as (c & _ & -> & Hc & _ & K & _). destruct (K (fun e => Ok (if p e then f e else e)) _ eq_refl) as (n' & -> & Hn' & En').
      + destruct (p c); [now apply Hf|easy].
      + apply carries_ok; [easy|]. rewrite En', <- Hp by easy. destruct (p c); [|easy]. f_equal. symmetry. now apply Hf.
    - apply carries_ok; [easy|]. destruct (meant_obj n) as [e| | |]; try easy; now destruct (W eq_refl e). }
  assert (update_elements q g (meant_obj n :: map meant_obj l) =
    match meant_obj n with NElem c => NElem (if q c then g c else c) | m => m end :: update_elements q g (map meant_obj l)) as -> by now destruct (meant_obj n).
  rewrite <- (bind_Ok (match meant_obj n with NElem c => NElem (if q c then g c else c) | m => m end) (fun m => Ok (m :: update_elements q g (map meant_obj l)))).
  apply carries_bind with (1 := C). intros n' _ Hn'. rewrite <- (bind_Ok (update_elements q g (map meant_obj l)) (fun r => Ok (meant_obj n' :: r))).
  apply carries_bind with (1 := IH). intros r _ Fr. apply carries_ok; [now constructor|easy].
Qed.
Lemma child_elements_mut_carried e f g : honest e -> (forall c, honest c -> honest (f c) /\ meant (f c) = g (meant c)) ->
  carried_elem (o_child_elements_mut M e f) (Ok (child_elements_mut (meant e) g)).
Proof.
  intros He Hf. unfold o_child_elements_mut, child_elements_mut. rewrite meant_children.
  rewrite <- (bind_Ok (update_elements (fun _ => true) g (map meant_obj (o_children e))) (fun l => Ok (set_children (meant e) l))).
  apply set_children_carried, update_carried; try easy. now apply honest_inv.
Qed.

(** * Descendants *)

Definition rec_list (l : list obj) : outcome (list obj) :=
  (fix go (l : list obj) : outcome (list obj) :=
     match l with
     | [] => Ok []
     | c :: l' =>
         if o_is_element M c
         then do a <- on_element (o_children_recursive M) c; do r <- go l'; Ok (a ++ r)
         else go l'
     end) l.
Lemma o_children_recursive_eq e : o_children_recursive M e = do r <- rec_list (o_children e); Ok (o_children e ++ r).
Proof. now destruct e. Qed.
Lemma honest_child e n c : honest e -> In n (o_children e) -> o_is_element M n = true -> o_as_element n = Some c -> honest c.
Proof.
  intros H I T A. apply honest_inv in H. rewrite Forall_forall in H. destruct (view_element M mark n (H n I)) as (_ & V & _).
  destruct (V T) as (c' & E & _ & Hc & _). congruence.
Qed.
Lemma recursive_elements l : flat_map (fun n => match n with NElem c => children_recursive c | _ => [] end) l = flat_map children_recursive (elements_of l).
Proof. induction l as [|n l IH]; [easy|]. cbn [flat_map]. rewrite IH. now destruct n. Qed.
Lemma children_recursive_carried : forall e, honest e -> carried_list (o_children_recursive M e) (Ok (children_recursive (meant e))).
Proof.
  induction e as [e IH] using oelem_ind'. intro H. rewrite o_children_recursive_eq, children_recursive_eq, recursive_elements, meant_children.
  pose proof (honest_inv M e H) as F.
  assert (K : carried_list (rec_list (o_children e)) (Ok (flat_map children_recursive (elements_of (map meant_obj (o_children e)))))).
  { assert (G : forall l, incl l (o_children e) -> carried_list (rec_list l) (Ok (flat_map children_recursive (elements_of (map meant_obj l))))).
    { induction l as [|n l IHl]; intro I; [now apply carries_ok|]. cbn [map]. change (rec_list (n :: l)) with
        (if o_is_element M n then do a <- on_element (o_children_recursive M) n; do r <- rec_list l; Ok (a ++ r) else rec_list l).
      assert (Hn : honest_obj n) by (rewrite Forall_forall in F; apply F, I; now left). destruct (view_element M mark n Hn) as (E & V & W).
      destruct (o_is_element M n).
      - destruct (V eq_refl) as (c & Ac & -> & Hc & On & _). rewrite On. cbn [elements_of flat_map].
        rewrite <- (bind_Ok (children_recursive (meant c)) (fun a => Ok (a ++ flat_map children_recursive (elements_of (map meant_obj l))))).
        apply carries_bind with (1 := IH n c (I n (or_introl eq_refl)) Ac Hc). intros a _ Fa.
        rewrite <- (bind_Ok (flat_map children_recursive (elements_of (map meant_obj l))) (fun r => Ok (map meant_obj a ++ r))).
        apply carries_bind with (1 := IHl (fun x Hx => I x (or_intror Hx))). intros r _ Fr. apply carries_ok; [now apply Forall_app|]. now rewrite map_app.
      - assert (elements_of (meant_obj n :: map meant_obj l) = elements_of (map meant_obj l)) as ->; [|apply IHl; intros x Hx; apply I; now right].
        destruct (meant_obj n) as [e'| | |] eqn:X; try easy; now destruct (W eq_refl e'). }
    apply G. now intros x. }
  rewrite <- (bind_Ok (flat_map children_recursive (elements_of (map meant_obj (o_children e)))) (fun r => Ok (map meant_obj (o_children e) ++ r))).
  apply carries_bind with (1 := K). intros r _ Fr. apply carries_ok; [now apply Forall_app|]. now rewrite map_app.
Qed.
Lemma search_carried e p q : honest e -> (forall n, honest_obj n -> p n = q (meant_obj n)) -> carried_list (o_search M e p) (Ok (search (meant e) q)).
Proof.
  intros He Hp. unfold o_search, search. rewrite <- (bind_Ok (children_recursive (meant e)) (fun l => Ok (filter q l))).
  apply carries_bind with (1 := children_recursive_carried e He). intros l _ F. destruct (map_filter meant_obj honest_obj p q l F Hp) as [E G]. now apply carries_ok.
Qed.
Lemma all_children_carried e : honest e -> carried_list (o_all_children M e) (Ok (all_children (meant e))).
Proof. intro H. now apply search_carried. Qed.
Lemma search_elements_carried e p q : honest e -> (forall c, honest c -> p c = q (meant c)) -> carried_elems (o_search_elements M e p) (search_elements (meant e) q).
Proof.
  intros He Hp. rewrite search_elements_eq. unfold o_search_elements.
  rewrite <- (bind_Ok (children_recursive (meant e)) (fun l => Ok (filter q (elements_of l)))).
  apply carries_bind with (1 := children_recursive_carried e He). intros l _ F. apply filter_carried; [|easy]. now apply elements_carried.
Qed.
Lemma search_elements_by_name_carried e n : honest e -> carried_elems (o_search_elements_by_name M e n) (search_elements_by_name (meant e) n).
Proof. intro H. apply search_elements_carried; [easy|]. intros c _. unfold name. now rewrite meant_name. Qed.
Lemma search_text_carried e p : honest e -> o_search_text M e p = search_text (meant e) p.
Proof.
  intro H. rewrite search_text_eq. unfold o_search_text. destruct (children_recursive_carried e H) as [E F].
  destruct (o_children_recursive M e) as [l| | |]; try discriminate. injection E as ->. cbn [bind]. now rewrite texts_carried by now apply F.
Qed.
Lemma search_comments_carried e p : honest e -> o_search_comments M e p = search_comments (meant e) p.
Proof.
  intro H. rewrite search_comments_eq. unfold o_search_comments. destruct (children_recursive_carried e H) as [E F].
  destruct (o_children_recursive M e) as [l| | |]; try discriminate. injection E as ->. cbn [bind]. now rewrite comments_carried by now apply F.
Qed.

(** * Text *)

Lemma o_text_eq e : o_text M e = flat_map (fun c => if o_is_text M c || o_is_element M c then o_node_text M c else []) (o_children e).
Proof.
  destruct e as [nm ch at_ ns px cx]. cbn [o_children]. change (o_text M (mkO nm ch at_ ns px cx)) with
    ((fix go (l : list obj) : str := match l with [] => [] | c :: l' => (if o_is_text M c || o_is_element M c then o_node_text M c else []) ++ go l' end) ch).
  induction ch as [|c ch IH]; [easy|]. cbn [flat_map]. now rewrite <- IH.
Qed.
Lemma elem_text_flat e : elem_text e = flat_map (fun n => match n with NText s => s | NElem c => elem_text c | _ => [] end) (e_children e).
Proof.
  destruct e as [nm ch at_ ns px cx]. cbn [e_children elem_text]. induction ch as [|c ch IH]; [easy|]. cbn [flat_map]. rewrite <- IH. now destruct c.
Qed.
Lemma text_carried : forall e, honest e -> o_text M e = elem_text (meant e).
Proof.
  induction e as [e IH] using oelem_ind'. intro H. rewrite o_text_eq, elem_text_flat, meant_children. apply honest_inv in H.
  revert H IH. generalize (o_children e). induction l as [|n l IHl]; intros H IH; [easy|]. inversion H; subst. cbn [map flat_map].
  rewrite <- IHl; [|easy|intros n' c' I A Hc; now apply (IH n' c' (or_intror I) A)].
  f_equal. destruct (honest_view M mark n H2) as [n c H1 H2' H3' H4 H5 H6 H7 H8 H9 H10 H11 H12|n t H1 H2' H3' H4 H5 H6 H7 H8|n t H1 H2' H3' H4 H5 H6 H7|n t H1 H2' H3' H4 H5 H6 H7|s i S E].
  - rewrite H1, H8, H9, orb_true_r. apply (IH n c); [now left|easy|easy].
  - now rewrite H1, H2', H7, H8.
  - now rewrite H1, H2', H7.
  - now rewrite H1, H2', H7.
  - rewrite E. destruct S as ((S1 & S2 & _) & _). cbn [o_is_text o_is_element]. now rewrite S1, S2.
Qed.

(** * Removing *)

Lemma remove_carried e i : honest e -> carries (fun r => (meant_obj (fst r), meant (snd r))) (fun r => honest_obj (fst r) /\ honest (snd r)) (o_remove e i) (remove (meant e) i).
Proof.
  intro H. unfold o_remove, remove. rewrite meant_children, map_length. destruct (List.length (o_children e) <=? i); [apply carries_err|].
  apply carries_bind with (1 := vremove_carried M mark _ i (honest_inv M e H)). intros r _ [H1 H2]. cbn [fst snd]. apply carries_ok.
  - split; [easy|]. now apply honest_of.
  - cbn [fst snd]. now rewrite meant_set_children.
Qed.
Section Vec.
Context {A B : Type} (f : A -> B) (P : A -> Prop) (p : A -> outcome bool) (q : B -> bool) (H : forall a, P a -> p a = Ok (q (f a))).
Lemma matching_carried l : Forall P l -> forall idx, o_matching p l idx = matching q (map f l) idx.
Proof.
  intro F. induction idx as [|i idx IH]; [easy|]. cbn [o_matching matching]. rewrite vget_map. destruct (vget l i) as [a| | |] eqn:E; try easy.
  cbn [outcome_map bind]. rewrite H by now apply (vget_kept P l i). cbn [bind]. now rewrite IH.
Qed.
Lemma remove_indices_map : forall idx (l : list A), remove_indices (map f l) idx = outcome_map (map f) (remove_indices l idx).
Proof.
  induction idx as [|i idx IH]; intro l; [easy|]. cbn [remove_indices]. rewrite vremove_map. destruct (vremove l i) as [r| | |]; try easy. cbn [outcome_map bind fst snd]. apply IH.
Qed.
Lemma remove_by_vec_carried l : Forall P l ->
  carries (fun r => (map f (fst r), snd r)) (fun r => Forall P (fst r)) (o_remove_by_vec p l) (remove_by_vec q (map f l)).
Proof.
  intro F. unfold o_remove_by_vec, remove_by_vec. rewrite map_length, matching_carried by easy. destruct (matching q (map f l) (rev (seq 0 (List.length l)))) as [rm| | |]; try now split.
  cbn [bind]. rewrite remove_indices_map. destruct (remove_indices l rm) as [l'| | |] eqn:E; try now split. cbn [outcome_map bind].
  apply carries_ok; [|easy]. cbn [fst]. now apply (remove_indices_kept P rm l).
Qed.
End Vec.
Lemma remove_by_carried e p q : honest e -> (forall n, honest_obj n -> p n = Ok (q (meant_obj n))) -> carried_count (o_remove_by e p) (remove_by (meant e) q).
Proof.
  intros He Hp. unfold o_remove_by, remove_by. rewrite meant_children.
  apply carries_bind with (1 := remove_by_vec_carried meant_obj honest_obj p q Hp _ (honest_inv M e He)). intros r _ F. cbn [fst snd] in *.
  apply carries_ok; [now apply honest_of|]. cbn [fst snd]. now rewrite meant_set_children.
Qed.
Lemma elem_pred_ok p q : (forall c, honest c -> p c = q (meant c)) -> forall n, honest_obj n -> o_elem_pred M p n = Ok (elem_pred q (meant_obj n)).
Proof.
  intros Hp n Hn. unfold o_elem_pred. destruct (view_element M mark n Hn) as (E & V & W). destruct (o_is_element M n).
  - destruct (V eq_refl) as (c & _ & -> & Hc & On & _). rewrite On. cbn [elem_pred]. now rewrite Hp.
  - destruct (meant_obj n) as [e| | |]; try easy; now destruct (W eq_refl e).
Qed.
(** Pairs of a child and the result of the recursive call *)
Definition pair_meant (x : obj * outcome (oelem * nat)) : node * outcome (elem * nat) :=
  (meant_obj (fst x), match meant_obj (fst x) with NElem _ => outcome_map (fun r => (meant (fst r), snd r)) (snd x) | _ => Panic end).
Definition pair_honest (x : obj * outcome (oelem * nat)) : Prop := honest_obj (fst x) /\ (o_is_element M (fst x) = true -> if_ok (fun r => honest (fst r)) (snd x)).
Lemma collect_carried l : Forall pair_honest l ->
  carries (fun r => (map meant_obj (fst r), snd r)) (fun r => Forall honest_obj (fst r)) (o_collect_removed M l) (collect_removed (map pair_meant l)).
Proof.
  induction 1 as [|[n r] l [Hn Hr] F IH]; [apply carries_ok; [constructor|easy]|]. cbn [o_collect_removed map]. unfold pair_meant at 1. cbn [fst snd] in *. cbn [collect_removed].
  destruct (view_element M mark n Hn) as (E & V & W). destruct (o_is_element M n).
  - destruct (V eq_refl) as (c & _ & -> & Hc & _ & K & _). destruct r as [ec| | |]; try now split. cbn [outcome_map bind].
    destruct (K (fun _ => Ok (fst ec)) (fst ec) eq_refl (Hr eq_refl ec eq_refl)) as (n' & -> & Hn' & En'). cbn [bind fst snd].
    apply carries_bind with (1 := IH). intros rest _ Fr. cbn [fst snd] in *. apply carries_ok; cbn [fst snd map]; [now constructor|]. now rewrite En'.
  - assert (C : carries (fun r => (map meant_obj (fst r), snd r)) (fun r => Forall honest_obj (fst r))
      (do rest <- o_collect_removed M l; Ok (n :: fst rest, snd rest)) (do rest <- collect_removed (map pair_meant l); Ok (meant_obj n :: fst rest, snd rest))).
    { apply carries_bind with (1 := IH). intros rest _ Fr. cbn [fst snd] in *. apply carries_ok; cbn [fst snd map]; [now constructor|easy]. }
    destruct (meant_obj n) as [e| | |]; try exact C; now destruct (W eq_refl e).
Qed.
Definition pairs (p : obj -> outcome bool) (l : list obj) : list (obj * outcome (oelem * nat)) := map (fun c => (c, on_element (o_remove_all M p) c)) l.
Lemma o_remove_all_pairs p e : o_remove_all M p e =
  do r <- o_remove_by_vec (fun a => p (fst a)) (pairs p (o_children e));
  do rec <- o_collect_removed M (fst r);
  Ok (o_set_children e (fst rec), snd r + snd rec).
Proof.
  destruct e as [nm ch at_ ns px cx]. cbn [o_remove_all o_children].
  assert (E : (fix go (l : list obj) : list (obj * outcome (oelem * nat)) := match l with [] => [] | c :: l' => (c, on_element (o_remove_all M p) c) :: go l' end) ch = pairs p ch).
  { induction ch as [|c ch IH]; [easy|]. unfold pairs in *. cbn [map]. now rewrite <- IH. }
  now rewrite E.
Qed.
Lemma remove_all_pairs q e : remove_all q e =
  do r <- remove_by_vec (fun a => q (fst a)) (map (fun c => (c, match c with NElem c' => remove_all q c' | _ => Panic end)) (e_children e));
  do rec <- collect_removed (fst r);
  Ok (set_children e (fst rec), snd r + snd rec).
Proof.
  destruct e as [nm ch at_ ns px cx]. cbn [remove_all e_children].
  assert (E : (fix go (l : list node) : list (node * outcome (elem * nat)) := match l with [] => [] | c :: l' => (c, match c with NElem c' => remove_all q c' | _ => Panic end) :: go l' end) ch =
    map (fun c => (c, match c with NElem c' => remove_all q c' | _ => Panic end)) ch).
  { induction ch as [|c ch IH]; [easy|]. cbn [map]. now rewrite <- IH. }
  now rewrite E.
Qed.
Lemma pairs_meant p q l : Forall honest_obj l ->
  (forall n c, In n l -> o_as_element n = Some c -> honest c -> carried_count (o_remove_all M p c) (remove_all q (meant c))) ->
  Forall pair_honest (pairs p l) /\
  map pair_meant (pairs p l) = map (fun c => (c, match c with NElem c' => remove_all q c' | _ => Panic end)) (map meant_obj l).
Proof.
  intros F IH. induction F as [|n l Hn F IHl]; [split; [constructor|easy]|]. destruct IHl as [G1 G2]; [intros m c I; apply (IH m c); now right|].
  unfold pairs in *. cbn [map]. rewrite G2. specialize (IH n). unfold pair_meant, pair_honest. cbn [fst snd].
  destruct (view_element M mark n Hn) as (E & V & W). destruct (o_is_element M n) eqn:T.
  - destruct (V eq_refl) as (c & Ac & -> & Hc & On & _). destruct (IH c (or_introl eq_refl) Ac Hc) as [C1 C2]. split.
    + constructor; [|easy]. split; [easy|]. intros _. cbn [snd]. now rewrite On.
    + f_equal. now rewrite C1, On.
  - split.
    + constructor; [|easy]. split; [easy|]. cbn [fst]. congruence.
    + f_equal. destruct (meant_obj n) as [e| | |]; try easy; now destruct (W eq_refl e).
Qed.
Lemma remove_all_carried p q : (forall n, honest_obj n -> p n = Ok (q (meant_obj n))) ->
  forall e, honest e -> carried_count (o_remove_all M p e) (remove_all q (meant e)).
Proof.
  intro Hp. induction e as [e IH] using oelem_ind'. intro H. rewrite o_remove_all_pairs, remove_all_pairs, meant_children.
  destruct (pairs_meant p q (o_children e) (honest_inv M e H) (fun n c I A Hc => IH n c I A Hc)) as [F <-].
  apply carries_bind with (1 := remove_by_vec_carried pair_meant pair_honest (fun a => p (fst a)) (fun a => q (fst a)) (fun a Ha => Hp (fst a) (proj1 Ha)) _ F).
  intros r _ Fr. cbn [fst snd] in *. apply carries_bind with (1 := collect_carried (fst r) Fr). intros rc _ Frc. cbn [fst snd] in *.
  apply carries_ok; [now apply honest_of|]. cbn [fst snd]. now rewrite meant_set_children.
Qed.
Lemma remove_all_elements_carried p q e : (forall c, honest c -> p c = q (meant c)) -> honest e ->
  carried_count (o_remove_all_elements M p e) (remove_all_elements q (meant e)).
Proof.
  intros Hp He. unfold o_remove_all_elements, remove_all_elements. pose proof (elem_pred_ok p q Hp) as Hq.
  apply carries_bind with (1 := remove_by_carried e _ _ He Hq). intros r _ Hr. cbn [fst snd] in *. rewrite meant_children.
  destruct (pairs_meant (o_elem_pred M p) (elem_pred q) (o_children (fst r)) (honest_inv M _ Hr) (fun n c _ _ Hc => remove_all_carried _ _ Hq c Hc)) as [F E].
  rewrite <- E. fold (pairs (o_elem_pred M p) (o_children (fst r))). apply carries_bind with (1 := collect_carried _ F). intros rc _ Frc. cbn [fst snd] in *.
  apply carries_ok; [now apply honest_of|]. cbn [fst snd]. now rewrite meant_set_children.
Qed.
Lemma remove_elements_carried p q e : (forall c, honest c -> p c = q (meant c)) -> honest e ->
  carried_count (o_remove_elements M e p) (remove_elements (meant e) q).
Proof.
  intros Hp He. assert (E : remove_elements (meant e) q = remove_by (meant e) (fun n => if is_element n then elem_pred q n else false)) by reflexivity.
  rewrite E. apply remove_by_carried; [easy|]. intros n Hn. rewrite (elem_pred_ok p q Hp n Hn). now destruct (meant_obj n).
Qed.
Lemma remove_elements_by_name_carried n e : honest e -> carried_count (o_remove_elements_by_name M e n) (remove_elements_by_name (meant e) n).
Proof. intro H. apply remove_elements_carried; [|easy]. intros c _. now rewrite meant_name. Qed.

(** * Copies *)

Definition clone_list (l : list obj) : outcome (list obj) :=
  (fix go (l : list obj) : outcome (list obj) := match l with [] => Ok [] | c :: l' => do c' <- o_clone_node M c; do r <- go l'; Ok (c' :: r) end) l.
Lemma o_clone_eq e : o_clone M e = do l <- clone_list (o_children e); Ok (o_set_children e l).
Proof. now destruct e. Qed.
Definition a_stranger (n : obj) : Prop :=
  (exists s i, n = OUser s i /\ stranger M s) \/ (exists c, o_is_element M n = true /\ o_as_element n = Some c /\ has_stranger M c).
Lemma has_stranger_iff e : has_stranger M e <-> Exists a_stranger (o_children e).
Proof.
  split.
  - intro H. apply Exists_exists. destruct H as [e s i I S|e n c I T A H].
    + exists (OUser s i). split; [easy|]. left. now exists s, i.
    + exists n. split; [easy|]. right. now exists c.
  - intro H. apply Exists_exists in H. destruct H as (n & I & [(s & i & -> & S)|(c & T & A & H)]).
    + now apply hs_here with s i.
    + now apply hs_below with n c.
Qed.
Definition own_obj (n : obj) : Prop := match n with OElem c => own c | OUser _ _ => False | _ => True end.
Lemma own_iff e : own e <-> Forall own_obj (o_children e).
Proof.
  split.
  - intro H. apply Forall_forall. intros n I. inversion H as [? H1 H2]; subst. destruct n as [c| | | |s i]; cbn; try easy; [now apply H2|now apply (H1 s i)].
  - intro H. rewrite Forall_forall in H. constructor.
    + intros s i I. exact (H _ I).
    + intros c I. exact (H _ I).
Qed.
Lemma clone_spec : forall e, honest e ->
  (has_stranger M e /\ o_clone M e = Panic) \/ (~ has_stranger M e /\ exists e', o_clone M e = Ok e' /\ own e' /\ meant e' = meant e).
Proof.
  induction e as [e IH] using oelem_ind'. intro H. rewrite has_stranger_iff, o_clone_eq. pose proof (honest_inv M e H) as F. clear H.
  assert (K : (Exists a_stranger (o_children e) /\ clone_list (o_children e) = Panic) \/
    (~ Exists a_stranger (o_children e) /\ exists l, clone_list (o_children e) = Ok l /\ Forall own_obj l /\ map meant_obj l = map meant_obj (o_children e))).
  { revert F IH. generalize (o_children e). induction l as [|n l IHl]; intros F IH; [right; split; [inversion 1|now exists []]|]. inversion F as [|? ? Hn Fl]; subst.
    destruct IHl as [[X Y]|[X (l' & Y & Z & W)]]; [easy|intros n' c' I A Hc; now apply (IH n' c' (or_intror I) A)| |].
    - change (clone_list (n :: l)) with (do c' <- o_clone_node M n; do r <- clone_list l; Ok (c' :: r)).
      left. split; [now right|]. rewrite Y.
      destruct (honest_view M mark n Hn) as [n c H1 H2 H3 H4 H5 H6 H7 H8 H9 H10 H11 H12|n t H1 H2 H3 H4 H5 H6 H7 H8|n t H1 H2 H3 H4 H5 H6 H7|n t H1 H2 H3 H4 H5 H6 H7|s i S E]; unfold o_clone_node.
      + rewrite H1, H10. destruct (IH n c (or_introl eq_refl) H6 H7) as [[_ ->]|[_ (e' & -> & _)]]; easy.
      + now rewrite H1, H2, H6.
      + now rewrite H1, H2, H3, H6.
      + now rewrite H1, H2, H3, H4, H6.
      + destruct S as ((S1 & S2 & S3 & S4) & _). cbn [o_is_element o_is_text o_is_comment o_is_cdata]. now rewrite S1, S2, S3, S4.
    - change (clone_list (n :: l)) with (do c' <- o_clone_node M n; do r <- clone_list l; Ok (c' :: r)). rewrite Y.
      assert (Q : forall c', o_clone_node M n = Ok c' -> own_obj c' -> meant_obj c' = meant_obj n -> ~ a_stranger n ->
        ~ Exists a_stranger (n :: l) /\ exists l0, (do c' <- o_clone_node M n; do r <- Ok l'; Ok (c' :: r)) = Ok l0 /\ Forall own_obj l0 /\ map meant_obj l0 = map meant_obj (n :: l)).
      { intros c' -> Oc Ec N. split; [intro E; inversion E; easy|]. exists (c' :: l'). cbn [bind map]. rewrite Ec, W. split; [easy|]. split; [now constructor|easy]. }
      destruct (honest_view M mark n Hn) as [n c H1 H2 H3 H4 H5 H6 H7 H8 H9 H10 H11 H12|n t H1 H2 H3 H4 H5 H6 H7 H8|n t H1 H2 H3 H4 H5 H6 H7|n t H1 H2 H3 H4 H5 H6 H7|s i S E]; unfold o_clone_node in *.
      + rewrite H1, H10 in *. destruct (IH n c (or_introl eq_refl) H6 H7) as [[P ->]|[P (e' & R & O & T)]].
        * left. split; [left; right; now exists c|easy].
        * right. apply (Q (OElem e')); [now rewrite R|easy|cbn; now rewrite T|]. intros [(s & i & -> & S)|(c0 & _ & A & B)]; [|congruence].
          destruct S as ((S1 & _) & _). cbn in H1. congruence.
      + right. rewrite H1, H2, H6 in *. apply (Q (OText t)); try easy. intros [(s & i & -> & S)|(c0 & A & _)]; [|congruence].
        destruct S as ((_ & S1 & _) & _). cbn in H2. congruence.
      + right. rewrite H1, H2, H3, H6 in *. apply (Q (OComment t)); try easy. intros [(s & i & -> & S)|(c0 & A & _)]; [|congruence].
        destruct S as ((_ & _ & S1 & _) & _). cbn in H3. congruence.
      + right. rewrite H1, H2, H3, H4, H6 in *. apply (Q (OCData t)); try easy. intros [(s & i & -> & S)|(c0 & A & _)]; [|congruence].
        destruct S as ((_ & _ & _ & S1) & _). cbn in H4. congruence.
      + left. split; [left; left; now exists s, i|]. destruct S as ((S1 & S2 & S3 & S4) & _). cbn [o_is_element o_is_text o_is_comment o_is_cdata]. now rewrite S1, S2, S3, S4. }
  destruct K as [[X ->]|[X (l & -> & Ol & El)]]; [now left|]. right. split; [easy|]. exists (o_set_children e l). split; [easy|]. split; [now apply own_iff|].
  rewrite meant_set_children, El, <- meant_children. now destruct (meant e).
Qed.
End Facts.

(** Proofs about the child lists of elements: text clean-up, adding, removing,
    searching. *)
From Coq Require Import List NArith Arith Bool Ascii String Lia Permutation.
From Verif Require Import Base Escape Dom BaseFacts Spec SpecDom.
Import ListNotations.

(** * Induction on trees *)

Lemma elem_ind' (P : elem -> Prop)
  (H : forall e, (forall c, In (NElem c) (e_children e) -> P c) -> P e) : forall e, P e.
Proof.
  fix IH 1. intro e. apply H. destruct e as [nm ch at_ ns px cx]. cbn [e_children].
  induction ch as [|n ch IHch]; [intros c []|].
  intros c [E|Hin]; [|exact (IHch c Hin)].
  destruct n as [e'| | |]; [|discriminate E..].
  pose proof (IH e') as HP. injection E as <-. exact HP.
Qed.

Lemma set_children_id e : set_children e (e_children e) = e.
Proof. now destruct e. Qed.
Lemma set_children_twice e a b : set_children (set_children e a) b = set_children e b.
Proof. reflexivity. Qed.
Lemma only_children e l : only_children_change e (set_children e l).
Proof. easy. Qed.

(** * Text clean-up *)

Definition merge1 (n : node) (acc : list node) : list node :=
  match n, acc with
  | NText s, NText t :: acc' => NText (s ++ t) :: acc'
  | _, _ => n :: acc
  end.
Definition merge_text (l : list node) : list node := fold_right merge1 [] l.
Definition keep_node (n : node) : bool :=
  match n with NText s => negb (text_is_whitespace s) | _ => true end.
Definition clean (l : list node) : list node := filter keep_node (merge_text l).

Lemma merge_loop_ok : forall pre x suf,
  merge_text_loop (List.length pre) (pre ++ x :: suf) = Ok (fold_right merge1 (x :: suf) pre).
Proof.
  induction pre as [|y pre IH] using rev_ind; intros x suf; [easy|].
  rewrite app_length, Nat.add_comm. cbn [List.length plus merge_text_loop].
  replace (S (List.length pre)) with (List.length (pre ++ [y])) by (rewrite app_length; cbn; lia).
  rewrite vget_app. cbn [bind].
  rewrite fold_right_app. cbn [fold_right].
  destruct (is_text x) eqn:Ex.
  - destruct x as [|t| |]; try discriminate.
    rewrite <- app_assoc. cbn [app]. rewrite vget_app. cbn [bind].
    destruct (is_text y) eqn:Ey.
    + destruct y as [|s| |]; try discriminate.
      pose proof (vremove_app (pre ++ [NText s]) (NText t) suf) as V.
      rewrite <- app_assoc in V. cbn [app] in V. rewrite V. cbn [bind snd fst].
      rewrite <- app_assoc. cbn [app]. rewrite vremove_app. cbn [bind snd fst expect as_text].
      rewrite vinsert_app. cbn [bind]. rewrite IH. reflexivity.
    + rewrite IH. destruct y; try discriminate; reflexivity.
  - rewrite <- app_assoc. cbn [app]. rewrite IH. destruct y, x; try discriminate; reflexivity.
Qed.

Lemma drop_loop_ok : forall pre x suf,
  drop_blank_loop (List.length pre) (pre ++ x :: suf) = Ok (filter keep_node (pre ++ [x]) ++ suf).
Proof.
  assert (forall pre x suf,
    (do a <- vget (pre ++ x :: suf) (List.length pre);
     (if is_text a
      then do t <- expect (as_text a);
           if text_is_whitespace t
           then do r <- vremove (pre ++ x :: suf) (List.length pre); Ok (snd r)
           else Ok (pre ++ x :: suf)
      else Ok (pre ++ x :: suf))) = Ok (pre ++ filter keep_node [x] ++ suf)) as Hstep.
  { intros pre x suf. rewrite vget_app. cbn [bind filter].
    destruct x as [e|t|c|c]; cbn [is_text keep_node negb app]; try reflexivity.
    cbn [expect as_text bind]. destruct (text_is_whitespace t); cbn [negb app]; [|reflexivity].
    rewrite vremove_app. reflexivity. }
  induction pre as [|y pre IH] using rev_ind; intros x suf.
  - specialize (Hstep [] x suf). cbn [List.length app drop_blank_loop] in *.
    destruct (vget (x :: suf) 0) as [a| | |]; cbn [bind] in *; try discriminate.
    rewrite Hstep. cbn [bind]. reflexivity.
  - specialize (Hstep (pre ++ [y]) x suf).
    rewrite app_length, Nat.add_comm in *. cbn [List.length plus drop_blank_loop] in *.
    destruct (vget ((pre ++ [y]) ++ x :: suf) (S (List.length pre))) as [a| | |]; cbn [bind] in *; try discriminate.
    rewrite Hstep. cbn [bind]. rewrite <- app_assoc. cbn [app]. rewrite IH.
    f_equal. rewrite (filter_app _ (pre ++ [y])). now rewrite <- app_assoc.
Qed.

Lemma merge_fold_cons pre x suf : exists y r, fold_right merge1 (x :: suf) pre = y :: r.
Proof.
  induction pre as [|n pre (y & r & IH)]; [now exists x, suf|]. cbn [fold_right]. rewrite IH.
  unfold merge1. destruct n, y; eauto.
Qed.
Lemma exists_last_or {A} (l : list A) : l = [] \/ exists pre x, l = pre ++ [x].
Proof. destruct l as [|x l] using rev_ind; [now left|]. right. now exists l, x. Qed.

Lemma cleanup_clean l : cleanup_text_nodes l = Ok (clean l).
Proof.
  unfold cleanup_text_nodes, clean. destruct l as [|a l]; [easy|].
  destruct (exists_last_or (a :: l)) as [H|(pre & x & H)]; [easy|]. rewrite H.
  rewrite app_length. cbn [List.length].
  replace (List.length pre + 1 - 1) with (List.length pre) by lia.
  rewrite merge_loop_ok. cbn [bind].
  unfold merge_text. rewrite fold_right_app.
  replace (fold_right merge1 [] [x]) with [x] by now destruct x.
  destruct (merge_fold_cons pre x []) as (y & r & E). rewrite E.
  destruct (exists_last_or (y :: r)) as [H'|(pre' & x' & H')]; [easy|]. rewrite H'.
  rewrite app_length. cbn [List.length].
  replace (List.length pre' + 1 - 1) with (List.length pre') by lia.
  rewrite drop_loop_ok. now rewrite app_nil_r.
Qed.

Lemma is_whitespace_blank s : text_is_whitespace s = true <-> blank s.
Proof.
  unfold text_is_whitespace, blank. destruct s as [|c s].
  - split; [easy|]. now intros [H _].
  - rewrite forallb_forall, Forall_forall. split; [intro H; split; [easy|exact H]|now intros [_ H]].
Qed.
Lemma not_blank s : text_is_whitespace s = false <-> ~ blank s.
Proof. rewrite <- is_whitespace_blank. destruct (text_is_whitespace s); split; congruence. Qed.

Lemma text_run l : exists run rest, l = map (@NText elem) run ++ rest /\ ~ starts_with_text rest.
Proof.
  induction l as [|n l (run & rest & -> & H)].
  - exists [], []. split; [easy|]. now intros (s & r & E).
  - destruct n as [e|s|s|s].
    2: { now exists (s :: run), rest. }
    all: eexists [], _; split; [reflexivity|]; intros (s' & r & E); discriminate.
Qed.
Lemma merge_head l : starts_with_text (merge_text l) -> starts_with_text l.
Proof.
  destruct l as [|n l]; [now intros (s & r & E)|]. cbn [merge_text fold_right].
  intros (s & r & E). destruct n; try (cbn [merge1] in E; discriminate).
  eexists _, _. reflexivity.
Qed.
Lemma merge_run run l : run <> [] -> ~ starts_with_text l ->
  merge_text (map (@NText elem) run ++ l) = NText (List.concat run) :: merge_text l.
Proof.
  intros Hr Hl. induction run as [|s run IH]; [easy|]. cbn [map app merge_text fold_right List.concat].
  destruct run as [|s' run].
  - cbn [map app List.concat]. rewrite app_nil_r. fold (merge_text l).
    destruct (merge_text l) as [|[]] eqn:E; try reflexivity.
    destruct Hl. apply merge_head. rewrite E. eexists _, _. reflexivity.
  - fold (merge_text (map (@NText elem) (s' :: run) ++ l)). rewrite IH by easy. reflexivity.
Qed.
Lemma merge_other n l : (forall s, n <> NText s) -> merge_text (n :: l) = n :: merge_text l.
Proof. intro H. destruct n as [|s| |]; try reflexivity. now destruct (H s). Qed.

Lemma clean_run run l : run <> [] -> ~ starts_with_text l ->
  clean (map (@NText elem) run ++ l) =
  (if text_is_whitespace (List.concat run) then [] else [NText (List.concat run)]) ++ clean l.
Proof.
  intros Hr Hl. unfold clean. rewrite merge_run by easy. cbn [filter keep_node].
  now destruct (text_is_whitespace (List.concat run)).
Qed.
Lemma clean_other n l : (forall s, n <> NText s) -> clean (n :: l) = n :: clean l.
Proof.
  intro H. unfold clean. rewrite merge_other by easy. cbn [filter].
  destruct n as [|s| |]; try reflexivity. now destruct (H s).
Qed.

Lemma clean_cleaned l : cleaned l (clean l).
Proof.
  remember (List.length l) as k eqn:Hk. revert l Hk.
  induction k as [k IH] using lt_wf_ind. intros l ->.
  destruct (text_run l) as (run & rest & -> & Hrest).
  destruct run as [|s run].
  - cbn [map app]. destruct rest as [|n rest]; [constructor|].
    assert (forall s, n <> NText s) as Hn by (intros s ->; apply Hrest; now exists s, rest).
    rewrite clean_other by easy. apply cl_other; [easy|].
    eapply IH; [|reflexivity]. cbn. lia.
  - assert (cleaned rest (clean rest)) as Hr.
    { eapply IH; [|reflexivity]. rewrite app_length, map_length. cbn. lia. }
    rewrite clean_run by easy.
    destruct (text_is_whitespace (List.concat (s :: run))) eqn:E; cbn [app].
    + apply cl_drop; try easy. now apply is_whitespace_blank.
    + apply (cl_keep (s :: run)); try easy. now apply not_blank.
Qed.
Lemma cleaned_clean l l' : cleaned l l' -> l' = clean l.
Proof.
  induction 1 as [|n l l' Hn H IH|run l l' Hr Hl Hb H IH|run l l' Hr Hl Hb H IH].
  - reflexivity.
  - rewrite clean_other by easy. now f_equal.
  - rewrite clean_run by easy. apply not_blank in Hb. rewrite Hb. cbn [app]. now f_equal.
  - rewrite clean_run by easy. apply is_whitespace_blank in Hb. rewrite Hb. exact IH.
Qed.
Lemma cleaned_iff l l' : cleaned l l' <-> l' = clean l.
Proof. split; [apply cleaned_clean|]. intros ->. apply clean_cleaned. Qed.

(** The result is in text normal form. *)
Lemma cleaned_head l l' : cleaned l l' -> starts_with_text l' -> starts_with_text l.
Proof.
  induction 1 as [|n l l' Hn H IH|run l l' Hr Hl Hb H IH|run l l' Hr Hl Hb H IH]; intro Hs.
  - easy.
  - destruct Hs as (s & r & E). inversion E. subst. now destruct (Hn s).
  - destruct run as [|s run]; [easy|]. eexists _, _. reflexivity.
  - now destruct Hl; apply IH.
Qed.
Lemma cleaned_normal l l' : cleaned l l' -> text_normal l'.
Proof.
  induction 1 as [|n l l' Hn H [IH1 IH2]|run l l' Hr Hl Hb H [IH1 IH2]|run l l' Hr Hl Hb H IH].
  - split; [|easy]. intros a s t b E. destruct a; discriminate.
  - split.
    + intros [|x a] s t b E; cbn [app] in E; inversion E; subst; [now destruct (Hn s)|].
      now apply (IH1 a s t b).
    + intros s [E|Hin]; [subst; now destruct (Hn s)|now apply IH2].
  - split.
    + intros [|x a] s t b E; cbn [app] in E; inversion E; subst.
      * apply Hl. apply (cleaned_head _ _ H). now eexists _, _.
      * now apply (IH1 a s t b).
    + intros s [E|Hin]; [inversion E; now subst|now apply IH2].
  - exact IH.
Qed.
Lemma clean_normal l : text_normal (clean l).
Proof. eapply cleaned_normal, clean_cleaned. Qed.

(** A list in normal form is left alone. *)
Lemma clean_fixed l : text_normal l -> clean l = l.
Proof.
  intros [Ha Hb]. induction l as [|n l IH]; [easy|].
  assert (no_adjacent_text l) as Ha'.
  { intros a s t b ->. now apply (Ha (n :: a) s t b). }
  assert (no_blank_text l) as Hb' by (intros s Hs; apply Hb; now right).
  specialize (IH Ha' Hb').
  destruct n as [e|s|s|s]; try (rewrite clean_other by discriminate; now rewrite IH).
  change (NText s :: l) with (map (@NText elem) [s] ++ l) at 1.
  rewrite clean_run; [|easy|].
  - cbn [List.concat]. rewrite app_nil_r, IH.
    assert (~ blank s) as Hs by (apply Hb; now left). apply not_blank in Hs. now rewrite Hs.
  - intros (t & r & ->). now apply (Ha [] s t r).
Qed.

(** What is kept: the non-text nodes and their order. *)
Definition non_text (n : node) : bool := negb (is_text n).
Lemma clean_non_text l : filter non_text (clean l) = filter non_text l.
Proof.
  pose proof (clean_cleaned l) as H. induction H as [|n l l' Hn H IH|run l l' Hr Hl Hb H IH|run l l' Hr Hl Hb H IH].
  - easy.
  - cbn [filter]. now rewrite IH.
  - rewrite filter_app. cbn [filter non_text is_text negb]. rewrite IH.
    replace (filter non_text (map (@NText elem) run)) with (@nil node); [easy|].
    clear. induction run; easy.
  - rewrite filter_app, IH.
    replace (filter non_text (map (@NText elem) run)) with (@nil node); [easy|].
    clear. induction run; easy.
Qed.

(** Merging again after appending. *)
Lemma merge_fold l X : fold_right merge1 X (merge_text l) = fold_right merge1 X l.
Proof.
  induction l as [|a l IH]; [easy|]. cbn [merge_text fold_right]. fold (merge_text l).
  rewrite <- IH. destruct (merge_text l) as [|b m] eqn:E.
  - now destruct a.
  - destruct a as [e|s|s|s]; try reflexivity.
    destruct b as [e|t|t|t]; try reflexivity.
    cbn [merge1 fold_right]. destruct (fold_right merge1 X m) as [|[e|u|u|u] r]; try reflexivity.
    cbn [merge1]. now rewrite app_assoc.
Qed.
Lemma not_blank_app s t : text_is_whitespace s = false -> text_is_whitespace t = false ->
  text_is_whitespace (s ++ t) = false.
Proof.
  destruct s as [|c s]; [easy|]. cbn [text_is_whitespace app]. intros H _.
  change (c :: s ++ t) with ((c :: s) ++ t). now rewrite forallb_app, H.
Qed.
Lemma merge_keep l : forallb keep_node l = true -> forallb keep_node (merge_text l) = true.
Proof.
  induction l as [|n l IH]; [easy|]. cbn [forallb merge_text fold_right]. fold (merge_text l).
  rewrite andb_true_iff. intros [Hn Hl]. specialize (IH Hl).
  destruct n as [e|s|s|s]; cbn [merge1 forallb keep_node andb]; try exact IH.
  destruct (merge_text l) as [|[e|t|t|t] m]; cbn [forallb keep_node andb] in *; rewrite ?Hn; try easy.
  apply andb_true_iff in IH as [Ht Hm]. rewrite Hm. cbn [keep_node] in Hn.
  apply negb_true_iff in Hn, Ht. now rewrite not_blank_app.
Qed.
Lemma filter_all {A} (p : A -> bool) l : forallb p l = true -> filter p l = l.
Proof.
  induction l as [|x l IH]; [easy|]. cbn [forallb filter]. rewrite andb_true_iff.
  intros [-> H]. now rewrite IH.
Qed.
Lemma clean_no_blank l : forallb keep_node l = true -> clean l = merge_text l.
Proof. intro H. unfold clean. apply filter_all. now apply merge_keep. Qed.
Lemma clean_clean_app l r : forallb keep_node l = true -> clean (clean l ++ r) = clean (l ++ r).
Proof.
  intro H. rewrite (clean_no_blank l H). unfold clean, merge_text.
  rewrite !fold_right_app. fold (merge_text l). now rewrite merge_fold.
Qed.
Lemma no_blank_keep l : no_blank_text l <-> forallb keep_node l = true.
Proof.
  rewrite forallb_forall. split; intro H.
  - intros n Hn. destruct n as [e|s|s|s]; try easy. cbn [keep_node].
    apply H, not_blank in Hn. now rewrite Hn.
  - intros s Hs. apply not_blank. apply H in Hs. cbn [keep_node] in Hs. now apply negb_true_iff in Hs.
Qed.

(** * Adding *)

Definition inherited (e : elem) (n : node) : node :=
  apply_xmlns_context (default_namespace e) (e_context e) n.

Lemma append_eq e n : append e n = Ok (set_children e (clean (e_children e ++ [inherited e n]))).
Proof. unfold append. now rewrite cleanup_clean. Qed.

Lemma push_recording_ok nodes : forall i ch idx,
  push_recording nodes i ch idx = (ch ++ nodes, idx ++ element_indices nodes i).
Proof.
  induction nodes as [|c nodes IH]; intros i ch idx; cbn [push_recording element_indices].
  - now rewrite !app_nil_r.
  - rewrite IH, <- !app_assoc. cbn [app]. destruct (is_element c); [|easy].
    now rewrite <- app_assoc.
Qed.
Lemma apply_at_ok df ctx nodes : forall pre,
  apply_at df ctx (element_indices nodes (List.length pre)) (pre ++ nodes) =
  Ok (pre ++ map (apply_xmlns_context df ctx) nodes).
Proof.
  induction nodes as [|c nodes IH]; intro pre; cbn [element_indices map]; [easy|].
  assert (S (List.length pre) = List.length (pre ++ [apply_xmlns_context df ctx c])) as E
    by (rewrite app_length; cbn; lia).
  assert (S (List.length pre) = List.length (pre ++ [c])) as E'
    by (rewrite app_length; cbn; lia).
  destruct c as [c|s|s|s]; cbn [is_element].
  - cbn [apply_at]. rewrite vget_app. cbn [bind]. rewrite vset_app. cbn [bind].
    rewrite E.
    change (pre ++ apply_xmlns_context df ctx (NElem c) :: nodes)
      with (pre ++ [apply_xmlns_context df ctx (NElem c)] ++ nodes).
    rewrite app_assoc, IH, <- app_assoc. reflexivity.
  - rewrite E'. change (pre ++ NText s :: nodes) with (pre ++ [NText s] ++ nodes).
    rewrite app_assoc, IH, <- app_assoc. reflexivity.
  - rewrite E'. change (pre ++ NComment s :: nodes) with (pre ++ [NComment s] ++ nodes).
    rewrite app_assoc, IH, <- app_assoc. reflexivity.
  - rewrite E'. change (pre ++ NCData s :: nodes) with (pre ++ [NCData s] ++ nodes).
    rewrite app_assoc, IH, <- app_assoc. reflexivity.
Qed.
Lemma append_all_eq e ns :
  append_all e ns = Ok (set_children e (clean (e_children e ++ map (inherited e) ns))).
Proof.
  unfold append_all. rewrite push_recording_ok. cbn [app].
  rewrite apply_at_ok. cbn [bind]. now rewrite cleanup_clean.
Qed.

(** Appending one node after the other. *)
Lemma inherited_set_children e l n : inherited (set_children e l) n = inherited e n.
Proof. reflexivity. Qed.
Lemma keep_inherited e n : keep_node (inherited e n) = keep_node n.
Proof. now destruct n. Qed.
Lemma keep_map_inherited e ns : forallb keep_node (map (inherited e) ns) = forallb keep_node ns.
Proof. induction ns as [|n ns IH]; [easy|]. cbn [map forallb]. now rewrite keep_inherited, IH. Qed.

Lemma append_each_eq ns : forall e, forallb keep_node (e_children e) = true ->
  forallb keep_node ns = true -> ns <> [] ->
  append_each e ns = Ok (set_children e (clean (e_children e ++ map (inherited e) ns))).
Proof.
  induction ns as [|n ns IH]; intros e He Hn Hne; [easy|]. cbn [append_each].
  rewrite append_eq. cbn [bind]. cbn [forallb] in Hn. apply andb_true_iff in Hn as [Hn Hns].
  assert (forallb keep_node (e_children e ++ [inherited e n]) = true) as Hk.
  { rewrite forallb_app, He. cbn [forallb]. rewrite keep_inherited, Hn. reflexivity. }
  destruct ns as [|n' ns].
  - cbn [append_each map]. reflexivity.
  - rewrite IH; [|cbn [e_children set_children]; rewrite (clean_no_blank _ Hk); now apply merge_keep|easy|easy].
    cbn [e_children set_children]. rewrite set_children_twice. f_equal. f_equal.
    rewrite clean_clean_app by easy. rewrite <- app_assoc. reflexivity.
Qed.

Lemma append_all_each e ns :
  no_blank_text (e_children e) -> no_blank_text ns ->
  ns <> [] \/ no_adjacent_text (e_children e) ->
  append_all e ns = append_each e ns.
Proof.
  intros He Hn Hc. rewrite append_all_eq. destruct ns as [|n ns].
  - destruct Hc as [Hc|Hc]; [easy|]. cbn [map append_each]. rewrite app_nil_r.
    rewrite clean_fixed by easy. now rewrite set_children_id.
  - apply no_blank_keep in He, Hn. now rewrite append_each_eq.
Qed.

Lemma insert_eq e a b n : e_children e = a ++ b ->
  forall front last, a ++ n :: b = front ++ [last] ->
  insert e (List.length a) n = Ok (set_children e (clean (front ++ [inherited e last]))).
Proof.
  intros E front last El. unfold insert. rewrite E, app_length.
  replace (List.length a + List.length b <? List.length a) with false
    by (symmetry; apply Nat.ltb_ge; lia).
  rewrite vinsert_app. cbn [bind]. rewrite El, app_length. cbn [List.length].
  replace (List.length front + 1 - 1) with (List.length front) by lia.
  rewrite vget_app. cbn [bind]. rewrite vset_app. cbn [bind].
  rewrite cleanup_clean. reflexivity.
Qed.
Lemma insert_out_of_bounds e i n : List.length (e_children e) < i ->
  insert e i n = Err (IndexOutOfBounds i 0 (List.length (e_children e))).
Proof. intro H. unfold insert. apply Nat.ltb_lt in H. now rewrite H. Qed.

Lemma set_text_eq e t :
  set_text e t = Ok (set_children e (if text_is_whitespace t then [] else [NText t])).
Proof.
  unfold set_text. rewrite append_eq. unfold clear_children. cbn [e_children set_children app].
  rewrite set_children_twice. f_equal. f_equal. unfold clean. cbn [merge_text fold_right merge1 filter keep_node inherited apply_xmlns_context].
  now destruct (text_is_whitespace t).
Qed.

(** * Removing *)

Lemma remove_eq e a x b : e_children e = a ++ x :: b ->
  remove e (List.length a) = Ok (x, set_children e (a ++ b)).
Proof.
  intro E. unfold remove. rewrite E, app_length. cbn [List.length].
  replace (_ <=? _) with false by (symmetry; apply Nat.leb_gt; lia).
  now rewrite vremove_app.
Qed.
Lemma remove_out_of_bounds e i : List.length (e_children e) <= i ->
  remove e i = Err (IndexOutOfBounds i 0 (List.length (e_children e))).
Proof. intro H. unfold remove. apply Nat.leb_le in H. now rewrite H. Qed.

Section RemoveByFacts.
  Context {A : Type} (p : A -> bool).
  Lemma remove_by_core : forall l : list A, exists rm, forall suf,
    matching p (l ++ suf) (rev (seq 0 (List.length l))) = Ok rm /\
    remove_indices (l ++ suf) rm = Ok (filter (fun x => negb (p x)) l ++ suf) /\
    List.length rm = List.length (filter p l).
  Proof.
    induction l as [|x l (rm & IH)] using rev_ind.
    - exists []. easy.
    - exists (if p x then List.length l :: rm else rm). intro suf.
      rewrite app_length. cbn [List.length]. rewrite seq_app, rev_app_distr. cbn [seq rev app plus].
      rewrite <- app_assoc. cbn [app matching].
      rewrite vget_app. cbn [bind].
      destruct (IH (x :: suf)) as (H1 & H2 & H3). rewrite H1. cbn [bind].
      split; [easy|]. rewrite !filter_app. cbn [filter].
      destruct (p x); cbn [negb].
      + split.
        * cbn [remove_indices]. rewrite vremove_app. cbn [bind snd].
          rewrite app_nil_r. apply IH.
        * rewrite app_length. cbn [List.length]. lia.
      + split.
        * rewrite H2. now rewrite <- app_assoc.
        * now rewrite app_nil_r.
  Qed.
  Lemma remove_by_vec_eq l :
    remove_by_vec p l = Ok (filter (fun x => negb (p x)) l, List.length (filter p l)).
  Proof.
    destruct (remove_by_core l) as (rm & H). specialize (H []). rewrite !app_nil_r in H.
    destruct H as (H1 & H2 & H3). unfold remove_by_vec. rewrite H1. cbn [bind].
    rewrite H2. cbn [bind]. now rewrite H3.
  Qed.
End RemoveByFacts.

Lemma remove_by_eq e p : remove_by e p =
  Ok (set_children e (filter (fun n => negb (p n)) (e_children e)), List.length (filter p (e_children e))).
Proof. unfold remove_by. now rewrite remove_by_vec_eq. Qed.

Definition annotate (p : node -> bool) (c : node) : node * outcome (elem * nat) :=
  (c, match c with NElem c' => remove_all p c' | _ => Panic end).
Lemma remove_all_unfold p e : remove_all p e =
  do r <- remove_by_vec (fun a => p (fst a)) (map (annotate p) (e_children e));
  do rec <- collect_removed (fst r);
  Ok (set_children e (fst rec), snd r + snd rec).
Proof.
  destruct e as [nm ch at_ ns px cx]. cbn [remove_all e_children].
  match goal with |- bind (remove_by_vec _ ?x) _ = _ => assert (x = map (annotate p) ch) as -> end.
  { induction ch as [|c ch IH]; [easy|]. cbn [map]. now rewrite IH. }
  reflexivity.
Qed.
Lemma filter_map {A B} (f : A -> B) p l : filter p (map f l) = map f (filter (fun x => p (f x)) l).
Proof. induction l as [|x l IH]; [easy|]. cbn [map filter]. rewrite IH. now destruct (p (f x)). Qed.
Lemma map_fst_annotate p l : map fst (map (annotate p) l) = l.
Proof. induction l as [|x l IH]; [easy|]. cbn [map annotate fst]. now rewrite IH. Qed.

(** The literal equation of the source: [remove_by], then recurse into the
    remaining child elements. *)
Lemma remove_all_eq p e : remove_all p e =
  do r <- remove_by e p;
  do rec <- collect_removed (map (annotate p) (e_children (fst r)));
  Ok (set_children (fst r) (fst rec), snd r + snd rec).
Proof.
  rewrite remove_all_unfold, remove_by_eq, remove_by_vec_eq. cbn [bind fst snd e_children set_children].
  rewrite !filter_map. cbn [annotate fst]. rewrite map_length. reflexivity.
Qed.

Lemma collect_pruned p : forall l,
  (forall c, In (NElem c) l -> exists c' k, remove_all p c = Ok (c', k) /\
      pruned p (e_children c) (e_children c') k /\ c' = set_children c (e_children c')) ->
  exists l' k, collect_removed (map (annotate p) (filter (fun n => negb (p n)) l)) = Ok (l', k) /\
    pruned p l l' (List.length (filter p l) + k).
Proof.
  induction l as [|n l IH]; intro H.
  - exists [], 0. split; [easy|constructor].
  - destruct IH as (l' & k & E & Hp); [intros c Hc; apply H; now right|].
    cbn [filter]. destruct (p n) eqn:Pn; cbn [negb].
    + exists l', k. split; [easy|]. cbn [List.length plus]. now constructor.
    + cbn [map annotate collect_removed].
      destruct n as [c|s|s|s].
      * destruct (H c) as (c' & kc & Ec & Hc & Hs); [now left|].
        rewrite Ec. cbn [bind]. rewrite E. cbn [bind fst snd].
        exists (NElem c' :: l'), (kc + k). split; [easy|].
        replace (List.length (filter p l) + (kc + k)) with (kc + (List.length (filter p l) + k)) by lia.
        rewrite Hs. now apply pr_elem.
      * rewrite E. cbn [bind fst snd]. eexists _, _. split; [reflexivity|]. now apply pr_leaf.
      * rewrite E. cbn [bind fst snd]. eexists _, _. split; [reflexivity|]. now apply pr_leaf.
      * rewrite E. cbn [bind fst snd]. eexists _, _. split; [reflexivity|]. now apply pr_leaf.
Qed.
Lemma remove_all_pruned p : forall e, exists l' k,
  remove_all p e = Ok (set_children e l', k) /\ pruned p (e_children e) l' k.
Proof.
  induction e as [e IH] using elem_ind'.
  rewrite remove_all_eq, remove_by_eq. cbn [bind fst snd e_children set_children].
  destruct (collect_pruned p (e_children e)) as (l' & k & E & Hp).
  { intros c Hc. destruct (IH c Hc) as (lc & kc & Ec & Hpc).
    exists (set_children c lc), kc. now split. }
  rewrite E. cbn [bind fst snd]. exists l', (List.length (filter p (e_children e)) + k).
  split; [reflexivity|exact Hp].
Qed.
Lemma remove_all_elements_eq p e : remove_all_elements p e = remove_all (elem_pred p) e.
Proof. rewrite remove_all_eq. reflexivity. Qed.

Lemma pruned_fun p l l1 k1 : pruned p l l1 k1 -> forall l2 k2, pruned p l l2 k2 -> l1 = l2 /\ k1 = k2.
Proof.
  induction 1 as [|n l l' k Hp H IH|n l l' k Hp Hn H IH|e ch' l l' k1 k2 Hp Hc IHc H IH];
    intros l2 k2' D.
  - now inversion D.
  - inversion D; subst; try congruence. edestruct IH as [-> ->]; eauto.
  - inversion D; subst; try congruence.
    edestruct IH as [-> ->]; eauto.
  - inversion D as [|? ? ? ? Hp'|? ? ? ? Hp' Hn'|? ? ? ? ? ? Hp' Hc' H']; subst; try congruence.
    edestruct IHc as [-> ->]; eauto. edestruct IH as [-> ->]; eauto.
Qed.

(** Equations for the specification's enumerations. *)
Definition below (n : node) : list node := match n with NElem c => descendants c | _ => [] end.
Definition below_trails (n : node) : list (list node) := match n with NElem c => trails c | _ => [] end.
Lemma descendants_eq e : descendants e = flat_map (fun n => n :: below n) (e_children e).
Proof.
  destruct e as [nm ch at_ ns px cx]. cbn [descendants e_children].
  induction ch as [|n ch IH]; [easy|]. cbn [flat_map]. rewrite IH. reflexivity.
Qed.
Definition forest_trails (l : list node) : list (list node) :=
  flat_map (fun n => [n] :: map (cons n) (below_trails n)) l.
Lemma trails_eq e : trails e = forest_trails (e_children e).
Proof.
  unfold forest_trails. destruct e as [nm ch at_ ns px cx]. cbn [trails e_children].
  induction ch as [|n ch IH]; [easy|]. cbn [flat_map]. rewrite IH. reflexivity.
Qed.

(** Survivors of a pruning, by their trails. *)
Definition survives (p : node -> bool) (t : list node) : bool := forallb (fun n => negb (p n)) t.
Definition topmost (p : node -> bool) (t : list node) : bool :=
  match rev t with
  | [] => false
  | n :: anc => p n && forallb (fun a => negb (p a)) anc
  end.

Lemma topmost_cons p n t : t <> [] -> topmost p (n :: t) = negb (p n) && topmost p t.
Proof.
  intro H. unfold topmost. cbn [rev]. destruct (rev t) as [|x r] eqn:E.
  - destruct t; [easy|]. cbn [rev] in E. now destruct (rev t).
  - cbn [app]. rewrite forallb_app. cbn [forallb].
    destruct (p x), (p n), (forallb (fun a => negb (p a)) r); reflexivity.
Qed.
Lemma trails_nonempty e : forall t, In t (trails e) -> t <> [].
Proof.
  intros t. rewrite trails_eq. unfold forest_trails. rewrite in_flat_map.
  intros (n & _ & [<-|H]); [easy|]. apply in_map_iff in H as (t' & <- & _). easy.
Qed.
Lemma filter_cons_map p n ts : (forall t, In t ts -> t <> []) ->
  filter (topmost p) (map (cons n) ts) =
  if p n then [] else map (cons n) (filter (topmost p) ts).
Proof.
  induction ts as [|t ts IH]; intro H; cbn [map filter]; [now destruct (p n)|].
  rewrite topmost_cons by (apply H; now left). rewrite IH by (intros; apply H; now right).
  destruct (p n); cbn [negb andb]; [easy|]. now destruct (topmost p t).
Qed.
Lemma filter_survives_map p n ts :
  filter (survives p) (map (cons n) ts) = if p n then [] else map (cons n) (filter (survives p) ts).
Proof.
  induction ts as [|t ts IH]; cbn [map filter]; [now destruct (p n)|].
  unfold survives at 1. cbn [forallb]. rewrite IH. fold (survives p t).
  destruct (p n); cbn [negb andb]; [easy|]. now destruct (survives p t).
Qed.
Lemma trails_in_nonempty n : forall t, In t (below_trails n) -> t <> [].
Proof. destruct n; cbn; try easy. apply trails_nonempty. Qed.

Lemma pruned_trails p l l' k : pruned p l l' k ->
  map (map shallow) (forest_trails l') = map (map shallow) (filter (survives p) (forest_trails l)) /\
  k = List.length (filter (topmost p) (forest_trails l)).
Proof.
  induction 1 as [|n l l' k Hp H [IH1 IH2]|n l l' k Hp Hn H [IH1 IH2]|e ch' l l' k1 k2 Hp Hc [IHc1 IHc2] H [IH1 IH2]].
  - easy.
  - unfold forest_trails in *. cbn [flat_map]. rewrite !filter_app.
    cbn [filter app]. rewrite filter_survives_map, filter_cons_map by apply trails_in_nonempty.
    unfold survives at 1, topmost at 1. cbn [forallb rev app]. rewrite Hp. cbn [negb andb app List.length].
    split; [exact IH1|]. now rewrite IH2.
  - assert (below_trails n = []) as Hb by (destruct n; try reflexivity; now destruct (Hn e)).
    unfold forest_trails in *. cbn [flat_map]. rewrite !filter_app, !map_app, Hb.
    cbn [map filter app]. unfold survives at 1, topmost at 1. cbn [forallb rev app]. rewrite Hp.
    cbn [negb andb app map List.length]. split; [|exact IH2]. now rewrite <- IH1.
  - unfold forest_trails in *. cbn [flat_map below_trails]. rewrite !trails_eq.
    cbn [e_children set_children]. unfold forest_trails.
    rewrite !filter_app, !map_app. cbn [filter].
    rewrite filter_survives_map, filter_cons_map.
    2: { intros t Ht. apply (trails_nonempty e). now rewrite trails_eq. }
    unfold survives at 1, topmost at 1. cbn [forallb rev app]. rewrite Hp.
    cbn [negb andb app map List.length]. split.
    + f_equal. rewrite <- IH1. f_equal. rewrite !map_map.
      transitivity (map (fun t => NElem (set_children e []) :: map shallow t)
        (flat_map (fun n => [n] :: map (cons n) (below_trails n)) ch')); [reflexivity|].
      rewrite <- (map_map (map shallow) (cons (NElem (set_children e [])))), IHc1, map_map. reflexivity.
    + rewrite app_length, map_length. now rewrite IHc2, IH2.
Qed.

Lemma remove_all_trails p e : exists e' k, remove_all p e = Ok (e', k) /\
  only_children_change e e' /\
  map (map shallow) (trails e') = map (map shallow) (filter (survives p) (trails e)) /\
  k = List.length (filter (topmost p) (trails e)).
Proof.
  destruct (remove_all_pruned p e) as (l' & k & E & H).
  exists (set_children e l'), k. split; [easy|]. split; [easy|].
  rewrite !trails_eq. now apply pruned_trails.
Qed.

(** Element-only removal *)
Lemma element_indices_map l i : element_indices l i = map (plus i) (element_indices l 0).
Proof.
  assert (forall l i j, element_indices l (i + j) = map (plus i) (element_indices l j)) as H.
  { clear. induction l as [|n l IH]; intros i j; cbn [element_indices]; [easy|].
    rewrite plus_n_Sm, IH. now destruct (is_element n). }
  rewrite <- (Nat.add_0_r i) at 1. apply H.
Qed.
Lemma element_indices_length l i : List.length (element_indices l i) = List.length (elements_of l).
Proof.
  revert i. induction l as [|n l IH]; intro i; [easy|]. cbn [element_indices elements_of].
  destruct n; cbn [is_element List.length]; now rewrite ?IH.
Qed.
Lemma elements_of_app a b : elements_of (a ++ b) = elements_of a ++ elements_of b.
Proof. induction a as [|n a IH]; [easy|]. cbn [app elements_of]. destruct n; now rewrite ?IH. Qed.
Lemma element_indices_nth a c b : forall i,
  nth_error (element_indices (a ++ NElem c :: b) i) (List.length (elements_of a)) = Some (i + List.length a).
Proof.
  induction a as [|n a IH]; intro i; cbn [app element_indices elements_of List.length is_element].
  - cbn. now rewrite Nat.add_0_r.
  - destruct n; cbn [is_element nth_error List.length]; rewrite IH; f_equal; lia.
Qed.
Lemma elements_split l : forall k c, nth_error (elements_of l) k = Some c ->
  exists a b, l = a ++ NElem c :: b /\ List.length (elements_of a) = k.
Proof.
  induction l as [|n l IH]; intros k c H; cbn [elements_of] in H; [now destruct k|].
  destruct n as [e|s|s|s].
  1: destruct k as [|k]; cbn [nth_error] in H; [inversion H; subst; now exists [], l|].
  all: destruct (IH _ _ H) as (a & b & -> & Hk).
  - exists (NElem e :: a), b. split; [easy|]. cbn [elements_of List.length]. now f_equal.
  - now exists (NText s :: a), b.
  - now exists (NComment s :: a), b.
  - now exists (NCData s :: a), b.
Qed.

(** Cloning is the identity on values. *)
Lemma clone_id : forall e, clone_elem e = e.
Proof.
  induction e as [e IH] using elem_ind'. destruct e as [nm ch at_ ns px cx].
  cbn [clone_elem e_children] in *. f_equal.
  induction ch as [|n ch IHch]; [easy|].
  rewrite IHch by (intros c Hc; apply IH; now right).
  destruct n; try easy. now rewrite IH by now left.
Qed.
Lemma clone_node_id n : clone_node n = n.
Proof. destruct n; cbn [clone_node]; now rewrite ?clone_id. Qed.

Lemma remove_element_eq e a c b : e_children e = a ++ NElem c :: b ->
  remove_element e (List.length (elements_of a)) = Ok (c, set_children e (a ++ b)).
Proof.
  intro E. unfold remove_element. rewrite E.
  replace (List.length (element_indices (a ++ NElem c :: b) 0) <=? List.length (elements_of a)) with false.
  2: { symmetry. apply Nat.leb_gt. rewrite element_indices_length, elements_of_app, app_length.
       cbn [elements_of List.length]. lia. }
  unfold vget. rewrite element_indices_nth. cbn [unwrap bind plus].
  rewrite vremove_app. cbn [bind fst snd expect as_element]. now rewrite clone_id.
Qed.
Lemma remove_element_out_of_bounds e k : List.length (child_elements e) <= k ->
  remove_element e k = Err (IndexOutOfBounds k 0 (List.length (child_elements e))).
Proof.
  intro H. unfold remove_element. rewrite element_indices_length. fold (child_elements e).
  apply Nat.leb_le in H. now rewrite H.
Qed.
Lemma remove_elements_eq e p : remove_elements e p =
  Ok (set_children e (filter (fun n => negb (elem_pred p n)) (e_children e)),
      List.length (filter (elem_pred p) (e_children e))).
Proof.
  unfold remove_elements. rewrite remove_by_vec_eq. cbn [bind fst snd].
  rewrite (filter_ext (fun n => negb (if is_element n then elem_pred p n else false))
             (fun n => negb (elem_pred p n))) by now intros [].
  rewrite (filter_ext (fun n => if is_element n then elem_pred p n else false) (elem_pred p))
    by now intros [].
  reflexivity.
Qed.

(** * Queries *)

Lemma elements_of_filter l : map (@NElem elem) (elements_of l) = filter is_element l.
Proof. induction l as [|n l IH]; [easy|]. cbn [elements_of filter]. destruct n; cbn [is_element map]; now rewrite ?IH. Qed.
Lemma elements_of_in l c : In c (elements_of l) <-> In (NElem c) l.
Proof.
  split; intro H.
  - apply (in_map (@NElem elem)) in H. rewrite elements_of_filter in H. now apply filter_In in H.
  - assert (In (NElem c) (map (@NElem elem) (elements_of l))) as H'
      by (rewrite elements_of_filter; now apply filter_In).
    apply in_map_iff in H' as (x & E & Hx). inversion E. now subst.
Qed.
Lemma first_named_find n l : first_named n l =
  match find (fun c => str_eqb (e_name c) n) l with Some c => Ok c | None => Err DoesNotExistError end.
Proof. induction l as [|c l IH]; [easy|]. cbn [first_named find]. unfold name. now destruct (str_eqb (e_name c) n). Qed.

Lemma children_recursive_eq e : children_recursive e =
  e_children e ++ flat_map (fun n => match n with NElem c => children_recursive c | _ => [] end) (e_children e).
Proof.
  destruct e as [nm ch at_ ns px cx]. cbn [children_recursive e_children]. f_equal.
  induction ch as [|n ch IH]; [easy|]. cbn [flat_map]. rewrite <- IH. now destruct n.
Qed.
Lemma filter_true {A} (l : list A) : filter (fun _ => true) l = l.
Proof. induction l as [|x l IH]; [easy|]. cbn [filter]. now rewrite IH. Qed.
Lemma perm_middle_list {A} (a : list A) f (g : A -> list A) :
  f = (fun x => x :: g x) -> Permutation (a ++ flat_map g a) (flat_map f a).
Proof.
  intros ->. induction a as [|x a IH]; [easy|]. cbn [flat_map app].
  constructor. rewrite app_assoc.
  eapply Permutation_trans; [apply Permutation_app_tail, Permutation_app_comm|].
  rewrite <- app_assoc. now apply Permutation_app_head.
Qed.
Lemma flat_map_perm {A B} (f g : A -> list B) l :
  (forall x, In x l -> Permutation (f x) (g x)) -> Permutation (flat_map f l) (flat_map g l).
Proof.
  induction l as [|x l IH]; intro H; [easy|]. cbn [flat_map]. apply Permutation_app.
  - apply H. now left.
  - apply IH. intros y Hy. apply H. now right.
Qed.
Lemma children_recursive_perm : forall e, Permutation (children_recursive e) (descendants e).
Proof.
  induction e as [e IH] using elem_ind'. rewrite children_recursive_eq, descendants_eq.
  eapply Permutation_trans; [|apply perm_middle_list; reflexivity].
  apply Permutation_app_head. apply flat_map_perm. intros n Hn. destruct n; cbn [below]; auto.
Qed.
Lemma filter_perm {A} (p : A -> bool) l l' : Permutation l l' -> Permutation (filter p l) (filter p l').
Proof.
  induction 1; cbn [filter]; auto.
  - destruct (p x); auto.
  - destruct (p x), (p y); auto. constructor.
  - eapply Permutation_trans; eauto.
Qed.
Lemma search_perm e p : Permutation (search e p) (filter p (descendants e)).
Proof. apply filter_perm, children_recursive_perm. Qed.

(** Document-order enumeration of the paths. *)
Fixpoint indexed {A} (i : nat) (l : list A) : list (nat * A) :=
  match l with [] => [] | x :: l' => (i, x) :: indexed (S i) l' end.
Fixpoint paths (e : elem) : list (list nat) :=
  match e with
  | mkElem _ ch _ _ _ _ =>
      (fix go (i : nat) (l : list node) : list (list nat) :=
         match l with
         | [] => []
         | n :: l' => [i] :: map (cons i) (match n with NElem c => paths c | _ => [] end) ++ go (S i) l'
         end) 0 ch
  end.
Definition below_paths (n : node) : list (list nat) := match n with NElem c => paths c | _ => [] end.
Definition forest_paths (i : nat) (l : list node) : list (list nat) :=
  flat_map (fun jn => [fst jn] :: map (cons (fst jn)) (below_paths (snd jn))) (indexed i l).
Lemma paths_eq e : paths e = forest_paths 0 (e_children e).
Proof.
  unfold forest_paths. destruct e as [nm ch at_ ns px cx]. cbn [paths e_children]. generalize 0.
  induction ch as [|n ch IH]; intro i; [easy|]. cbn [indexed flat_map fst snd]. rewrite IH. reflexivity.
Qed.
Lemma at_path_cons l i n p : nth_error l i = Some n -> p <> [] -> at_path l (i :: p) = at_path (kids n) p.
Proof. intros E H. cbn [at_path]. rewrite E. now destruct p. Qed.
Lemma NoDup_app_intro {A} (a b : list A) : NoDup a -> NoDup b ->
  (forall x, In x a -> ~ In x b) -> NoDup (a ++ b).
Proof.
  induction a as [|x a IH]; intros Ha Hb H; [easy|]. cbn [app].
  apply NoDup_cons_iff in Ha as [Hn Ha]. constructor.
  - rewrite in_app_iff. intros [F|F]; [easy|]. apply (H x); [now left|easy].
  - apply IH; auto. intros y Hy. apply H. now right.
Qed.
Lemma forest_paths_spec pre l :
  (forall n, In n l -> NoDup (below_paths n) /\
     (forall p, In p (below_paths n) <-> at_path (kids n) p <> None) /\
     map (at_path (kids n)) (below_paths n) = map Some (below n)) ->
  NoDup (forest_paths (List.length pre) l) /\
  (forall p, In p (forest_paths (List.length pre) l) <->
     exists i p', p = i :: p' /\ List.length pre <= i /\ at_path (pre ++ l) p <> None) /\
  map (at_path (pre ++ l)) (forest_paths (List.length pre) l) =
  map Some (flat_map (fun n => n :: below n) l).
Proof.
  revert pre. induction l as [|n l IH]; intros pre H.
  - cbn. split; [constructor|]. split; [|easy]. intro p. split; [easy|].
    intros (i & p' & -> & Hi & F). apply F. cbn [at_path]. rewrite app_nil_r.
    now rewrite (proj2 (nth_error_None pre i)).
  - destruct (IH (pre ++ [n])) as (I1 & I2 & I3); [intros m Hm; apply H; now right|].
    rewrite app_length, Nat.add_comm in *. cbn [List.length plus] in *.
    rewrite <- app_assoc in *. cbn [app] in *.
    destruct (H n) as (N1 & N2 & N3); [now left|].
    unfold forest_paths in *. cbn [indexed flat_map fst snd].
    assert (nth_error (pre ++ n :: l) (List.length pre) = Some n) as Hn
      by (rewrite nth_error_app2, Nat.sub_diag by lia; reflexivity).
    assert (forall p, In p (below_paths n) -> p <> []) as Hne.
    { intros p Hp ->. apply N2 in Hp. now destruct Hp. }
    split; [|split].
    + rewrite <- app_comm_cons. constructor.
      * rewrite in_app_iff. intros [F|F].
        -- apply in_map_iff in F as (q & E & Hq). inversion E. subst. now apply Hne in Hq.
        -- apply I2 in F as (i & p' & E & Hi & _). inversion E. lia.
      * apply NoDup_app_intro.
        -- apply FinFun.Injective_map_NoDup; [|easy]. intros x y E. now inversion E.
        -- easy.
        -- intros x Hx F. apply in_map_iff in Hx as (q & <- & Hq).
           apply I2 in F as (i & p' & E & Hi & _). inversion E. lia.
    + intro p. rewrite <- app_comm_cons. cbn [In]. rewrite in_app_iff, I2. split.
      * intros [<-|[F|(i & p' & -> & Hi & F)]].
        -- exists (List.length pre), []. split; [easy|]. split; [lia|]. cbn [at_path]. now rewrite Hn.
        -- apply in_map_iff in F as (q & <- & Hq). exists (List.length pre), q.
           split; [easy|]. split; [lia|]. rewrite (at_path_cons _ _ n) by auto. now apply N2.
        -- exists i, p'. split; [easy|]. split; [lia|easy].
      * intros (i & p' & -> & Hi & F). destruct (Nat.eq_dec i (List.length pre)) as [->|Hd].
        -- destruct p' as [|j p']; [now left|]. right. left. apply in_map.
           apply N2. now rewrite (at_path_cons _ _ n) in F.
        -- right. right. exists i, p'. split; [easy|]. split; [lia|easy].
    + cbn [map app]. rewrite !map_app, I3. cbn [at_path]. rewrite Hn. f_equal. f_equal.
      rewrite <- N3, map_map. apply map_ext_in. intros q Hq. apply at_path_cons; auto.
Qed.

Lemma paths_spec : forall e, NoDup (paths e) /\
  (forall p, In p (paths e) <-> at_path (e_children e) p <> None) /\
  map (at_path (e_children e)) (paths e) = map Some (descendants e).
Proof.
  induction e as [e IH] using elem_ind'.
  destruct (forest_paths_spec [] (e_children e)) as (H1 & H2 & H3).
  { intros n Hn. destruct n as [c|s|s|s]; cbn [below_paths kids below].
    1: now apply IH.
    all: split; [constructor|]; split; [|easy]; intro p; split; [easy|];
      intro F; destruct F; destruct p as [|[|i] p]; reflexivity. }
  rewrite paths_eq, descendants_eq. split; [exact H1|]. split; [|exact H3].
  intro p. change 0 with (@List.length node []). rewrite H2. cbn [app List.length]. split.
  - now intros (i & p' & -> & _ & F).
  - intro F. destruct p as [|i p]; [now destruct F|]. exists i, p. split; [easy|]. split; [lia|easy].
Qed.

Lemma all_children_paths e : exists ps : list (list nat),
  NoDup ps /\ (forall p, In p ps <-> at_path (e_children e) p <> None) /\
  Permutation (map Some (all_children e)) (map (at_path (e_children e)) ps).
Proof.
  destruct (paths_spec e) as (H1 & H2 & H3). exists (paths e). split; [easy|]. split; [easy|].
  rewrite H3. apply Permutation_map. unfold all_children, search. rewrite filter_true.
  apply children_recursive_perm.
Qed.

(** ** Typed searches *)

Lemma map_expect_elements l : map_expect as_element (filter is_element l) = Ok (elements_of l).
Proof.
  induction l as [|n l IH]; [easy|]. cbn [filter elements_of]. destruct n; cbn [is_element]; try exact IH.
  cbn [map_expect as_element expect bind]. now rewrite IH.
Qed.
Definition texts_of (l : list node) : list str :=
  flat_map (fun n => match n with NText s => [s] | _ => [] end) l.
Definition comments_of (l : list node) : list str :=
  flat_map (fun n => match n with NComment s => [s] | _ => [] end) l.
Lemma map_expect_texts l : map_expect as_text (filter is_text l) = Ok (texts_of l).
Proof.
  induction l as [|n l IH]; [easy|]. cbn [filter texts_of flat_map]. fold (texts_of l).
  destruct n; cbn [is_text app]; try exact IH.
  cbn [map_expect as_text expect bind]. now rewrite IH.
Qed.
Lemma map_expect_comments l : map_expect as_comment (filter is_comment l) = Ok (comments_of l).
Proof.
  induction l as [|n l IH]; [easy|]. cbn [filter comments_of flat_map]. fold (comments_of l).
  destruct n; cbn [is_comment app]; try exact IH.
  cbn [map_expect as_comment expect bind]. now rewrite IH.
Qed.
Lemma search_elements_eq e p : search_elements e p = Ok (filter p (elements_of (children_recursive e))).
Proof. unfold search_elements, search. now rewrite map_expect_elements. Qed.
Lemma search_text_eq e p : search_text e p = Ok (filter p (texts_of (children_recursive e))).
Proof. unfold search_text, search. now rewrite map_expect_texts. Qed.
Lemma search_comments_eq e p : search_comments e p = Ok (filter p (comments_of (children_recursive e))).
Proof. unfold search_comments, search. now rewrite map_expect_comments. Qed.

Lemma flat_map_permutation {A B} (f : A -> list B) l l' :
  Permutation l l' -> Permutation (flat_map f l) (flat_map f l').
Proof.
  induction 1; cbn [flat_map]; auto.
  - now apply Permutation_app_head.
  - rewrite !app_assoc. apply Permutation_app_tail, Permutation_app_comm.
  - eapply Permutation_trans; eauto.
Qed.
Lemma elements_of_flat_map l :
  elements_of l = flat_map (fun n => match n with NElem e => [e] | _ => [] end) l.
Proof. induction l as [|n l IH]; [easy|]. cbn [elements_of flat_map]. rewrite <- IH. now destruct n. Qed.

Lemma search_elements_perm e p : exists r, search_elements e p = Ok r /\
  Permutation (map (@NElem elem) r) (filter (fun n => match n with NElem c => p c | _ => false end) (descendants e)).
Proof.
  rewrite search_elements_eq. eexists. split; [reflexivity|].
  eapply Permutation_trans; [|apply filter_perm, children_recursive_perm].
  induction (children_recursive e) as [|n l IH]; [easy|].
  destruct n; cbn [elements_of filter]; auto. destruct (p e0); cbn [map]; auto.
Qed.
Lemma search_text_perm e p : exists r, search_text e p = Ok r /\
  Permutation (map (@NText elem) r) (filter (fun n => match n with NText s => p s | _ => false end) (descendants e)).
Proof.
  rewrite search_text_eq. eexists. split; [reflexivity|].
  eapply Permutation_trans; [|apply filter_perm, children_recursive_perm].
  induction (children_recursive e) as [|n l IH]; [easy|].
  destruct n; cbn [texts_of flat_map filter app]; fold (texts_of l); auto. destruct (p content); cbn [map]; auto.
Qed.
Lemma search_comments_perm e p : exists r, search_comments e p = Ok r /\
  Permutation (map (@NComment elem) r) (filter (fun n => match n with NComment s => p s | _ => false end) (descendants e)).
Proof.
  rewrite search_comments_eq. eexists. split; [reflexivity|].
  eapply Permutation_trans; [|apply filter_perm, children_recursive_perm].
  induction (children_recursive e) as [|n l IH]; [easy|].
  destruct n; cbn [comments_of flat_map filter app]; fold (comments_of l); auto. destruct (p comment); cbn [map]; auto.
Qed.

(** * text() *)

Lemma elem_text_eq : forall e, elem_text e = flat_map text_of (descendants e).
Proof.
  induction e as [e IH] using elem_ind'. rewrite descendants_eq.
  destruct e as [nm ch at_ ns px cx]. cbn [elem_text e_children] in *.
  induction ch as [|n ch IHch]; [easy|].
  cbn [flat_map app]. rewrite flat_map_app.
  rewrite <- IHch by (intros c Hc; apply IH; now right).
  destruct n as [c|s|s|s]; cbn [text_of below flat_map app]; try reflexivity.
  now rewrite IH by now left.
Qed.

(** * Namespace inheritance *)

Lemma aget_inherit_context parent : forall ctx k, aget k (inherit_context ctx parent) =
  match aget k ctx with Some v => Some v | None => aget k parent end.
Proof.
  unfold inherit_context. induction parent as [|[k' v'] parent IH]; intros ctx k; cbn [fold_left].
  - unfold aget at 3. cbn [mget]. now destruct (aget k ctx).
  - rewrite IH. unfold inherit_step. cbn [fst snd].
    destruct (ahas k' ctx) eqn:Eh.
    + destruct (aget k ctx) as [v|] eqn:E; [easy|]. unfold aget at 2. cbn [mget]. fold (aget k parent).
      destruct (str_eqb k k') eqn:Ek; [|easy]. apply str_eqb_eq in Ek. subst.
      apply ahas_spec in Eh. apply aget_none in E. easy.
    + assert (aget k' ctx = None) as Hn.
      { apply aget_none. intro F. apply ahas_spec in F. congruence. }
      unfold aget at 4. cbn [mget]. fold (aget k parent).
      destruct (str_eqb k k') eqn:Ek.
      * apply str_eqb_eq in Ek. subst. now rewrite aget_aset_same, Hn.
      * apply str_eqb_neq in Ek. now rewrite aget_aset_other by easy.
Qed.
Lemma nodup_inherit_context parent : forall ctx, NoDup (akeys ctx) -> NoDup (akeys (inherit_context ctx parent)).
Proof.
  unfold inherit_context. induction parent as [|kv parent IH]; intros ctx H; cbn [fold_left]; [easy|].
  apply IH. unfold inherit_step. destruct (ahas (fst kv) ctx); [easy|]. now apply nodup_aset.
Qed.

Lemma inherited_adopted e n : adopted e n (inherited e n).
Proof.
  destruct n as [c|s|s|s]; try reflexivity.
  unfold inherited, apply_xmlns_context, adopted, set_namespace_context, default_namespace.
  destruct c as [nm ch at_ ns px cx]. cbn [e_prefix e_xmlns].
  destruct px as [p|], ns as [x|]; cbn; repeat split; try (intro k; apply aget_inherit_context); try easy.
  all: destruct (match e_prefix e with None => e_xmlns e | Some _ => None end) eqn:E; cbn;
    try (intro k; apply aget_inherit_context); try easy; unfold inheritable; now rewrite E.
Qed.

Lemma inherit_context_fixed parent : forall ctx, (forall k, In k (akeys parent) -> ahas k ctx = true) ->
  inherit_context ctx parent = ctx.
Proof.
  unfold inherit_context. induction parent as [|kv parent IH]; intros ctx H; cbn [fold_left]; [easy|].
  unfold inherit_step at 2. rewrite (H (fst kv)) by now left. apply IH. intros k Hk. apply H. now right.
Qed.
Lemma inherit_context_has parent ctx k : In k (akeys parent) -> ahas k (inherit_context ctx parent) = true.
Proof.
  intro H. unfold ahas, mhas. fold (aget k (inherit_context ctx parent)).
  rewrite aget_inherit_context. destruct (aget k ctx); [easy|].
  destruct (aget k parent) eqn:E; [easy|]. now apply aget_none in E.
Qed.
Lemma inherited_idem e n : inherited e (inherited e n) = inherited e n.
Proof.
  destruct n as [c|s|s|s]; try reflexivity.
  unfold inherited, apply_xmlns_context. f_equal.
  unfold set_namespace_context, default_namespace.
  destruct c as [nm ch at_ ns px cx]. cbn [e_prefix e_xmlns].
  assert (inherit_context (inherit_context cx (e_context e)) (e_context e) = inherit_context cx (e_context e)) as E.
  { apply inherit_context_fixed. intros k Hk. now apply inherit_context_has. }
  destruct px as [p|], ns as [x|]; cbn; rewrite ?E; try reflexivity.
  - destruct (aget p (inherit_context cx (e_context e))) eqn:G; cbn; rewrite ?E; cbn; rewrite ?G; reflexivity.
  - destruct (match e_prefix e with None => e_xmlns e | Some _ => None end); cbn; rewrite ?E; reflexivity.
Qed.

(** * Look-up of children *)

Lemma picked_filter (P : elem -> Prop) p : (forall e, p e = true <-> P e) ->
  forall l, picked P l (filter p (elements_of l)).
Proof.
  intros H l. induction l as [|n l IH]; [constructor|]. destruct n as [e|s|s|s]; cbn [elements_of].
  2-4: apply pk_skip; [discriminate|exact IH].
  cbn [filter]. destruct (p e) eqn:E.
  - apply pk_take; [now apply H|easy].
  - apply pk_skip; [|easy]. intros e' Ee. inversion Ee. subst e'. rewrite <- H. congruence.
Qed.
Lemma picked_fun P l r1 : picked P l r1 -> forall r2, picked P l r2 -> r1 = r2.
Proof.
  induction 1 as [|e l r He H IH|n l r Hn H IH]; intros r2 D; inversion D; subst; auto.
  - f_equal. auto.
  - now destruct (H2 e).
  - now destruct (Hn e).
Qed.

Lemma modified_update (P : elem -> Prop) p f : (forall e, p e = true <-> P e) ->
  forall l, modified P (fun e e' => e' = f e) l (update_elements p f l).
Proof.
  intros H l. induction l as [|n l IH]; [constructor|]. destruct n as [e|s|s|s]; cbn [update_elements].
  2-4: apply mo_same; [discriminate|exact IH].
  destruct (p e) eqn:E.
  - apply mo_change; [now apply H|reflexivity|easy].
  - apply mo_same; [|easy]. intros e' Ee. inversion Ee. subst e'. rewrite <- H. congruence.
Qed.

(** * Statements used by P_Children.v *)

Lemma append_normal e n : exists e', append e n = Ok e' /\ text_normal (children e').
Proof. rewrite append_eq. eexists. split; [reflexivity|]. apply clean_normal. Qed.
Lemma append_all_normal e ns : exists e', append_all e ns = Ok e' /\ text_normal (children e').
Proof. rewrite append_all_eq. eexists. split; [reflexivity|]. apply clean_normal. Qed.
Lemma set_text_normal e t : exists e', set_text e t = Ok e' /\ text_normal (children e').
Proof. unfold set_text. apply append_normal. Qed.

Lemma insert_in_bounds e i n : i <= List.length (children e) ->
  exists e' front last last',
    insert e i n = Ok e' /\ only_children_change e e' /\
    firstn i (children e) ++ [n] ++ skipn i (children e) = front ++ [last] /\
    adopted e last last' /\ cleaned (front ++ [last']) (children e').
Proof.
  intro H. unfold children in *.
  destruct (exists_last_or (firstn i (e_children e) ++ [n] ++ skipn i (e_children e)))
    as [F|(front & last & F)].
  { now destruct (firstn i (e_children e)). }
  exists (set_children e (clean (front ++ [inherited e last]))), front, last, (inherited e last).
  split; [|split; [|split; [|split]]]; try easy.
  - assert (i = List.length (firstn i (e_children e))) as Hi by (rewrite firstn_length; lia).
    rewrite Hi at 1. apply insert_eq with (b := skipn i (e_children e)); [|easy].
    now rewrite firstn_skipn.
  - apply inherited_adopted.
  - apply clean_cleaned.
Qed.
Lemma insert_normal e i n e' : insert e i n = Ok e' -> text_normal (children e').
Proof.
  intro H. destruct (le_lt_dec i (List.length (children e))) as [L|L].
  - destruct (insert_in_bounds e i n L) as (e2 & front & last & last' & E & _ & _ & _ & C).
    rewrite H in E. inversion E. subst. eapply cleaned_normal; eauto.
  - rewrite insert_out_of_bounds in H by easy. discriminate.
Qed.
Lemma append_at_end e n : exists e' n',
  append e n = Ok e' /\ adopted e n n' /\ only_children_change e e' /\
  cleaned (children e ++ [n']) (children e').
Proof.
  rewrite append_eq. eexists _, (inherited e n). split; [reflexivity|].
  split; [apply inherited_adopted|]. split; [apply only_children|]. apply clean_cleaned.
Qed.
Lemma append_spec e n : exists e' n',
  append e n = Ok e' /\ adopted e n n' /\ cleaned (children e ++ [n']) (children e').
Proof. destruct (append_at_end e n) as (e' & n' & H1 & H2 & _ & H3). now exists e', n'. Qed.
Lemma cleaned_unique l : exists! l', cleaned l l'.
Proof. exists (clean l). split; [apply clean_cleaned|]. intros l' H. symmetry. now apply cleaned_clean. Qed.
Lemma cleaned_non_text l l' : cleaned l l' ->
  filter (fun n => negb (is_text n)) l' = filter (fun n => negb (is_text n)) l.
Proof. intros ->%cleaned_clean. apply clean_non_text. Qed.
Lemma cleaned_text l l' : cleaned l l' ->
  filter (fun c => negb (is_whitespace c)) (flat_map text_of l') =
  filter (fun c => negb (is_whitespace c)) (flat_map text_of l).
Proof.
  assert (forall run, flat_map text_of (map (@NText elem) run) = List.concat run) as Hr.
  { induction run as [|s run IH]; [easy|]. cbn [map flat_map text_of List.concat]. now rewrite IH. }
  induction 1 as [|n l l' Hn H IH|run l l' Hne Hl Hb H IH|run l l' Hne Hl Hb H IH].
  - easy.
  - cbn [flat_map]. now rewrite !filter_app, IH.
  - rewrite flat_map_app, Hr. cbn [flat_map text_of]. now rewrite !filter_app, IH.
  - rewrite flat_map_app, Hr, filter_app, IH.
    replace (filter (fun c => negb (is_whitespace c)) (List.concat run)) with (@nil char); [easy|].
    destruct Hb as [_ Hb]. symmetry. clear -Hb. induction Hb as [|c s Hc Hs IHs]; [easy|].
    cbn [filter]. now rewrite Hc.
Qed.
Lemma append_all_at_end e ns : exists e' ns',
  append_all e ns = Ok e' /\ Forall2 (adopted e) ns ns' /\ only_children_change e e' /\
  cleaned (children e ++ ns') (children e').
Proof.
  rewrite append_all_eq. eexists _, (map (inherited e) ns). split; [reflexivity|].
  split; [|split; [apply only_children|apply clean_cleaned]].
  induction ns; constructor; [apply inherited_adopted|easy].
Qed.
Lemma remove_in_bounds e a x b : children e = a ++ [x] ++ b ->
  exists e', remove e (List.length a) = Ok (x, e') /\ only_children_change e e' /\ children e' = a ++ b.
Proof. intro H. eexists. split; [apply remove_eq, H|]. easy. Qed.
Lemma remove_by_spec e p : exists e' k,
  remove_by e p = Ok (e', k) /\ only_children_change e e' /\
  children e' = filter (fun n => negb (p n)) (children e) /\
  k = List.length (filter p (children e)).
Proof. rewrite remove_by_eq. eexists _, _. split; [reflexivity|]. easy. Qed.
Lemma remove_all_spec p e : exists e' k,
  remove_all p e = Ok (e', k) /\ only_children_change e e' /\
  pruned p (children e) (children e') k.
Proof.
  destruct (remove_all_pruned p e) as (l' & k & E & H). exists (set_children e l'), k. now split.
Qed.
Lemma pruned_functional p l l1 k1 l2 k2 :
  pruned p l l1 k1 -> pruned p l l2 k2 -> l1 = l2 /\ k1 = k2.
Proof. intros H1 H2. eapply pruned_fun; eauto. Qed.
Lemma remove_all_trails_spec p e : exists e' k,
  remove_all p e = Ok (e', k) /\
  map (map shallow) (trails e') =
    map (map shallow) (filter (forallb (fun n => negb (p n))) (trails e)) /\
  k = List.length (filter (fun t => match rev t with
                                    | [] => false
                                    | n :: ancestors => p n && forallb (fun a => negb (p a)) ancestors
                                    end) (trails e)).
Proof.
  destruct (remove_all_trails p e) as (e' & k & E & _ & H1 & H2). exists e', k. now split.
Qed.
Lemma remove_element_spec e k c : nth_error (child_elements e) k = Some c ->
  exists e' a b, remove_element e k = Ok (c, e') /\ only_children_change e e' /\
    children e = a ++ [NElem c] ++ b /\ children e' = a ++ b /\ List.length (elements_of a) = k.
Proof.
  intro H. apply elements_split in H as (a & b & E & <-).
  exists (set_children e (a ++ b)), a, b. split; [now apply remove_element_eq|]. easy.
Qed.
Lemma length_filter_elem_pred p l :
  List.length (filter (elem_pred p) l) = List.length (filter p (elements_of l)).
Proof.
  induction l as [|n l IH]; [easy|]. cbn [filter elements_of]. destruct n as [c|s|s|s]; cbn [elem_pred filter]; try exact IH.
  destruct (p c); cbn [List.length]; now rewrite IH.
Qed.
Lemma remove_elements_spec e p : exists e' k,
  remove_elements e p = Ok (e', k) /\ only_children_change e e' /\
  children e' = filter (fun n => match n with NElem c => negb (p c) | _ => true end) (children e) /\
  k = List.length (filter p (child_elements e)).
Proof.
  rewrite remove_elements_eq. eexists _, _. split; [reflexivity|]. split; [easy|].
  split; [|apply length_filter_elem_pred].
  cbn [children set_children e_children]. apply filter_ext. now intros [].
Qed.
Lemma elements_of_filter_neg p l :
  elements_of (filter (fun n => match n with NElem c => negb (p c) | _ => true end) l) =
  filter (fun c => negb (p c)) (elements_of l).
Proof.
  induction l as [|n l IH]; [easy|]. cbn [filter]. destruct n as [c|s|s|s]; cbn [elements_of]; try exact IH.
  cbn [filter]. destruct (p c); cbn [negb elements_of]; now rewrite IH.
Qed.
Lemma filter_length_compl {A} (p : A -> bool) l :
  List.length (filter p l) + List.length (filter (fun x => negb (p x)) l) = List.length l.
Proof. induction l as [|x l IH]; [easy|]. cbn [filter]. destruct (p x); cbn [negb List.length]; lia. Qed.
Lemma remove_elements_by_name_spec e nm : exists e' k,
  remove_elements_by_name e nm = Ok (e', k) /\ only_children_change e e' /\
  picked (fun c => e_name c <> nm) (children e) (child_elements e') /\
  filter (fun n => negb (is_element n)) (children e') = filter (fun n => negb (is_element n)) (children e) /\
  k + List.length (child_elements e') = List.length (child_elements e).
Proof.
  unfold remove_elements_by_name.
  destruct (remove_elements_spec e (fun c => str_eqb (e_name c) nm)) as (e' & k & E & H1 & H2 & H3).
  exists e', k. split; [easy|]. split; [easy|].
  assert (child_elements e' = filter (fun c => negb (str_eqb (e_name c) nm)) (child_elements e)) as Hc.
  { unfold child_elements. unfold children in H2. rewrite H2. apply elements_of_filter_neg. }
  split; [|split].
  - rewrite Hc. apply picked_filter. intro c. rewrite negb_true_iff. apply str_eqb_neq.
  - rewrite H2. clear. induction (children e) as [|n l IH]; [easy|]. cbn [filter].
    destruct n as [c|s|s|s]; cbn [filter is_element negb]; rewrite ?IH; try easy.
    destruct (str_eqb (e_name c) nm); cbn [negb]; [exact IH|]. cbn [filter is_element negb]. exact IH.
  - rewrite Hc, H3. apply filter_length_compl.
Qed.
Lemma set_text_spec e t : exists e', set_text e t = Ok e' /\ only_children_change e e' /\
  (~ blank t -> children e' = [NText t] /\ elem_text e' = t) /\
  (blank t -> children e' = [] /\ elem_text e' = []).
Proof.
  rewrite set_text_eq. eexists. split; [reflexivity|]. split; [easy|]. split; intro H.
  - apply not_blank in H. rewrite H. split; [easy|]. rewrite elem_text_eq, descendants_eq. cbn. now rewrite app_nil_r.
  - apply is_whitespace_blank in H. rewrite H. split; easy.
Qed.
Lemma child_elements_spec e : picked (fun _ => True) (children e) (child_elements e).
Proof. unfold child_elements. rewrite <- (filter_true (elements_of _)). now apply picked_filter. Qed.
Lemma elements_by_name_spec e nm : picked (fun c => name c = nm) (children e) (elements_by_name e nm).
Proof. apply picked_filter. intro c. apply str_eqb_eq. Qed.
Lemma elements_by_namespace_spec e ns : picked (fun c => namespace c = ns) (children e) (elements_by_namespace e ns).
Proof. apply picked_filter. intro c. apply ostr_eqb_eq. Qed.
Lemma elements_by_namespace_prefix_spec e p :
  picked (fun c => namespace_prefix c = p) (children e) (elements_by_namespace_prefix e p).
Proof. apply picked_filter. intro c. apply ostr_eqb_eq. Qed.
Lemma picked_functional P l r1 r2 : picked P l r1 -> picked P l r2 -> r1 = r2.
Proof. intros H1 H2. eapply picked_fun; eauto. Qed.

Lemma first_named_ok nm l c : first_named nm (elements_of l) = Ok c <->
  exists a b, l = a ++ [NElem c] ++ b /\ name c = nm /\ forall c', In (NElem c') a -> name c' <> nm.
Proof.
  split.
  - induction l as [|n l IH]; [easy|]. cbn [elements_of]. intro H.
    destruct n as [d|s|s|s]; cbn [first_named] in H.
    1: destruct (str_eqb (name d) nm) eqn:E.
    1: { inversion H. subst. apply str_eqb_eq in E. now exists [], l. }
    all: destruct (IH H) as (a & b & -> & Hn & Ha); eexists (_ :: a), b; split; [reflexivity|]; split; [easy|];
      intros c' [F|F]; [|now apply Ha].
    + inversion F. subst. now apply str_eqb_neq in E.
    + discriminate.
    + discriminate.
    + discriminate.
  - intros (a & b & -> & Hn & Ha). rewrite elements_of_app. cbn [elements_of app].
    induction a as [|n a IH].
    + cbn [elements_of app first_named]. apply str_eqb_eq in Hn. now rewrite Hn.
    + specialize (IH ltac:(intros c' Hc'; apply Ha; now right)).
      destruct n as [d|s|s|s]; cbn [elements_of app]; try exact IH.
      cbn [first_named]. assert (name d <> nm) as Hd by (apply Ha; now left).
      apply str_eqb_neq in Hd. now rewrite Hd.
Qed.
Lemma first_named_err nm l : first_named nm (elements_of l) = Err DoesNotExistError <->
  forall c, In (NElem c) l -> name c <> nm.
Proof.
  split.
  - intros H c Hc Hn. apply elements_of_in in Hc.
    induction (elements_of l) as [|d r IH]; [easy|]. cbn [first_named] in H.
    destruct (str_eqb (name d) nm) eqn:E; [discriminate|].
    destruct Hc as [->|Hc]; [|auto]. apply str_eqb_neq in E. easy.
  - intro H. assert (forall c, In c (elements_of l) -> name c <> nm) as H'.
    { intros c Hc. apply H. now apply elements_of_in. }
    clear H. induction (elements_of l) as [|d r IH]; [easy|]. cbn [first_named].
    assert (name d <> nm) as Hd by (apply H'; now left). apply str_eqb_neq in Hd. rewrite Hd.
    apply IH. intros c Hc. apply H'. now right.
Qed.
Lemma first_element_by_name_spec e nm :
  (forall c, first_element_by_name e nm = Ok c <-> exists a b, children e = a ++ [NElem c] ++ b /\
     name c = nm /\ forall c', In (NElem c') a -> name c' <> nm) /\
  (first_element_by_name e nm = Err DoesNotExistError <->
     forall c, In (NElem c) (children e) -> name c <> nm).
Proof. split; [intro c; apply first_named_ok|apply first_named_err]. Qed.

Lemma all_children_perm e : Permutation (all_children e) (descendants e).
Proof. unfold all_children, search. rewrite filter_true. apply children_recursive_perm. Qed.
Lemma search_elements_by_name_perm e nm : exists r, search_elements_by_name e nm = Ok r /\
  Permutation (map (@NElem elem) r)
    (filter (fun n => match n with NElem c => if str_eq_dec (name c) nm then true else false | _ => false end)
       (descendants e)).
Proof.
  destruct (search_elements_perm e (fun c => str_eqb (name c) nm)) as (r & E & H).
  exists r. split; [exact E|]. eapply Permutation_trans; [exact H|].
  erewrite filter_ext; [apply Permutation_refl|]. intros [c|s|s|s]; try reflexivity.
  destruct (str_eq_dec (name c) nm) as [->|Hn]; [apply str_eqb_refl|now apply str_eqb_neq].
Qed.

Lemma clean_last_elem l c : exists front, clean (l ++ [NElem c]) = front ++ [NElem c].
Proof.
  unfold clean, merge_text. rewrite fold_right_app. cbn [fold_right merge1].
  assert (forall l, exists front, fold_right merge1 [NElem c] l = front ++ [NElem c]) as H.
  { clear. induction l as [|n l (front & IH)]; [now exists []|]. cbn [fold_right]. rewrite IH.
    destruct n as [d|s|s|s].
    - exists (NElem d :: front). easy.
    - destruct front as [|[d|t|t|t] front]; cbn [app merge1].
      + now exists [NText s].
      + now exists (NText s :: NElem d :: front).
      + now exists (NText (s ++ t) :: front).
      + now exists (NText s :: NComment t :: front).
      + now exists (NText s :: NCData t :: front).
    - now exists (NComment s :: front).
    - now exists (NCData s :: front). }
  destruct (H l) as (front & E). rewrite E, filter_app. cbn [filter keep_node]. now eexists.
Qed.
Lemma append_element_ns e c : exists e' c', append e (NElem c) = Ok e' /\
  (exists front, children e' = front ++ [NElem c']) /\
  (forall x, namespace c = Some x -> namespace c' = Some x) /\
  (namespace c = None -> namespace_prefix c = None -> namespace c' = inheritable e) /\
  (forall p, namespace c = None -> namespace_prefix c = Some p ->
     namespace c' = match aget p (get_namespace_context c) with
                    | Some v => Some v
                    | None => aget p (get_namespace_context e)
                    end).
Proof.
  rewrite append_eq. pose proof (inherited_adopted e (NElem c)) as H.
  cbn [inherited apply_xmlns_context] in *.
  set (c' := set_namespace_context c (default_namespace e) (Some (e_context e))) in *.
  exists (set_children e (clean (e_children e ++ [NElem c']))), c'. split; [reflexivity|].
  split; [apply clean_last_elem|].
  destruct H as (_ & _ & _ & _ & Hc & Hx). unfold namespace, namespace_prefix, get_namespace_context.
  split; [|split].
  - intros x E. now rewrite Hx, E.
  - intros E1 E2. now rewrite Hx, E1, E2.
  - intros p E1 E2. now rewrite Hx, E1, E2, Hc.
Qed.
Lemma adopted_idempotent e n n' n'' : adopted e n n' -> adopted e n' n'' ->
  match n', n'' with
  | NElem c', NElem c'' => namespace c'' = namespace c' /\
      forall k, aget k (get_namespace_context c'') = aget k (get_namespace_context c')
  | _, _ => n'' = n'
  end.
Proof.
  destruct n as [c|s|s|s]; cbn [adopted]; [|intros ->; cbn [adopted]; now intros ->..].
  destruct n' as [c'|s|s|s]; [|intro E; discriminate E..].
  destruct n'' as [c''|s|s|s]; [|intros _ E; discriminate E..].
  intros (_ & _ & _ & P1 & C1 & X1) (_ & _ & _ & P2 & C2 & X2).
  unfold namespace, get_namespace_context.
  assert (forall k, aget k (e_context c'') = aget k (e_context c')) as Hc.
  { intro k. rewrite C2, C1. destruct (aget k (e_context c)); [easy|]. now destruct (aget k (e_context e)). }
  split; [|exact Hc]. rewrite X2, X1, P1. destruct (e_xmlns c); [easy|].
  destruct (e_prefix c) as [p|].
  - rewrite Hc. now destruct (aget p (e_context c')).
  - now destruct (inheritable e).
Qed.

Lemma child_elements_mut_spec e f :
  only_children_change e (child_elements_mut e f) /\
  modified (fun _ => True) (fun c c' => c' = f c) (children e) (children (child_elements_mut e f)).
Proof. split; [easy|]. now apply modified_update. Qed.
Lemma elements_by_name_mut_spec e nm f :
  only_children_change e (elements_by_name_mut e nm f) /\
  modified (fun c => name c = nm) (fun c c' => c' = f c) (children e) (children (elements_by_name_mut e nm f)).
Proof. split; [easy|]. apply modified_update. intro c. apply str_eqb_eq. Qed.
Lemma elements_by_namespace_mut_spec e ns f :
  only_children_change e (elements_by_namespace_mut e ns f) /\
  modified (fun c => namespace c = ns) (fun c c' => c' = f c) (children e) (children (elements_by_namespace_mut e ns f)).
Proof. split; [easy|]. apply modified_update. intro c. apply ostr_eqb_eq. Qed.
Lemma elements_by_namespace_prefix_mut_spec e p f :
  only_children_change e (elements_by_namespace_prefix_mut e p f) /\
  modified (fun c => namespace_prefix c = p) (fun c c' => c' = f c)
    (children e) (children (elements_by_namespace_prefix_mut e p f)).
Proof. split; [easy|]. apply modified_update. intro c. apply ostr_eqb_eq. Qed.
Lemma first_element_by_name_mut_spec e nm f :
  (forall a c b, children e = a ++ [NElem c] ++ b -> name c = nm ->
     (forall c', In (NElem c') a -> name c' <> nm) ->
     forall c', f c = Ok c' -> first_element_by_name_mut e nm f = Ok (set_children e (a ++ [NElem c'] ++ b))) /\
  ((forall c, In (NElem c) (children e) -> name c <> nm) ->
     first_element_by_name_mut e nm f = Err DoesNotExistError).
Proof.
  unfold first_element_by_name_mut, children. split.
  - intros a c b -> Hn Ha c' Hf.
    assert (update_first_named nm f (a ++ [NElem c] ++ b) = Ok (a ++ [NElem c'] ++ b)) as ->; [|easy].
    induction a as [|n a IH]; cbn [app update_first_named].
    + apply str_eqb_eq in Hn. now rewrite Hn, Hf.
    + cbn [app] in IH. rewrite IH by (intros d Hd; apply Ha; now right).
      destruct n as [d|s|s|s]; try reflexivity.
      assert (name d <> nm) as Hd by (apply Ha; now left). apply str_eqb_neq in Hd. now rewrite Hd.
  - intro H. assert (update_first_named nm f (e_children e) = Err DoesNotExistError) as ->; [|easy].
    induction (e_children e) as [|n l IH]; [easy|]. cbn [update_first_named].
    rewrite IH by (intros d Hd; apply H; now right).
    destruct n as [d|s|s|s]; try reflexivity.
    assert (name d <> nm) as Hd by (apply H; now left). apply str_eqb_neq in Hd. now rewrite Hd.
Qed.

Lemma all_children_order e : all_children e = children e ++ flat_map all_children (child_elements e).
Proof.
  unfold all_children at 1, search. rewrite filter_true, children_recursive_eq. unfold children, child_elements. f_equal.
  induction (e_children e) as [|n l IH]; [easy|]. cbn [flat_map elements_of]. rewrite IH. destruct n; try easy. cbn [flat_map].
  unfold all_children at 2, search. now rewrite filter_true.
Qed.
Lemma search_order e :
  (forall p, search e p = filter p (all_children e)) /\
  (forall p r, search_elements e p = Ok r -> map (@NElem elem) r =
    filter (fun n => match n with NElem c => p c | _ => false end) (all_children e)) /\
  (forall p r, search_text e p = Ok r -> map (@NText elem) r =
    filter (fun n => match n with NText s => p s | _ => false end) (all_children e)) /\
  (forall p r, search_comments e p = Ok r -> map (@NComment elem) r =
    filter (fun n => match n with NComment s => p s | _ => false end) (all_children e)).
Proof.
  assert (all_children e = children_recursive e) as -> by (unfold all_children, search; apply filter_true).
  split; [easy|].
  split; [|split]; intros p r H; [rewrite search_elements_eq in H|rewrite search_text_eq in H|rewrite search_comments_eq in H];
    injection H as <-; (induction (children_recursive e) as [|n l IH]; [easy|]);
    destruct n as [c|t|t|t]; cbn [elements_of filter]; try exact IH;
    unfold texts_of, comments_of in *; cbn [flat_map app]; try exact IH; cbn [filter map];
    destruct (p _); cbn [map]; now rewrite IH.
Qed.

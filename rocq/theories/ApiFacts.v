(** Proofs about constructors, attributes, comments and call histories. *)
From Coq Require Import List NArith Arith Bool Ascii String Lia Permutation.
From Verif Require Import Base Escape Dom BaseFacts Spec SpecDom SpecApi DomFacts.
Import ListNotations.

(** * Names *)

Lemma is_name_start_spec c : is_name_start c = true <-> (c = 95 \/ 65 <= c <= 90 \/ 97 <= c <= 122)%N.
Proof.
  unfold is_name_start, in_range.
  rewrite !orb_true_iff, !andb_true_iff, N.eqb_eq, !N.leb_le. lia.
Qed.
Lemma name_regex_spec s : name_regex s = true <-> valid_name s.
Proof.
  unfold valid_name. destruct s as [|c s]; cbn [name_regex].
  - split; [discriminate|]. intros (c & r & E & _). discriminate.
  - rewrite andb_true_iff, is_name_start_spec, forallb_forall. split.
    + intros [H1 H2]. exists c, s. split; [easy|]. split; [easy|]. apply Forall_forall.
      intros x Hx. apply H2 in Hx. now apply negb_true_iff in Hx.
    + intros (c' & r & E & H1 & H2). injection E as <- <-. split; [easy|].
      intros x Hx. rewrite Forall_forall in H2. apply negb_true_iff. auto.
Qed.
Lemma name_regex_false s : name_regex s = false <-> ~ valid_name s.
Proof. rewrite <- name_regex_spec. destruct (name_regex s); split; congruence. Qed.
Lemma valid_name_dec s : valid_name s \/ ~ valid_name s.
Proof. rewrite <- name_regex_spec. destruct (name_regex s); [now left|right; congruence]. Qed.

(** * Constructors *)

Lemma convert_attrs_ok given : (forall k v, In (k, v) given -> valid_name k) ->
  forall acc, convert_attrs given acc = Ok (fold_left (fun m kv => aset (fst kv) (snd kv) m) given acc).
Proof.
  induction given as [|[k v] given IH]; intros H acc; cbn [convert_attrs fold_left fst snd]; [easy|].
  unfold check_attr_name. assert (name_regex k = true) as ->.
  { apply name_regex_spec, (H k v). now left. }
  cbn [bind]. apply IH. intros k' v' Hi. apply (H k' v'). now right.
Qed.
Lemma convert_attrs_bad given : (exists k v, In (k, v) given /\ ~ valid_name k) ->
  forall acc, exists k v, In (k, v) given /\ ~ valid_name k /\ convert_attrs given acc = Err (InvalidAttributeName k).
Proof.
  induction given as [|[k v] given IH]; intros (k' & v' & Hi & Hn) acc; cbn [convert_attrs]; [easy|].
  unfold check_attr_name. destruct (name_regex k) eqn:E; cbn [bind].
  - destruct (IH ltac:(exists k', v'; split; [|easy]; destruct Hi as [Hi|Hi]; [|easy];
      injection Hi as -> ->; now apply name_regex_spec in E) (aset k v acc)) as (k2 & v2 & A & B & C).
    exists k2, v2. split; [now right|]. now split.
  - exists k, v. split; [now left|]. split; [|easy]. now apply name_regex_false.
Qed.
Lemma fold_aset_other k given : (forall v, ~ In (k, v) given) -> forall acc,
  aget k (fold_left (fun m kv => aset (fst kv) (snd kv) m) given acc) = aget k acc.
Proof.
  induction given as [|[k' v'] given IH]; intros H acc; cbn [fold_left fst snd]; [easy|].
  rewrite IH by (intros v Hv; apply (H v); now right).
  apply aget_aset_other. intros ->. apply (H v'). now left.
Qed.
Lemma fold_aset_get given : map_ok given -> forall acc k,
  aget k (fold_left (fun m kv => aset (fst kv) (snd kv) m) given acc) =
  match aget k given with Some v => Some v | None => aget k acc end.
Proof.
  unfold map_ok. induction given as [|[k' v'] given IH]; intros H acc k; cbn [fold_left fst snd]; [easy|].
  cbn [map fst] in H. apply NoDup_cons_iff in H as [Hn H]. rewrite IH by easy.
  unfold aget at 3. cbn [mget]. fold (aget k given).
  destruct (str_eqb k k') eqn:E.
  - apply str_eqb_eq in E. subst. rewrite (proj2 (aget_none k' given)) by easy. now rewrite aget_aset_same.
  - apply str_eqb_neq in E. destruct (aget k given); [easy|]. now rewrite aget_aset_other.
Qed.
Lemma fold_aset_ok given : forall acc, map_ok acc ->
  map_ok (fold_left (fun m kv => aset (fst kv) (snd kv) m) given acc).
Proof.
  induction given as [|kv given IH]; intros acc H; cbn [fold_left]; [easy|]. apply IH. now apply nodup_aset.
Qed.
Lemma fold_aset_keys given k : forall acc,
  In k (akeys (fold_left (fun m kv => aset (fst kv) (snd kv) m) given acc)) ->
  In k (akeys acc) \/ In k (akeys given).
Proof.
  induction given as [|[k' v'] given IH]; intros acc H; cbn [fold_left fst snd] in H; [now left|].
  apply IH in H as [H|H]; [|right; now right]. apply akeys_aset in H as [->|H]; [right; now left|now left].
Qed.

Lemma context_ok attrs : map_ok (xmlns_context_from_attributes attrs).
Proof.
  unfold xmlns_context_from_attributes.
  assert (forall acc, map_ok acc -> map_ok (fold_left xmlns_context_step attrs acc)) as H.
  { induction attrs as [|kv attrs IH]; intros acc H; cbn [fold_left]; [easy|]. apply IH.
    unfold xmlns_context_step. destruct (starts_with sXmlnsC (fst kv)); [|easy].
    destruct (split_once cColon (fst kv)) as [[? ?]|]; [|easy]. now apply nodup_aset. }
  apply H. constructor.
Qed.
Lemma context_step_get k v acc p :
  aget p (xmlns_context_step acc (k, v)) = if str_eqb k (sXmlnsC ++ p) then Some v else aget p acc.
Proof.
  unfold xmlns_context_step. cbn [fst snd]. destruct (str_eqb k (sXmlnsC ++ p)) eqn:E.
  - apply str_eqb_eq in E. subst k. rewrite starts_with_app.
    assert (split_once cColon (sXmlnsC ++ p) = Some (lit "xmlns", p)) as ->.
    { apply split_once_some. split; [reflexivity|]. vm_compute. intuition discriminate. }
    apply aget_aset_same.
  - destruct (starts_with sXmlnsC k) eqn:Es; [|easy]. apply starts_with_spec in Es as (r & ->).
    assert (split_once cColon (sXmlnsC ++ r) = Some (lit "xmlns", r)) as ->.
    { apply split_once_some. split; [reflexivity|]. vm_compute. intuition discriminate. }
    apply aget_aset_other. intros ->. now rewrite str_eqb_refl in E.
Qed.
(** The prefixes declared by the attributes. *)
Lemma context_get attrs : map_ok attrs -> forall p,
  aget p (xmlns_context_from_attributes attrs) = aget (sXmlnsC ++ p) attrs.
Proof.
  intros H p. unfold xmlns_context_from_attributes.
  enough (forall acc, aget p (fold_left xmlns_context_step attrs acc) =
    match aget (sXmlnsC ++ p) attrs with Some v => Some v | None => aget p acc end) as Hx.
  { rewrite Hx. destruct (aget (sXmlnsC ++ p) attrs); reflexivity. }
  unfold map_ok in H. induction attrs as [|[k v] attrs IH]; intro acc; cbn [fold_left]; [easy|].
  cbn [map fst] in H. apply NoDup_cons_iff in H as [Hn H]. rewrite IH by easy. rewrite context_step_get.
  unfold aget at 3. cbn [mget]. fold (aget (sXmlnsC ++ p) attrs). rewrite (str_eqb_sym (sXmlnsC ++ p) k).
  destruct (str_eqb k (sXmlnsC ++ p)) eqn:E; [|easy]. apply str_eqb_eq in E. subst k.
  now rewrite (proj2 (aget_none (sXmlnsC ++ p) attrs)).
Qed.

Definition new_xmlns (attrs : amap) (xmlns prefix : option str) : option str :=
  match xmlns with
  | Some x => Some x
  | None => match prefix with
            | None => aget sXmlns attrs
            | Some p => aget (sXmlnsC ++ p) attrs
            end
  end.
Lemma element_new_eq nm text attrs xmlns prefix ch :
  valid_name nm -> (forall m k v, attrs = Some m -> In (k, v) m -> valid_name k) ->
  let m := fold_left (fun m kv => aset (fst kv) (snd kv) m) (match attrs with Some m => m | None => [] end) [] in
  let e0 := mkElem nm [] m (new_xmlns m xmlns prefix) prefix (xmlns_context_from_attributes m) in
  let l0 := clean (match text with Some t => [NText t] | None => [] end) in
  element_new nm text attrs xmlns prefix ch =
    Ok (set_children e0 (clean (l0 ++ map (inherited e0) (match ch with Some l => l | None => [] end)))).
Proof.
  intros H1 H2 m e0 l0. unfold element_new, check_elem_name. apply name_regex_spec in H1. rewrite H1. cbn [bind].
  match goal with |- bind ?x _ = _ => assert (x = Ok m) as -> end.
  { destruct attrs as [a|]; [|easy]. apply convert_attrs_ok. intros k v. now apply H2. }
  cbn [bind]. fold (new_xmlns m xmlns prefix). fold e0.
  match goal with |- bind ?x _ = _ => assert (x = Ok (set_children e0 l0)) as -> end.
  { destruct text as [t|]; [|easy]. rewrite append_eq. reflexivity. }
  cbn [bind]. destruct ch as [l|].
  - rewrite append_all_eq. reflexivity.
  - cbn [map]. rewrite app_nil_r. rewrite clean_fixed; [reflexivity|apply clean_normal].
Qed.
Lemma element_new_bad_name nm text attrs xmlns prefix ch :
  ~ valid_name nm -> element_new nm text attrs xmlns prefix ch = Err (InvalidElementName nm).
Proof. intro H. unfold element_new, check_elem_name. apply name_regex_false in H. now rewrite H. Qed.
Lemma element_new_bad_attr nm text attrs xmlns prefix ch m k v :
  valid_name nm -> attrs = Some m -> In (k, v) m -> ~ valid_name k ->
  exists k' v', In (k', v') m /\ ~ valid_name k' /\
    element_new nm text attrs xmlns prefix ch = Err (InvalidAttributeName k').
Proof.
  intros H -> Hi Hk. unfold element_new, check_elem_name. apply name_regex_spec in H. rewrite H. cbn [bind].
  destruct (convert_attrs_bad m ltac:(eauto) []) as (k' & v' & A & B & C). exists k', v'. rewrite C. now repeat split.
Qed.

Lemma adopted_children e x l : Forall2 (adopted (set_children e x)) l (map (inherited e) l).
Proof.
  induction l as [|n l IH]; constructor; [|exact IH]. exact (inherited_adopted (set_children e x) n).
Qed.
Lemma element_new_ok nm text attrs xmlns prefix ch :
  (exists e, element_new nm text attrs xmlns prefix ch = Ok e) <->
  valid_name nm /\ (forall m k v, attrs = Some m -> In (k, v) m -> valid_name k).
Proof.
  split.
  - intros (e & H). destruct (valid_name_dec nm) as [Hn|Hn].
    2: { rewrite element_new_bad_name in H by easy. discriminate. }
    split; [easy|]. intros m k v Hm Hi. destruct (valid_name_dec k) as [Hk|Hk]; [easy|].
    destruct (element_new_bad_attr nm text attrs xmlns prefix ch m k v Hn Hm Hi Hk) as (k2 & v2 & _ & _ & E). congruence.
  - intros [H1 H2]. eexists. now apply element_new_eq.
Qed.
Lemma element_new_spec nm text attrs xmlns prefix ch e :
  (forall m, attrs = Some m -> map_ok m) ->
  element_new nm text attrs xmlns prefix ch = Ok e ->
  name e = nm /\ namespace_prefix e = prefix /\
  (forall k, get_attr e k = match attrs with Some m => aget k m | None => None end) /\
  namespace e = match xmlns with
                | Some x => Some x
                | None => get_attr e (match prefix with None => lit "xmlns" | Some p => lit "xmlns:" ++ p end)
                end /\
  (forall p, aget p (get_namespace_context e) = get_attr e (lit "xmlns:" ++ p)) /\
  exists first rest,
    cleaned (match text with Some t => [NText t] | None => [] end) first /\
    Forall2 (adopted e) (match ch with Some l => l | None => [] end) rest /\
    cleaned (first ++ rest) (children e).
Proof.
  intros Hok H. assert (exists e, element_new nm text attrs xmlns prefix ch = Ok e) as He by eauto.
  apply element_new_ok in He as [H1 H2]. rewrite element_new_eq in H by easy. injection H as <-.
  set (m := fold_left (fun m kv => aset (fst kv) (snd kv) m) (match attrs with Some m => m | None => [] end) []). assert (map_ok m) as Hm by (apply fold_aset_ok; constructor).
  split; [reflexivity|]. split; [reflexivity|]. split; [|split; [|split]].
  - intro k. cbn [set_children]. unfold get_attr. cbn [e_attributes]. unfold m.
    destruct attrs as [a|]; [|reflexivity].
    transitivity (match aget k a with Some v => Some v | None => aget k [] end); [now apply fold_aset_get; auto|]. destruct (aget k a); reflexivity.
  - unfold namespace, get_attr, new_xmlns. cbn [set_children e_xmlns e_attributes].
    destruct xmlns; [easy|]. now destruct prefix.
  - intro p. unfold get_namespace_context, get_attr. cbn [set_children e_context e_attributes].
    now apply context_get.
  - eexists _, _. split; [apply clean_cleaned|]. split; [|apply clean_cleaned].
    apply adopted_children.
Qed.
Lemma new_from_name_spec nm :
  (valid_name nm -> new_from_name nm = Ok (mkElem nm [] [] None None [])) /\
  (~ valid_name nm -> new_from_name nm = Err (InvalidElementName nm)).
Proof.
  unfold new_from_name, check_elem_name. split; intro H.
  - apply name_regex_spec in H. now rewrite H.
  - apply name_regex_false in H. now rewrite H.
Qed.
Lemma new_from_name_new nm : new_from_name nm = element_new nm None None None None None.
Proof.
  unfold new_from_name, element_new. destruct (check_elem_name nm); reflexivity.
Qed.

(** * Attributes *)

Lemma set_attr_ok e k v : valid_name k -> set_attr e k v = (Ok tt, set_attributes e (aset k v (e_attributes e))).
Proof. intro H. unfold set_attr, check_attr_name. apply name_regex_spec in H. now rewrite H. Qed.
Lemma set_attr_bad e k v : ~ valid_name k -> set_attr e k v = (Err (InvalidAttributeName k), e).
Proof. intro H. unfold set_attr, check_attr_name. apply name_regex_false in H. now rewrite H. Qed.

Lemma set_attr_spec e k v :
  (valid_name k -> exists e', set_attr e k v = (Ok tt, e') /\
     get_attr e' k = Some v /\ (forall k', k' <> k -> get_attr e' k' = get_attr e k') /\
     e' = set_attributes e (attributes e')) /\
  (~ valid_name k -> set_attr e k v = (Err (InvalidAttributeName k), e)).
Proof.
  split; [|apply set_attr_bad]. intro H. eexists. split; [now apply set_attr_ok|].
  unfold get_attr. cbn [set_attributes e_attributes attributes]. split; [apply aget_aset_same|].
  split; [intros; now apply aget_aset_other|easy].
Qed.
Lemma remove_attr_spec e k : map_ok (attributes e) -> exists e',
  remove_attr e k = (get_attr e k, e') /\ get_attr e' k = None /\
  (forall k', k' <> k -> get_attr e' k' = get_attr e k') /\ e' = set_attributes e (attributes e').
Proof.
  intro H. eexists. split; [reflexivity|]. unfold get_attr. cbn [set_attributes e_attributes attributes].
  split; [now apply aget_adel_same|]. split; [intros; now apply aget_adel_other|easy].
Qed.

Lemma do_attr_op_ok e op : map_ok (attributes e) -> map_ok (attributes (do_attr_op e op)).
Proof.
  intro H. destruct op as [k v|k|]; cbn [do_attr_op].
  - destruct (valid_name_dec k) as [Hk|Hk].
    + rewrite set_attr_ok by easy. now apply nodup_aset.
    + now rewrite set_attr_bad.
  - now apply nodup_adel.
  - constructor.
Qed.
Lemma do_attr_op_untouched e op k : ~ touches k op -> get_attr (do_attr_op e op) k = get_attr e k.
Proof.
  intro H. destruct op as [k' v|k'|]; cbn [do_attr_op touches] in *.
  - destruct (valid_name_dec k') as [Hk|Hk]; [|now rewrite set_attr_bad].
    rewrite set_attr_ok by easy. apply aget_aset_other. intros ->. now apply H.
  - apply aget_adel_other. congruence.
  - now destruct H.
Qed.
Lemma touches_dec k op : touches k op \/ ~ touches k op.
Proof.
  destruct op as [k' v|k'|]; cbn [touches].
  - destruct (str_eq_dec k' k) as [->|]; [|tauto]. destruct (valid_name_dec k); tauto.
  - destruct (str_eq_dec k' k); tauto.
  - now left.
Qed.
Lemma do_attr_op_touched e op k : map_ok (attributes e) -> touches k op ->
  get_attr (do_attr_op e op) k = match op with SetAttr _ v => Some v | _ => None end.
Proof.
  intros Hok H. destruct op as [k' v|k'|]; cbn [do_attr_op touches] in *.
  - destruct H as [-> Hv]. rewrite set_attr_ok by easy. apply aget_aset_same.
  - subst. now apply aget_adel_same.
  - reflexivity.
Qed.
Lemma do_attr_ops_app e a b : do_attr_ops e (a ++ b) = do_attr_ops (do_attr_ops e a) b.
Proof. apply fold_left_app. Qed.
Lemma do_attr_ops_ok ops : forall e, map_ok (attributes e) -> map_ok (attributes (do_attr_ops e ops)).
Proof. induction ops as [|op ops IH]; intros e H; [easy|]. apply IH, do_attr_op_ok, H. Qed.
Lemma do_attr_ops_untouched ops k : forall e, (forall op, In op ops -> ~ touches k op) ->
  get_attr (do_attr_ops e ops) k = get_attr e k.
Proof.
  induction ops as [|op ops IH]; intros e H; [easy|]. cbn [do_attr_ops fold_left].
  change (fold_left do_attr_op ops ?x) with (do_attr_ops x ops).
  rewrite IH by (intros o Ho; apply H; now right). apply do_attr_op_untouched, H. now left.
Qed.
Lemma last_touch ops k : (forall op, In op ops -> ~ touches k op) \/
  exists a op b, ops = a ++ [op] ++ b /\ touches k op /\ forall o, In o b -> ~ touches k o.
Proof.
  induction ops as [|op ops [IH|(a & o & b & -> & H1 & H2)]].
  - now left.
  - destruct (touches_dec k op) as [H|H].
    + right. now exists [], op, ops.
    + left. intros o [<-|Ho]; auto.
  - right. now exists (op :: a), o, b.
Qed.
Lemma attr_history e ops k v : map_ok (attributes e) ->
  (get_attr (do_attr_ops e ops) k = Some v <->
   (exists before after, ops = before ++ [SetAttr k v] ++ after /\ valid_name k /\
      forall op, In op after -> ~ touches k op) \/
   (get_attr e k = Some v /\ forall op, In op ops -> ~ touches k op)).
Proof.
  intro Hok. split.
  - intro H. destruct (last_touch ops k) as [Hn|(a & op & b & -> & Ht & Hb)].
    + right. now rewrite do_attr_ops_untouched in H.
    + left. rewrite app_assoc, do_attr_ops_app, do_attr_ops_untouched in H by easy.
      rewrite do_attr_ops_app in H. cbn [do_attr_ops fold_left] in H.
      rewrite do_attr_op_touched in H by (try apply do_attr_ops_ok; easy).
      destruct op as [k' v'|k'|]; try discriminate. injection H as ->. destruct Ht as [-> Hv].
      now exists a, b.
  - intros [(a & b & -> & Hv & Hb)|[H Hn]].
    + rewrite app_assoc, do_attr_ops_app, do_attr_ops_untouched by easy.
      rewrite do_attr_ops_app. cbn [do_attr_ops fold_left].
      now rewrite do_attr_op_touched by (try apply do_attr_ops_ok; easy).
    + now rewrite do_attr_ops_untouched.
Qed.
Lemma attr_history_ok e ops : map_ok (attributes e) -> map_ok (attributes (do_attr_ops e ops)) /\
  do_attr_ops e ops = set_attributes e (attributes (do_attr_ops e ops)).
Proof.
  intro H. split; [now apply do_attr_ops_ok|]. clear H. revert e.
  induction ops as [|op ops IH]; intro e; [now destruct e|]. cbn [do_attr_ops fold_left].
  change (fold_left do_attr_op ops ?x) with (do_attr_ops x ops).
  rewrite IH at 1. assert (do_attr_op e op = set_attributes e (attributes (do_attr_op e op))) as ->; [|reflexivity].
  destruct op as [k v|k|]; try reflexivity. cbn [do_attr_op].
  destruct (valid_name_dec k); [now rewrite set_attr_ok|rewrite set_attr_bad by easy; now destruct e].
Qed.
Lemma attributes_get e k v : map_ok (attributes e) -> (In (k, v) (attributes e) <-> get_attr e k = Some v).
Proof. intro H. split; [now apply in_aget|apply aget_in]. Qed.

(** * Comments and CDATA *)

Lemma substring_dec p s : substring p s \/ ~ substring p s.
Proof.
  destruct (contains p s) eqn:E; [left; now apply contains_spec|right; now apply contains_false].
Qed.
Lemma guard_eq p s {A} (x y : A) : (substring p s -> (if contains p s then x else y) = x) /\
  (~ substring p s -> (if contains p s then x else y) = y).
Proof.
  split; intro H.
  - now rewrite (proj2 (contains_spec p s)).
  - now rewrite (proj2 (contains_false p s)).
Qed.
Lemma comment_new_spec s :
  (substring (lit "-->") s -> comment_new s = Err (InvalidContent (lit "Comments cannot contain '-->'"))) /\
  (~ substring (lit "-->") s -> comment_new s = Ok s).
Proof. apply guard_eq. Qed.
Lemma comment_set_spec old s :
  (substring (lit "-->") s -> comment_set_content old s = (Err (InvalidContent (lit "Comments cannot contain '-->'")), old)) /\
  (~ substring (lit "-->") s -> comment_set_content old s = (Ok tt, s)).
Proof. apply guard_eq. Qed.
Lemma cdata_new_spec s :
  (substring (lit "]]>") s -> cdata_new s = Err (InvalidContent (lit "CDATA cannot contain ']]>' as content"))) /\
  (~ substring (lit "]]>") s -> cdata_new s = Ok s).
Proof. apply guard_eq. Qed.
Lemma cdata_set_spec old s :
  (substring (lit "]]>") s -> cdata_set_text old s = (Err (InvalidContent (lit "CDATA cannot contain ']]>'")), old)) /\
  (~ substring (lit "]]>") s -> cdata_set_text old s = (Ok tt, s)).
Proof. apply guard_eq. Qed.

Lemma history_last (p : str) (upd : str -> str -> str) :
  (forall old s, substring p s -> upd old s = old) -> (forall old s, ~ substring p s -> upd old s = s) ->
  forall l s, ~ substring p s -> last_acceptable p (s :: l) (fold_left upd l s).
Proof.
  intros H1 H2. induction l as [|x l IH] using rev_ind; intros s Hs.
  - exists [], []. now split.
  - rewrite fold_left_app. cbn [fold_left]. destruct (substring_dec p x) as [Hx|Hx].
    + rewrite H1 by easy. destruct (IH s Hs) as (a & b & E & Hr & Hb).
      exists a, (b ++ [x]). split; [|split; [easy|]].
      * change (s :: l ++ [x]) with ((s :: l) ++ [x]). rewrite E, <- !app_assoc. reflexivity.
      * intros y Hy. apply in_app_or in Hy as [Hy|[<-|[]]]; auto.
    + rewrite H2 by easy. exists (s :: l), []. split; [reflexivity|]. split; [easy|]. easy.
Qed.
Lemma comment_history_spec first updates :
  (substring (lit "-->") first -> comment_history first updates = Err (InvalidContent (lit "Comments cannot contain '-->'"))) /\
  (~ substring (lit "-->") first -> exists r, comment_history first updates = Ok r /\
     last_acceptable (lit "-->") (first :: updates) r).
Proof.
  unfold comment_history. split; intro H; apply comment_new_spec in H as E; rewrite E; cbn [bind]; [easy|].
  eexists. split; [reflexivity|]. apply history_last; [| |exact H]; intros old s Hs; now apply (comment_set_spec old s) in Hs as ->.
Qed.
Lemma cdata_history_spec first updates :
  (substring (lit "]]>") first -> cdata_history first updates = Err (InvalidContent (lit "CDATA cannot contain ']]>' as content"))) /\
  (~ substring (lit "]]>") first -> exists r, cdata_history first updates = Ok r /\
     last_acceptable (lit "]]>") (first :: updates) r).
Proof.
  unfold cdata_history. split; intro H; apply cdata_new_spec in H as E; rewrite E; cbn [bind]; [easy|].
  eexists. split; [reflexivity|]. apply history_last; [| |exact H]; intros old s Hs; now apply (cdata_set_spec old s) in Hs as ->.
Qed.

(** * Reachable elements *)

Lemma elem_valid_inv e : elem_valid e ->
  valid_name (e_name e) /\ (forall k v, In (k, v) (e_attributes e) -> valid_name k) /\
  map_ok (e_attributes e) /\ map_ok (e_context e) /\ (forall n, In n (e_children e) -> node_valid n).
Proof.
  intros [e' H1 H2 H3 H4 H5 H6 H7]. repeat split; try easy. intros [c|s|s|s]; cbn [node_valid]; auto.
Qed.
Lemma elem_valid_intro e :
  valid_name (e_name e) -> (forall k v, In (k, v) (e_attributes e) -> valid_name k) ->
  map_ok (e_attributes e) -> map_ok (e_context e) -> (forall n, In n (e_children e) -> node_valid n) ->
  elem_valid e.
Proof.
  intros. constructor; try easy.
  - intros c Hc. exact (H3 (NElem c) Hc).
  - intros s Hs. exact (H3 (NComment s) Hs).
  - intros s Hs. exact (H3 (NCData s) Hs).
Qed.
Lemma valid_set_children e l : elem_valid e -> (forall n, In n l -> node_valid n) -> elem_valid (set_children e l).
Proof. intros H Hl. apply elem_valid_inv in H as (H1 & H2 & H3 & H4 & _). now apply elem_valid_intro. Qed.
Lemma cleaned_valid l l' : cleaned l l' -> (forall n, In n l -> node_valid n) -> forall n, In n l' -> node_valid n.
Proof.
  induction 1 as [|x l l' Hn H IH|run l l' Hne Hl Hb H IH|run l l' Hne Hl Hb H IH]; intros Hv n Hi.
  - easy.
  - destruct Hi as [<-|Hi]; [apply Hv; now left|]. apply IH; [|easy]. intros y Hy. apply Hv. now right.
  - destruct Hi as [<-|Hi]; [easy|]. apply IH; [|easy]. intros y Hy. apply Hv, in_or_app. now right.
  - apply IH; [|easy]. intros y Hy. apply Hv, in_or_app. now right.
Qed.
Lemma clean_valid l : (forall n, In n l -> node_valid n) -> forall n, In n (clean l) -> node_valid n.
Proof. apply cleaned_valid, clean_cleaned. Qed.
Lemma inherited_valid e n : node_valid n -> node_valid (inherited e n).
Proof.
  destruct n as [c|s|s|s]; cbn [inherited apply_xmlns_context node_valid]; try easy. intro H.
  apply elem_valid_inv in H as (H1 & H2 & H3 & H4 & H5).
  assert (map_ok (inherit_context (e_context c) (e_context e))) as Hi by now apply nodup_inherit_context.
  unfold set_namespace_context. destruct c as [nm ch at_ ns px cx]. cbn in *.
  destruct px as [p|], ns as [x|]; cbn; try (apply elem_valid_intro; assumption).
  destruct (default_namespace e); cbn; apply elem_valid_intro; assumption.
Qed.
Lemma map_inherited_valid e l : (forall n, In n l -> node_valid n) ->
  forall n, In n (map (inherited e) l) -> node_valid n.
Proof. intros H n Hn. apply in_map_iff in Hn as (x & <- & Hx). apply inherited_valid. auto. Qed.
Lemma in_app_valid a b : (forall n, In n a -> node_valid n) -> (forall n, In n b -> node_valid n) ->
  forall n : node, In n (a ++ b) -> node_valid n.
Proof. intros Ha Hb n Hn. apply in_app_or in Hn as [Hn|Hn]; auto. Qed.

Lemma pruned_valid p l l' k : pruned p l l' k -> (forall n, In n l -> node_valid n) -> forall n, In n l' -> node_valid n.
Proof.
  induction 1 as [|n l l' k Hp H IH|n l l' k Hp Hn H IH|e ch' l l' k1 k2 Hp H1 IH1 H2 IH2]; intros Hv x Hx.
  - easy.
  - apply IH; [|easy]. intros y Hy. apply Hv. now right.
  - destruct Hx as [<-|Hx]; [apply Hv; now left|]. apply IH; [|easy]. intros y Hy. apply Hv. now right.
  - destruct Hx as [<-|Hx].
    + assert (elem_valid e) as He by (apply (Hv (NElem e)); now left).
      apply valid_set_children; [easy|]. apply IH1. now apply elem_valid_inv in He.
    + apply IH2; [|easy]. intros y Hy. apply Hv. now right.
Qed.
Lemma descendants_valid : forall e, elem_valid e -> forall n, In n (descendants e) -> node_valid n.
Proof.
  induction e as [e IH] using elem_ind'. intros He n Hn. rewrite descendants_eq in Hn.
  apply in_flat_map in Hn as (x & Hx & Hn). apply elem_valid_inv in He as (_ & _ & _ & _ & Hc).
  destruct Hn as [<-|Hn]; [now apply Hc|]. destruct x as [c|s|s|s]; try easy.
  apply (IH c Hx); [now apply (Hc (NElem c))|easy].
Qed.
Lemma splice_valid e a n n' b : elem_valid e -> children e = a ++ [n] ++ b -> node_valid n' ->
  elem_valid (set_children e (a ++ [n'] ++ b)).
Proof.
  intros He E Hn. apply valid_set_children; [easy|]. apply elem_valid_inv in He as (_ & _ & _ & _ & Hc).
  unfold children in E. rewrite E in Hc. intros x Hx. apply in_app_or in Hx as [Hx|[<-|Hx]]; try easy.
  - apply Hc, in_or_app. now left.
  - apply Hc, in_or_app. right. now right.
Qed.
Lemma element_new_valid nm text attrs xmlns prefix ch e :
  (forall l n, ch = Some l -> In n l -> node_valid n) ->
  element_new nm text attrs xmlns prefix ch = Ok e -> elem_valid e.
Proof.
  intros Hch H. assert (exists e, element_new nm text attrs xmlns prefix ch = Ok e) as He by eauto.
  apply element_new_ok in He as [H1 H2]. rewrite element_new_eq in H by easy. injection H as <-.
  apply elem_valid_intro; cbn [set_children e_name e_attributes e_context e_children].
  - easy.
  - intros k v Hi. assert (In k (akeys (match attrs with Some m => m | None => [] end))) as Hk.
    { apply (in_map fst) in Hi. cbn [fst] in Hi. apply fold_aset_keys in Hi as [[]|Hi]. exact Hi. }
    destruct attrs as [m|]; [|easy]. apply in_map_iff in Hk as ([k' v'] & <- & Hk). now apply (H2 m k' v').
  - apply fold_aset_ok. constructor.
  - apply context_ok.
  - apply clean_valid, in_app_valid.
    + apply clean_valid. intros n Hn. destruct text; [|easy]. destruct Hn as [<-|[]]. easy.
    + apply map_inherited_valid. intros n Hn. destruct ch as [l|]; [|easy]. eauto.
Qed.
Lemma default_valid : elem_valid default_elem.
Proof.
  apply elem_valid_intro; try easy; try constructor.
  exists 120%N, []. split; [reflexivity|]. split; [lia|constructor].
Qed.
Lemma guard_fold_valid p old s {A} (r : outcome unit) (x : A) :
  ~ substring p old -> ~ substring p (snd (if contains p s then (r, old) else (Ok tt, s))).
Proof.
  intro H. destruct (contains p s) eqn:E; cbn [snd]; [easy|]. now apply contains_false.
Qed.
Lemma comment_set_valid c s : ~ substring (lit "-->") c -> ~ substring (lit "-->") (snd (comment_set_content c s)).
Proof. intro H. now apply (guard_fold_valid (lit "-->") c s (Err (InvalidContent (lit "Comments cannot contain '-->'"))) tt). Qed.
Lemma cdata_set_valid c s : ~ substring (lit "]]>") c -> ~ substring (lit "]]>") (snd (cdata_set_text c s)).
Proof. intro H. now apply (guard_fold_valid (lit "]]>") c s (Err (InvalidContent (lit "CDATA cannot contain ']]>'"))) tt). Qed.
Lemma new_valid_guard p s c m : (if contains p s then Err (InvalidContent m) else Ok s) = Ok c -> ~ substring p c.
Proof. destruct (contains p s) eqn:E; [discriminate|]. intro H. injection H as <-. now apply contains_false. Qed.
Lemma from_valid_guard p s c m : expect (if contains p s then Err (InvalidContent m) else Ok s) = Ok c -> ~ substring p c.
Proof. destruct (contains p s) eqn:E; [discriminate|]. intro H. injection H as <-. now apply contains_false. Qed.

Lemma remove_ok e i n e' : remove e i = Ok (n, e') ->
  exists a b, children e = a ++ [n] ++ b /\ e' = set_children e (a ++ b).
Proof.
  intro H. destruct (le_lt_dec (List.length (children e)) i) as [L|L].
  - rewrite remove_out_of_bounds in H by easy. discriminate.
  - destruct (nth_error (children e) i) as [x|] eqn:E.
    2: { apply nth_error_None in E. lia. }
    apply nth_error_split in E as (a & b & Ea & <-).
    change (a ++ x :: b) with (a ++ [x] ++ b) in Ea.
    rewrite (remove_eq e a x b) in H by exact Ea. injection H as <- <-. eauto.
Qed.
Lemma remove_element_ok e i c e' : remove_element e i = Ok (c, e') ->
  exists a b, children e = a ++ [NElem c] ++ b /\ e' = set_children e (a ++ b).
Proof.
  intro H. destruct (nth_error (child_elements e) i) as [d|] eqn:E.
  - destruct (remove_element_spec e i d E) as (e2 & a & b & E2 & Ho & H1 & H2 & _).
    rewrite E2 in H. injection H as <- <-. exists a, b. split; [easy|].
    destruct e2 as [nm ch at_ ns px cx]. unfold only_children_change, children in Ho, H2. cbn in Ho, H2.
    destruct Ho as (-> & -> & -> & -> & ->). now rewrite H2.
  - apply nth_error_None in E. rewrite remove_element_out_of_bounds in H by easy. discriminate.
Qed.
Lemma cut_valid e a n b : elem_valid e -> children e = a ++ [n] ++ b ->
  elem_valid (set_children e (a ++ b)) /\ node_valid n.
Proof.
  intros He E. pose proof He as Hv. apply elem_valid_inv in Hv as (_ & _ & _ & _ & Hc).
  unfold children in E. rewrite E in Hc. split.
  - apply valid_set_children; [easy|]. intros x Hx. apply in_app_or in Hx as [Hx|Hx].
    + apply Hc, in_or_app. now left.
    + apply Hc, in_or_app. right. now right.
  - apply Hc, in_or_app. right. now left.
Qed.
Lemma filter_children_valid e p : elem_valid e -> elem_valid (set_children e (filter p (e_children e))).
Proof.
  intro He. apply valid_set_children; [easy|]. apply elem_valid_inv in He as (_ & _ & _ & _ & Hc).
  intros n Hn. apply filter_In in Hn as [Hn _]. auto.
Qed.
Lemma attr_op_valid e op : elem_valid e -> elem_valid (do_attr_op e op).
Proof.
  intro He. apply elem_valid_inv in He as (H1 & H2 & H3 & H4 & H5).
  destruct op as [k v|k|]; cbn [do_attr_op].
  - destruct (valid_name_dec k) as [Hk|Hk].
    + rewrite set_attr_ok by easy. cbn [snd]. apply elem_valid_intro; cbn [set_attributes e_name e_attributes e_context e_children]; try easy.
      * intros k' v' Hi. apply (in_map fst) in Hi. cbn [fst] in Hi. apply akeys_aset in Hi as [->|Hi]; [easy|].
        apply in_map_iff in Hi as ([k2 v2] & <- & Hi). now apply (H2 k2 v2).
      * now apply nodup_aset.
    + rewrite set_attr_bad by easy. now apply elem_valid_intro.
  - cbn [remove_attr snd]. apply elem_valid_intro; cbn [set_attributes e_name e_attributes e_context e_children]; try easy.
    + intros k' v' Hi. apply (in_map fst) in Hi. cbn [fst] in Hi. apply akeys_adel in Hi.
      apply in_map_iff in Hi as ([k2 v2] & <- & Hi). now apply (H2 k2 v2).
    + now apply nodup_adel.
  - apply elem_valid_intro; cbn [clear_attributes set_attributes e_name e_attributes e_context e_children]; try easy. constructor.
Qed.

Theorem built_valid :
  (forall e, built e -> elem_valid e) /\ (forall n, built_node n -> node_valid n) /\
  (forall e e', call e e' -> elem_valid e -> elem_valid e').
Proof.
  apply built_ind3.
  - intros nm text attrs xmlns prefix ch e _ Hch H. eapply element_new_valid; eauto.
  - intros nm e H. rewrite new_from_name_new in H. eapply element_new_valid; [|exact H]. intros l n E; discriminate E.
  - apply default_valid.
  - intros e _ H. now rewrite clone_id.
  - intros e e' _ H _ IH. auto.
  - intros e i n e' _ H E c ->. apply remove_ok in E as (a & b & E & _).
    now apply (cut_valid e a (NElem c) b) in E.
  - intros e i c e' _ H E. apply remove_element_ok in E as (a & b & E & _).
    now apply (cut_valid e a (NElem c) b) in E.
  - intros e c _ H Hc. rewrite clone_id. exact (descendants_valid e H (NElem c) Hc).
  - easy.
  - easy.
  - intros s c H. now apply new_valid_guard in H.
  - intros s c H. now apply from_valid_guard in H.
  - intros c s _ H. now apply comment_set_valid.
  - intros s c H. now apply new_valid_guard in H.
  - intros s c H. now apply from_valid_guard in H.
  - intros c s _ H. now apply cdata_set_valid.
  - intros e i n e' _ H E. apply remove_ok in E as (a & b & E & _). now apply (cut_valid e a n b) in E.
  - intros n _ H. now rewrite clone_node_id.
  - intros e n _ H Hn. rewrite clone_node_id. now apply (descendants_valid e).
  - intros e op H. now apply attr_op_valid.
  - intros e n e' _ Hn E He. rewrite append_eq in E. injection E as <-. apply valid_set_children; [easy|].
    apply clean_valid, in_app_valid; [now apply elem_valid_inv in He|].
    intros x [<-|[]]. now apply inherited_valid.
  - intros e l e' _ Hl E He. rewrite append_all_eq in E. injection E as <-. apply valid_set_children; [easy|].
    apply clean_valid, in_app_valid; [now apply elem_valid_inv in He|]. now apply map_inherited_valid.
  - intros e i n e' _ Hn E He. destruct (le_lt_dec i (List.length (children e))) as [L|L].
    2: { rewrite insert_out_of_bounds in E by easy. discriminate. }
    assert (forall x, In x (firstn i (children e) ++ [n] ++ skipn i (children e)) -> node_valid x) as Hv.
    { apply elem_valid_inv in He as (_ & _ & _ & _ & Hc). unfold children.
      intros x Hx. apply in_app_or in Hx as [Hx|[<-|Hx]]; [|easy|]; apply Hc.
      - rewrite <- (firstn_skipn i). apply in_or_app. now left.
      - rewrite <- (firstn_skipn i). apply in_or_app. now right. }
    destruct (exists_last_or (firstn i (children e) ++ [n] ++ skipn i (children e))) as [F|(front & last & F)].
    { now destruct (firstn i (children e)). }
    assert (insert e i n = Ok (set_children e (clean (front ++ [inherited e last])))) as E2.
    { assert (i = List.length (firstn i (e_children e))) as Hi by (unfold children in L; rewrite firstn_length; lia).
      rewrite Hi at 1. apply insert_eq with (b := skipn i (e_children e)); [|exact F].
      now rewrite firstn_skipn. }
    rewrite E2 in E. injection E as <-. rewrite F in Hv. apply valid_set_children; [easy|].
    apply clean_valid, in_app_valid.
    + intros x Hx. apply Hv, in_or_app. now left.
    + intros x [<-|[]]. apply inherited_valid, Hv, in_or_app. right. now left.
  - intros e t e' E He. rewrite set_text_eq in E. injection E as <-. apply valid_set_children; [easy|].
    intros x Hx. destruct (text_is_whitespace t); [easy|]. destruct Hx as [<-|[]]. easy.
  - intros e He. now apply valid_set_children.
  - intros e i n e' E He. apply remove_ok in E as (a & b & E & ->). now apply (cut_valid e a n b).
  - intros e p e' k E He. rewrite remove_by_eq in E. injection E as <- _. now apply filter_children_valid.
  - intros e p e' k E He. destruct (remove_all_pruned p e) as (l' & k' & E' & Hp). rewrite E' in E.
    injection E as <- _. apply valid_set_children; [easy|]. eapply pruned_valid; [exact Hp|]. now apply elem_valid_inv in He.
  - intros e i c e' E He. apply remove_element_ok in E as (a & b & E & ->). now apply (cut_valid e a (NElem c) b).
  - intros e p e' k E He. rewrite remove_elements_eq in E. injection E as <- _. now apply filter_children_valid.
  - intros e nm e' k E He. unfold remove_elements_by_name in E. rewrite remove_elements_eq in E. injection E as <- _. now apply filter_children_valid.
  - intros e p e' k E He. rewrite remove_all_elements_eq in E.
    destruct (remove_all_pruned (elem_pred p) e) as (l' & k' & E' & Hp). first [rewrite E' in E | change (remove_all (elem_pred p) e = Ok (e', k)) in E; rewrite E' in E].
    injection E as <- _. apply valid_set_children; [easy|]. eapply pruned_valid; [exact Hp|]. now apply elem_valid_inv in He.
  - intros e a c c' b E _ IH He. eapply splice_valid; [exact He|exact E|]. cbn [node_valid]. apply IH.
    now apply (cut_valid e a (NElem c) b) in E.
  - intros e a n n' b E _ Hn He. eapply splice_valid; eauto.
  - intros e a c s b E He. eapply splice_valid; [exact He|exact E|]. cbn [node_valid]. apply comment_set_valid.
    now apply (cut_valid e a (NComment c) b) in E.
  - intros e a c s b E He. eapply splice_valid; [exact He|exact E|]. cbn [node_valid]. apply cdata_set_valid.
    now apply (cut_valid e a (NCData c) b) in E.
Qed.

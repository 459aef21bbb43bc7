(** Proofs for SpecConf.v: start tags with their attributes. *)
From Coq Require Import List NArith Arith Bool Ascii String Lia.
From Verif Require Import Base BaseFacts Escape Dom Spec EscapeFacts SpecDom DomFacts SpecLex SpecParse LexFacts ParseFacts DocFacts
  SpecEsc UnescFacts SpecDoc PrintFacts PrintDoc TripFacts SpecErr ReadFacts SpecMean MeanFacts CycleDoc SpecXml XmlFacts SpecConf ConfText ConfLex.
Import ListNotations.

(** * Words *)

Lemma xattr_shape a : attribute_ok a -> easy_name (at_name a) -> attr_shape any_str (xattr a).
Proof.
  intros (H1 & H2 & (p & n & Q) & H3 & H4 & H5 & H6) E. split; [easy|]. split; [now apply spaces_ws|].
  split; [apply easy_plain; [now apply qname_name in Q|easy]|]. split; [now apply spaces_ws|]. split; [now apply spaces_ws|].
  split; [easy|]. split; [now apply value_quote|easy].
Qed.
Lemma xattrs_shape l : Forall attribute_ok l -> Forall (fun a => easy_name (at_name a)) l -> Forall (attr_shape any_str) (map xattr l).
Proof.
  intros H E. rewrite Forall_forall in *. intros x I. apply in_map_iff in I. destruct I as (a & <- & I). apply xattr_shape; auto.
Qed.
Definition kv_text (a : attribute) : str := at_name a ++ lit "=" ++ [at_quote a] ++ pieces_text (at_value a) ++ [at_quote a].
Lemma start_parts nm attrs w e : is_name nm -> ~ In 5760%N nm -> Forall attribute_ok attrs -> Forall (fun a => easy_name (at_name a)) attrs ->
  spaces w -> e = lit ">" \/ e = lit "/>" -> tag_parts (start_text nm attrs w e) nm (map kv_text attrs).
Proof.
  intros Hn N Ha E Hw He.
  assert (exists o, (o = [] \/ o = lit "/") /\ e = o ++ lit ">") as (o & Ho & ->).
  { destruct He as [-> | ->]; [exists []|exists (lit "/")]; (split; [tauto|easy]). }
  pose proof (head_parts nm (map xattr attrs) w o (is_name_xml _ Hn N) (xattrs_shape _ Ha E) (spaces_ws _ Hw) Ho) as P.
  unfold head_print in P. rewrite xattrs_print, map_map, <- !app_assoc in P. exact P.
Qed.
Lemma name_no_eq s : is_name s -> ~ In 61%N s.
Proof.
  intros (c & r & -> & H & Hr) I.
  assert (K : name_next 61%N). { destruct I as [->|I]; [now left|]. rewrite Forall_forall in Hr. now apply Hr. }
  unfold name_next, name_first, in_ranges in K.
  destruct K as [K|K]; rewrite Exists_exists in K; destruct K as ([u v] & J & L); cbn [fst snd] in L; cbn in J;
    repeat (destruct J as [E|J]; [injection E as <- <-; lia|]); destruct J.
Qed.
Lemma kv_reads a k v : attribute_ok a -> attr_reads (kv_text a) (k, v) <-> k = at_name a /\ unescapes (pieces_text (at_value a)) (Some v).
Proof.
  intros (_ & _ & (p & n & Q) & _ & _ & Hq & _). apply qname_name in Q. pose proof (name_no_eq _ Q) as N. split.
  - intros (v' & u & E & Hk & Hv & U). cbn [fst snd] in *. unfold kv_text in E. apply split_eq in E; [|easy..]. destruct E as [E1 E2]. split; [easy|].
    assert (in_quotes v' (pieces_text (at_value a))) as Hv' by (rewrite <- E2; exists (at_quote a); split; [now destruct Hq as [-> | ->]|easy]).
    now rewrite (in_quotes_fun _ _ _ Hv' Hv).
  - intros [-> U]. exists ([at_quote a] ++ pieces_text (at_value a) ++ [at_quote a]), (pieces_text (at_value a)). cbn [fst snd].
    split; [easy|]. split; [easy|]. split; [|easy]. exists (at_quote a). split; [now destruct Hq as [-> | ->]|easy].
Qed.
Lemma valid_easy s : is_name s -> valid_name s <-> easy_name s.
Proof.
  intro Hn. split.
  - intros (c & r & -> & Hc & Hr). split.
    + intros [->|I]; [lia|]. rewrite Forall_forall in Hr. apply Hr in I. discriminate I.
    + exists c, r. split; [easy|]. unfold in_ranges. rewrite Exists_exists. destruct Hc as [-> |[Hc|Hc]].
      * exists (95, 95)%N. cbn. split; [tauto|lia].
      * exists (65, 90)%N. cbn. split; [tauto|lia].
      * exists (97, 122)%N. cbn. split; [tauto|lia].
  - intro E. now apply plain_valid, easy_plain.
Qed.

(** * Fair tags are read as written *)

Lemma qname_no_1680 nm p n : qname nm p n -> easy_name n -> (forall q, p = Some q -> ~ In 5760%N q) -> ~ In 5760%N nm.
Proof.
  intros Q [E _] H. destruct Q as [n Hn|q n Hq Hn]; [easy|]. intro I. apply in_app_or in I. destruct I as [I|I]; [now apply (H q)|].
  apply in_app_or in I. destruct I as [[I|[]]|I]; [discriminate I|easy].
Qed.
Lemma qname_local nm p n : qname nm p n -> local_part nm n.
Proof. intros [n' [Hn Hc]|p' n' [Hp Hc] [Hn _]]; [now left|right; now exists p']. Qed.
Lemma fair_start nm p n attrs w e : qname nm p n -> easy_name n -> (forall q, p = Some q -> ~ In 5760%N q) ->
  Forall attribute_ok attrs -> Forall fair_attribute attrs -> spaces w -> e = lit ">" \/ e = lit "/>" ->
  start_tag (start_text nm attrs w e) nm (written_attributes attrs) /\
  forall P : Prop, (P -> forall q, p = Some q -> In (lit "xmlns:" ++ q) (map at_name attrs)) -> element_reads P (start_text nm attrs w e) nm.
Proof.
  intros Q E H Ha Hf Hw He. pose proof (qname_name _ _ _ Q) as Hn.
  assert (Forall (fun a => easy_name (at_name a)) attrs) as Hk by (eapply Forall_impl; [|exact Hf]; now intros a [K _]).
  pose proof (start_parts nm attrs w e Hn (qname_no_1680 _ _ _ Q E H) Ha Hk Hw He) as P.
  assert (F : Forall2 attr_reads (map kv_text attrs) (written_attributes attrs)).
  { clear P. induction attrs as [|a attrs IH]; [constructor|]. inversion Ha; inversion Hf; inversion Hk; subst. cbn [map written_attributes].
    constructor; [|now apply IH]. apply kv_reads; [easy|]. split; [easy|].
    match goal with K : attribute_ok a |- _ => destruct K as (_ & _ & _ & _ & _ & _ & V) end.
    apply value_exact; [now apply good_value in V|]. match goal with K : fair_attribute a |- _ => now destruct K end. }
  destruct (start_not_special nm attrs w e Hn) as (B1 & B2 & _).
  split; [split; [easy|]; split; [easy|]; now exists (map kv_text attrs)|].
  intros Out HO. exists (map kv_text attrs), (written_attributes attrs), n. split; [easy|]. split; [easy|]. split; [|split; [|split]].
  - intros O q nm' En Hq. unfold written_attributes. rewrite map_map. cbn [fst]. apply (HO O). destruct Q as [n [_ Hc]|q' n [_ Hc] [_ _]].
    + exfalso. apply Hc. rewrite En. apply in_or_app. right. now left.
    + apply split_colon in En; [|easy|easy]. now destruct En as [-> _].
  - now apply qname_local in Q.
  - destruct Q as [n [N1 _]|q n _ [N1 _]]; now apply valid_easy.
  - apply Forall_forall. intros x I. unfold written_attributes in I. apply in_map_iff in I. destruct I as (a & <- & I). cbn [fst].
    rewrite Forall_forall in *. apply valid_easy; [|now apply Hk]. destruct (Ha a I) as (_ & _ & (p' & n' & Q') & _). now apply qname_name in Q'.
Qed.

(** * Tags read as XML says are fair *)

Lemma labelled_get n l e k v : labelled n l e -> NoDup (map fst l) -> get_attr e k = Some v <-> In (k, v) l.
Proof.
  intros (_ & N & H) D. unfold get_attr. split.
  - intro G. apply aget_in in G. apply H in G. destruct G as (a & b & -> & _). apply in_or_app. right. now left.
  - intro I. apply in_aget; [easy|]. apply H. apply in_split in I. destruct I as (a & b & ->). exists a, b. split; [easy|].
    rewrite map_app in D. cbn [map fst] in D. apply NoDup_remove_2 in D. intro K. apply D. apply in_or_app. now right.
Qed.
Lemma parts_join n p x : parts_of_name n p x -> n = match p with None => x | Some q => q ++ lit ":" ++ x end.
Proof. now intros [|]. Qed.
Lemma qname_join n p x : qname n p x -> n = match p with None => x | Some q => q ++ lit ":" ++ x end.
Proof. now intros [|]. Qed.
Lemma normalized_name D nm a : at_name (normalized D nm a) = at_name a.
Proof. unfold normalized. destruct (attdef_of D nm (at_name a)) as [d|]; [|easy]. now destruct (tokenized (ad_type d)). Qed.
Lemma words_first b n l : SpecParse.words b (n :: l) -> solid None n.
Proof. intro W. inversion W; easy. Qed.
Lemma name_ws_free s : is_name s -> solid None s -> ~ In 5760%N s.
Proof.
  intros Hn S I. unfold solid in S. rewrite (proj2 (calm_unquoted _ (name_calm _ Hn))) in S. rewrite Forall_forall in S. apply S in I. discriminate I.
Qed.
Lemma forall2_kv attrs l : Forall attribute_ok attrs -> Forall2 attr_reads (map kv_text attrs) l ->
  map fst l = map at_name attrs /\ forall a, In a attrs -> exists v, In (at_name a, v) l /\ unescapes (pieces_text (at_value a)) (Some v).
Proof.
  intros O. revert l. induction O as [|a attrs Oa O IH]; intros l F; cbn [map] in F.
  - inversion F; subst. split; [easy|]. intros a [].
  - inversion F as [|x [k v] ? l' R F']; subst. destruct (IH _ F') as [E K]. apply kv_reads in R; [|easy]. destruct R as [-> U].
    cbn [map fst]. split; [now rewrite E|]. intros b [<-|I].
    + exists v. split; [now left|easy].
    + destruct (K b I) as (v' & Iv & U'). exists v'. split; [now right|easy].
Qed.
Lemma nodup_value {A B} (l : list (A * B)) k v v' : NoDup (map fst l) -> In (k, v) l -> In (k, v') l -> v = v'.
Proof.
  induction l as [|[k0 v0] l IH]; intros N I I'; [easy|]. cbn [map fst] in N. inversion N as [|? ? N1 N2]; subst.
  destruct I as [E|I], I' as [E'|I'].
  - congruence.
  - injection E as -> ->. exfalso. apply N1. apply (in_map fst) in I'. exact I'.
  - injection E' as -> ->. exfalso. apply N1. apply (in_map fst) in I. exact I.
  - auto.
Qed.
Lemma told_start D sc nm attrs w e' n n0 l e : is_qname nm -> attributes_ok attrs -> spaces w -> e' = lit ">" \/ e' = lit "/>" ->
  start_tag (start_text nm attrs w e') n l -> element_reads False (start_text nm attrs w e') n0 -> labelled n l e ->
  tag_says sc nm (complete_attributes D nm attrs) e ->
  n = nm /\ l = written_attributes attrs /\ complete_attributes D nm attrs = attrs /\ Forall fair_attribute attrs /\ easy_name (e_name e) /\
  forall q, e_prefix e = Some q -> ~ In 5760%N q.
Proof.
  intros Hn (Ha & Nd & _) Hw He (B1 & B2 & kvs & P & F) (kvs0 & l0 & x & P0 & F0 & _ & L & Vn & Vl) Lab (Q & _ & G).
  destruct (tag_parts_fun _ _ _ _ _ P P0) as [<- <-]. rewrite <- (reads_all_fun _ _ F _ F0) in *. clear P0 F0 l0.
  pose proof Lab as (Pn & Ne & La).
  assert (n = nm) as -> by (apply parts_join in Pn; apply qname_join in Q; congruence). split; [easy|].
  pose proof (qname_name _ _ _ Q) as In1.
  assert (x = e_name e) as -> by (apply qname_local in Q; now apply local_part_fun with nm).
  assert (En : easy_name (e_name e)). { apply valid_easy; [|easy]. clear - Q. destruct Q as [y [N _]|q y _ [N _]]; easy. }
  assert (N1680 : ~ In 5760%N nm). { apply name_ws_free; [easy|]. destruct P as (comps & (b & o & _ & W & _) & _). now apply words_first in W. }
  assert (Hq : forall q, e_prefix e = Some q -> ~ In 5760%N q).
  { intros q Eq I. apply N1680. apply qname_join in Q. rewrite Eq in Q. rewrite Q. apply in_or_app. now left. }
  assert (Told : forall a, In a attrs -> get_attr e (at_name a) = Some (value_said (at_value (normalized D nm a)))).
  { intros a I. apply G. exists (normalized D nm a). split; [|split; [apply normalized_name|easy]].
    unfold complete_attributes. apply in_map, in_or_app. now left. }
  assert (Ke : Forall (fun a => easy_name (at_name a)) attrs).
  { apply Forall_forall. intros a I. rewrite Forall_forall in Ha. destruct (Ha a I) as (_ & _ & (p' & n' & Q') & _). apply qname_name in Q'.
    apply valid_easy; [easy|]. pose proof (Told a I) as T. unfold get_attr in T. apply aget_in in T. apply La in T.
    destruct T as (l1 & l2 & -> & _). rewrite Forall_forall in Vl. apply (Vl (at_name a, value_said (at_value (normalized D nm a)))). apply in_or_app. right. now left. }
  pose proof (start_parts nm attrs w e' In1 N1680 Ha Ke Hw He) as P'. destruct (tag_parts_fun _ _ _ _ _ P P') as [_ ->].
  destruct (forall2_kv _ _ Ha F) as [Ek Kv].
  assert (Nl : NoDup (map fst l)) by now rewrite Ek.
  assert (Fair : forall a, In a attrs -> normalized D nm a = a /\ fair_value (at_value a)).
  { intros a I. destruct (Kv a I) as (v & Iv & U). pose proof (Told a I) as T. apply (labelled_get _ _ _ _ _ Lab Nl) in T.
    pose proof (nodup_value _ _ _ _ Nl Iv T) as ->. rewrite Forall_forall in Ha. destruct (Ha a I) as (_ & _ & _ & _ & _ & _ & V). apply good_value in V.
    unfold normalized in U |- *. destruct (attdef_of D nm (at_name a)) as [d|]; [|split; [easy|now apply value_exact]].
    destruct (tokenized (ad_type d)); [|split; [easy|now apply value_exact]]. cbn [at_value] in U.
    destruct (value_tokens _ V U) as [-> W]. split; [now destruct a|easy]. }
  split.
  { clear - F Ha Fair. revert l F. induction Ha as [|a attrs Oa O IH]; intros l F; cbn [map] in F; inversion F as [|y [k v] ? l' R F']; subst; [easy|].
    cbn [written_attributes map]. f_equal; [|apply IH; [intros b I; apply Fair; now right|easy]].
    apply kv_reads in R; [|easy]. destruct R as [-> U]. destruct (Fair a (or_introl eq_refl)) as [_ W].
    destruct Oa as (_ & _ & _ & _ & _ & _ & V). apply good_value in V. apply value_exact in W; [|easy].
    pose proof (unescapes_fun _ _ _ U W) as E. injection E as ->. easy. }
  split; [|split; [|now split]].
  - assert (defaults D nm attrs = []) as Ed.
    { destruct (defaults D nm attrs) as [|d ds] eqn:Ed; [easy|]. exfalso.
      assert (In d (defaults D nm attrs)) as I by (rewrite Ed; now left).
      assert (get_attr e (at_name d) = Some (value_said (at_value (normalized D nm d)))) as T.
      { apply G. exists (normalized D nm d). split; [|split; [apply normalized_name|easy]]. unfold complete_attributes. apply in_map, in_or_app. now right. }
      apply (labelled_get _ _ _ _ _ Lab Nl) in T. apply (in_map fst) in T. cbn [fst] in T. rewrite Ek in T.
      unfold defaults in I. apply in_flat_map in I. destruct I as (y & _ & I). destruct (ad_default (snd y)) as [| |f q v]; [destruct I..|].
      destruct (str_eqb (fst y) nm && negb (existsb (fun b => str_eqb (at_name b) (ad_name (snd y))) attrs)) eqn:C; [|destruct I].
      destruct I as [<-|[]]. cbn [at_name] in T. apply andb_true_iff in C. destruct C as [_ C]. apply negb_true_iff in C.
      apply in_map_iff in T. destruct T as (b & Eb & Ib). apply not_true_iff_false in C. apply C. apply existsb_exists. exists b. split; [easy|]. now apply str_eqb_eq. }
    unfold complete_attributes. rewrite Ed, app_nil_r. clear - Fair. induction attrs as [|a attrs IH]; [easy|]. cbn [map]. f_equal.
    + apply Fair. now left.
    + apply IH. intros b I. apply Fair. now right.
  - apply Forall_forall. intros a I. rewrite Forall_forall in Ke. split; [now apply Ke|now apply Fair].
Qed.

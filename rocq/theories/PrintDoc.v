(** Written documents are accepted and read as written. *)
From Coq Require Import List NArith Arith Bool Ascii String Lia.
From Verif Require Import Base BaseFacts Escape Dom Spec EscapeFacts SpecDom DomFacts SpecApi ApiFacts
  ParseTree SpecTree ParseTreeFacts Parse SpecLex SpecParse LexFacts ParseFacts DocFacts TagFacts AcceptFacts ParsedFacts
  NsFacts DocProps PosFacts PrologFacts SpecDoc PrintFacts.
Import ListNotations.

(** * Finding comments, CDATA sections, declarations and DTDs *)

(** A three-character end mark that does not overlap itself. *)
Lemma end_mark (x y : char) (a c z : str) : x <> y -> a ++ [x; x; y] ++ z = c ++ [x; x; y] -> z <> [] ->
  substring [x; x; y] c.
Proof.
  intros N E Hz. rewrite app_assoc in E. apply app_eq_app in E. destruct E as (u & [[E1 E2]|[E1 E2]]).
  - assert (u = [] \/ u = [x] \/ u = [x; x]) as [->|[->| ->]].
    { destruct u as [|u1 u]; [now left|]. injection E2 as <- E2. right. destruct u as [|u2 u]; [now left|].
      injection E2 as <- E2. right. destruct u as [|u3 u]; [reflexivity|]. exfalso. injection E2 as _ E2. symmetry in E2.
      apply app_eq_nil in E2. now destruct E2. }
    + rewrite app_nil_r in E1. exists a, []. symmetry. exact E1.
    + exfalso. change (a ++ [x; x; y]) with (a ++ [x; x] ++ [y]) in E1. rewrite app_assoc in E1.
      apply app_inj_tail in E1. destruct E1 as [_ E1]. now symmetry in E1.
    + exfalso. change (a ++ [x; x; y]) with (a ++ [x; x] ++ [y]) in E1. change (c ++ [x; x]) with (c ++ [x] ++ [x]) in E1.
      rewrite !app_assoc in E1. apply app_inj_tail in E1. destruct E1 as [_ E1]. now symmetry in E1.
  - subst c. exists a, u. now rewrite <- app_assoc.
Qed.
(** Proper beginnings. *)
Lemma begins_or (t t' : str) r r' : t ++ r = t' ++ r' -> begins t t' \/ exists z, z <> [] /\ t = t' ++ z.
Proof.
  intro E. apply app_eq_app in E. destruct E as (u & [[-> E]|[-> E]]).
  - destruct u as [|u0 u]; [left; rewrite app_nil_r; apply begins_refl|]. right. now exists (u0 :: u).
  - left. apply begins_app.
Qed.

Lemma comment_at c rest : comment_wf c ->
  tag_at (lit "<!--" ++ c ++ lit "-->" ++ rest) (lit "<!--" ++ c ++ lit "-->") rest.
Proof.
  intros (H1 & H2 & H3). apply ta_comment; [now exists (c ++ lit "-->" ++ rest)|].
  split; [now rewrite <- !app_assoc|]. split; [exists (lit "<!--" ++ c); now rewrite <- app_assoc|].
  intros t' r' E [a ->].
  assert (E' : (lit "<!--" ++ c ++ lit "-->") ++ rest = (a ++ lit "-->") ++ r') by (rewrite <- E, <- !app_assoc; reflexivity).
  apply begins_or in E'. destruct E' as [H|(z & Hz & E')]; [easy|]. exfalso. clear E.
  destruct a as [|a1 a]; [discriminate|]. injection E' as <- E'.
  destruct a as [|a2 a]; [discriminate|]. injection E' as <- E'.
  destruct a as [|a3 a].
  { injection E' as E'. destruct c as [|c0 c]; [discriminate|]. injection E' as -> _. apply H2. now exists c. }
  injection E' as <- E'.
  destruct a as [|a4 a].
  { injection E' as E'. destruct c as [|c0 c]; [discriminate|]. injection E' as -> E'.
    destruct c as [|c1 c]; [discriminate|]. injection E' as -> _. apply H3. now exists c. }
  injection E' as <- E'. apply H1.
  apply (end_mark 45%N 62%N a c z); [easy| |easy]. change (a ++ lit "-->" ++ z = c ++ lit "-->"). rewrite app_assoc. symmetry. exact E'.
Qed.
Lemma cdata_at c rest : cdata_wf c ->
  tag_at (lit "<![CDATA[" ++ c ++ lit "]]>" ++ rest) (lit "<![CDATA[" ++ c ++ lit "]]>") rest.
Proof.
  intro H1. apply ta_cdata; [now exists (c ++ lit "]]>" ++ rest)|].
  split; [now rewrite <- !app_assoc|]. split; [exists (lit "<![CDATA[" ++ c); now rewrite <- app_assoc|].
  intros t' r' E [a ->].
  assert (E' : (lit "<![CDATA[" ++ c ++ lit "]]>") ++ rest = (a ++ lit "]]>") ++ r') by (rewrite <- E, <- !app_assoc; reflexivity).
  apply begins_or in E'. destruct E' as [H|(z & Hz & E')]; [easy|]. exfalso. clear E.
  do 9 (destruct a as [|? a]; [discriminate|]; injection E' as <- E').
  apply H1. apply (end_mark 93%N 62%N a c z); [easy| |easy]. change (a ++ lit "]]>" ++ z = c ++ lit "]]>"). rewrite app_assoc. symmetry. exact E'.
Qed.
Lemma decl_at d rest : decl_wf d -> tag_at (lit "<?" ++ d ++ lit "?>" ++ rest) (lit "<?" ++ d ++ lit "?>") rest.
Proof.
  intros (_ & H1 & H2). apply ta_pi; [now exists (d ++ lit "?>" ++ rest)|].
  split; [now rewrite <- !app_assoc|]. split; [now exists d|].
  intros t' r' E (b & -> & Hb).
  assert (E' : (lit "<?" ++ d ++ lit "?>") ++ rest = (lit "<?" ++ b ++ lit "?>") ++ r') by (rewrite <- E, <- !app_assoc; reflexivity).
  apply begins_or in E'. destruct E' as [H|(z & Hz & E')]; [easy|]. exfalso. clear E.
  rewrite <- app_assoc in E'. apply app_inv_head in E'. rewrite <- app_assoc in E'.
  apply app_eq_app in E'. destruct E' as (u & [[-> E]|[-> E]]).
  - destruct u as [|u1 u].
    { cbn in E. injection E as E. symmetry in E. destruct z; easy. }
    injection E as <- E. destruct u as [|u2 u].
    { injection E as E. discriminate. }
    injection E as <- E. apply (H2 b u); [easy|easy].
  - destruct u as [|u1 u].
    { cbn in E. injection E as E. symmetry in E. destruct z; easy. }
    injection E as <- E. destruct u as [|u2 u]; [discriminate|]. injection E as <- E. destruct u; discriminate.
Qed.
Lemma doctype_quotes d : quotes_closed (lit "DOCTYPE" ++ d) <-> quotes_closed d.
Proof. unfold quotes_closed. rewrite open_quote_app. easy. Qed.
Lemma doctype_angles d : angles_balanced (lit "DOCTYPE" ++ d) <-> angles_balanced d.
Proof. unfold angles_balanced. rewrite !unquoted_app, !count_occ_app. easy. Qed.
Lemma doctype_at d rest : doctype_wf d ->
  tag_at (lit "<!DOCTYPE" ++ d ++ lit ">" ++ rest) (lit "<!DOCTYPE" ++ d ++ lit ">") rest.
Proof.
  intros (H1 & H2 & H3). apply ta_decl; [now exists (lit "DOCTYPE" ++ d ++ lit ">" ++ rest)|intros [r E]; discriminate..|].
  split; [now rewrite <- !app_assoc|]. split.
  { exists (lit "DOCTYPE" ++ d). split; [easy|]. split; [now apply doctype_quotes|now apply doctype_angles]. }
  intros t' r' E (b & -> & Hb1 & Hb2).
  assert (E' : (lit "<!DOCTYPE" ++ d ++ lit ">") ++ rest = (lit "<!" ++ b ++ lit ">") ++ r') by (rewrite <- E, <- !app_assoc; reflexivity).
  apply begins_or in E'. destruct E' as [H|(z & Hz & E')]; [easy|]. exfalso. clear E.
  change (lit "<!DOCTYPE" ++ d ++ lit ">") with (lit "<!" ++ lit "DOCTYPE" ++ d ++ lit ">") in E'.
  rewrite <- app_assoc in E'. apply app_inv_head in E'. rewrite <- app_assoc in E'.
  assert (exists u, b = lit "DOCTYPE" ++ u) as [u ->].
  { apply app_eq_app in E'. destruct E' as (u & [[Eu E]|[-> E]]); [|now exists u].
    destruct u as [|u1 u]; [exists []; now rewrite !app_nil_r in *|]. exfalso.
    injection E as <- E. do 7 (destruct b as [|? b]; [discriminate|]; injection Eu as <- Eu). destruct b; discriminate. }
  rewrite <- app_assoc in E'. apply app_inv_head in E'.
  apply (proj1 (doctype_quotes _)) in Hb1. apply (proj1 (doctype_angles _)) in Hb2.
  apply app_eq_app in E'. destruct E' as (v & [[-> E]|[-> E]]).
  - destruct v as [|v1 v].
    { injection E as E. symmetry in E. destruct z; easy. }
    injection E as <- E. apply (H3 u v); easy.
  - destruct v as [|v1 v]; [injection E as E; symmetry in E; destruct z; easy|]. destruct v; discriminate.
Qed.

(** * Tags *)

Definition open_tag (nm : str) (l : list cattr) (w : str) : str := lit "<" ++ head_print nm l ++ w ++ lit ">".
Definition empty_tag (nm : str) (l : list cattr) (w : str) : str := lit "<" ++ head_print nm l ++ w ++ lit "/>".
Definition close_tag (nm w : str) : str := lit "</" ++ nm ++ w ++ lit ">".

Definition split_name (nm : str) : option str * str :=
  match split_once cColon nm with Some (p, n) => (Some p, n) | None => (None, nm) end.
Lemma split_named nm p n : named nm p n -> split_name nm = (p, n).
Proof.
  intros [m H Hc|q m H Hc Hm]; unfold split_name.
  - now rewrite (proj2 (split_once_none cColon m) Hc).
  - now rewrite (proj2 (split_once_some cColon (q ++ [colon] ++ m) q m) (conj eq_refl Hc)).
Qed.
Definition head_elem (top : option elem) (nm : str) (l : list cattr) : elem :=
  let (p, n) := split_name nm in
  let m := set_all (bindings l) [] in
  adopt_opt top (bare n p m (explicit_ns top m p)).

Fixpoint last_bound (k : str) (l : list (str * str)) : option str :=
  match l with
  | [] => None
  | kv :: l' => match last_bound k l' with
                | Some v => Some v
                | None => if str_eqb (fst kv) k then Some (snd kv) else None
                end
  end.
Lemma set_all_get k : forall l acc, aget k (set_all l acc) =
  match last_bound k l with Some v => Some v | None => aget k acc end.
Proof.
  induction l as [|[k' v] l IH]; intro acc; [easy|]. cbn [set_all fold_left fst snd].
  fold (set_all l (aset k' v acc)). rewrite IH. cbn [last_bound fst snd]. destruct (last_bound k l); [easy|].
  destruct (str_eqb k' k) eqn:E.
  - apply str_eqb_eq in E. subst. apply aget_aset_same.
  - apply aget_aset_other. intros ->. now rewrite str_eqb_refl in E.
Qed.
Lemma last_bound_in k l : last_bound k l <> None <-> In k (map fst l).
Proof.
  induction l as [|[k' v] l IH]; [easy|]. cbn [last_bound map fst snd In]. rewrite <- IH.
  destruct (last_bound k l); [split; [now right|easy]|]. destruct (str_eqb k' k) eqn:E.
  - apply str_eqb_eq in E. split; [now left|easy].
  - split; [easy|]. intros [->|H]; [|easy]. now rewrite str_eqb_refl in E.
Qed.
Lemma set_all_keys l k : In k (map fst (set_all l [])) <-> In k (map fst l).
Proof.
  rewrite <- (last_bound_in k l). change (map fst (set_all l [])) with (akeys (set_all l [])).
  pose proof (aget_none k (set_all l [])) as H. rewrite set_all_get in H. cbn in H.
  destruct (last_bound k l) as [v|].
  - split; [intros _; discriminate|]. intros _. destruct (in_dec str_eq_dec k (akeys (set_all l []))) as [Hi|Hn]; [easy|].
    apply H in Hn. discriminate.
  - split; [|easy]. intro Hi. exfalso. now apply (proj1 H).
Qed.
Lemma bindings_keys l : map fst (bindings l) = map a_key l.
Proof. unfold bindings. now rewrite map_map. Qed.

Lemma head_reads top nm p n l : named nm p n -> Forall attr_wf l ->
  (top = None -> forall q, p = Some q -> In (lit "xmlns:" ++ q) (map a_key l)) ->
  element_of top (head_print nm l) = Ok (head_elem top nm l).
Proof.
  intros Hn Hl Ht. destruct (named_xml _ _ _ Hn) as [Hx Hp]. apply element_of_spec.
  exists nm, (flat_map pieces l), (bindings l), p, n.
  split; [now apply (head_words (R := readable))|]. split; [rewrite (join_attrs (R := readable)) by easy; now apply attrs_read|].
  split; [now apply named_qname|]. split; [now apply plain_valid|]. split.
  { intros k v Hi. apply (in_map fst) in Hi. cbn [fst] in Hi. apply (proj1 (set_all_keys _ _)) in Hi. rewrite bindings_keys in Hi.
    apply in_map_iff in Hi. destruct Hi as (a & <- & Hi). rewrite Forall_forall in Hl. apply Hl in Hi.
    apply plain_valid. now destruct Hi as (_ & _ & Hk & _). }
  split.
  { intros Et q Eq. apply set_all_keys. rewrite bindings_keys. now apply Ht. }
  unfold head_elem. now rewrite (split_named _ _ _ Hn).
Qed.
Lemma head_elem_name top nm p n l : named nm p n -> tag_name (head_elem top nm l) = nm.
Proof.
  intro H. unfold head_elem. rewrite (split_named _ _ _ H), adopt_opt_tag_name.
  change (tag_name_of p n = nm). apply qname_tag. now apply named_qname.
Qed.

Lemma ends_slash_false (a : str) : forall c x, c <> 47%N -> ends (lit "/>") (lit "<" ++ x ++ [c] ++ lit ">") -> False.
Proof.
  intros c x Hc [y E]. rewrite app_assoc in E. change (lit "/>") with (lit "/" ++ lit ">") in E.
  rewrite !app_assoc in E. apply app_inj_tail in E. destruct E as [E _]. apply app_inj_tail in E. now destruct E as [_ ->].
Qed.
Lemma last_of_head {R : str -> Prop} nm l w : xml_name nm -> Forall (attr_shape R) l -> ws w ->
  exists a c, head_print nm l ++ w = a ++ [c] /\ c <> 47%N.
Proof.
  intros H1 H2 H3. destruct (exists_last_or w) as [->|(w' & c & ->)].
  - rewrite app_nil_r. destruct (head_last nm l H1 H2) as (a & c & E & _ & Hc). now exists a, c.
  - exists (head_print nm l ++ w'), c. split; [apply app_assoc|]. apply Forall_app in H3. destruct H3 as [_ H3].
    inversion H3 as [|? ? H _]; subst. now intros ->.
Qed.
Lemma open_not_empty {R : str -> Prop} nm l w : xml_name nm -> Forall (attr_shape R) l -> ws w -> ~ ends (lit "/>") (open_tag nm l w).
Proof.
  intros H1 H2 H3 E. destruct (last_of_head nm l w H1 H2 H3) as (a & c & Eh & Hc). unfold open_tag in E.
  rewrite (app_assoc (head_print nm l)), Eh in E. rewrite <- app_assoc in E. now apply (ends_slash_false [] c a) in E.
Qed.
Lemma head_tag_first nm l r : xml_name nm -> ~ begins (lit "<!") (lit "<" ++ head_print nm l ++ r) /\
  ~ begins (lit "</") (lit "<" ++ head_print nm l ++ r) /\ ~ begins (lit "<?xml") (lit "<" ++ head_print nm l ++ r).
Proof.
  intro H. pose proof (head_first nm l H) as F. destruct (head_print nm l) as [|c h]; [easy|].
  destruct F as (_ & F1 & F2 & F3). repeat split; intros [x E]; injection E as E; now subst.
Qed.
Lemma strip_head {R : str -> Prop} nm l w s2 : xml_name nm -> Forall (attr_shape R) l -> ws w -> s2 = [] \/ s2 = lit "/" ->
  strip_tag (lit "<" ++ head_print nm l ++ w ++ s2 ++ lit ">") = Ok (head_print nm l).
Proof.
  intros H1 H2 H3 H4. apply (strip_printed [] (head_print nm l) w s2); [now left|easy|easy| |now apply (head_last (R := R))].
  pose proof (head_first nm l H1) as F. destruct (head_print nm l); [easy|]. easy.
Qed.
Lemma check_head nm l w s2 : xml_name nm -> attrs_wf l -> ws w -> s2 = [] \/ s2 = lit "/" ->
  check_element_tag (lit "<" ++ head_print nm l ++ w ++ s2 ++ lit ">") = Ok tt.
Proof.
  intros H1 [H2 H2'] H3 H4. unfold head_print. rewrite <- app_assoc.
  apply (check_ok [] nm (flat_map attr_print l) w s2); [now left|easy|now apply (attrs_match (R := readable))|easy|easy].
Qed.

Lemma open_tag_op top nm p n l w : named nm p n -> attrs_wf l -> ws w ->
  (top = None -> forall q, p = Some q -> In (lit "xmlns:" ++ q) (map a_key l)) ->
  tag_op top (open_tag nm l w) (OpPush (head_elem top nm l)).
Proof.
  intros Hn Hl Hw Ht. destruct (named_xml _ _ _ Hn) as [Hx _]. destruct Hl as [Hl1 Hl2].
  destruct (head_tag_first nm l (w ++ lit ">") Hx) as (F1 & F2 & _).
  apply to_open with (head_print nm l); [easy|easy| | | |now apply (open_not_empty (R := readable))].
  - apply (strip_head (R := readable) nm l w []); try easy. now left.
  - apply (check_head nm l w []); try easy. now left.
  - now apply head_reads with p n.
Qed.
Lemma empty_tag_op top nm p n l w : named nm p n -> attrs_wf l -> ws w ->
  (top = None -> forall q, p = Some q -> In (lit "xmlns:" ++ q) (map a_key l)) ->
  tag_op top (empty_tag nm l w) (OpAppend (NElem (head_elem top nm l))).
Proof.
  intros Hn Hl Hw Ht. destruct (named_xml _ _ _ Hn) as [Hx _]. destruct Hl as [Hl1 Hl2].
  destruct (head_tag_first nm l (w ++ lit "/>") Hx) as (F1 & F2 & _).
  apply to_single with (head_print nm l); [easy|easy| | | |].
  - apply (strip_head (R := readable) nm l w (lit "/")); try easy. now right.
  - apply (check_head nm l w (lit "/")); try easy. now right.
  - now apply head_reads with p n.
  - exists (lit "<" ++ head_print nm l ++ w). unfold empty_tag. now rewrite <- !app_assoc.
Qed.
Lemma close_tag_op a w : xml_name (tag_name a) -> ws w -> tag_op (Some a) (close_tag (tag_name a) w) OpPop.
Proof.
  intros Hn Hw. apply to_close with (tag_name a) a; try easy.
  - intros [x E]. discriminate.
  - now exists (tag_name a ++ w ++ lit ">").
  - pose proof (head_first (tag_name a) [] Hn) as F. pose proof (head_last (R := readable) (tag_name a) [] Hn (Forall_nil _)) as G.
    unfold head_print in F, G. cbn [flat_map] in F, G. rewrite app_nil_r in F, G.
    apply (strip_printed (lit "/") (tag_name a) w []); [now right|now left|easy| |easy].
    destruct (tag_name a); [easy|]. easy.
  - apply (check_ok (lit "/") (tag_name a) [] w []); [now right|easy|constructor|easy|now left].
Qed.

(** * Contents *)

Definition rt_text (t : str) : list rtree := if is_blank t then [] else [RT (NText (value t)) []].
Fixpoint rt_item (top : option elem) (i : citem) : rtree :=
  match i with
  | CEmpty nm l _ => RT (NElem (head_elem top nm l)) []
  | CElem nm l _ b _ => RT (NElem (head_elem top nm l)) (rt_body (Some (head_elem top nm l)) b)
  | CComment c => RT (NComment c) []
  | CCData c => RT (NCData c) []
  end
with rt_body (top : option elem) (b : cbody) : list rtree :=
  match b with
  | BEnd t => rt_text t
  | BItem t i b => rt_text t ++ [rt_item top i] ++ rt_body top b
  end.
(** Tokens: the text before each tag, and the tag. *)
Fixpoint toks_item (t : str) (i : citem) : list (str * str) :=
  match i with
  | CEmpty nm l w => [(t, empty_tag nm l w)]
  | CElem nm l w b w' => (t, open_tag nm l w) :: toks_body b (close_tag nm w')
  | CComment c => [(t, lit "<!--" ++ c ++ lit "-->")]
  | CCData c => [(t, lit "<![CDATA[" ++ c ++ lit "]]>")]
  end
with toks_body (b : cbody) (close : str) : list (str * str) :=
  match b with
  | BEnd t => [(t, close)]
  | BItem t i b => toks_item t i ++ toks_body b close
  end.

Lemma feeds_app m a m1 b m2 : feeds m a m1 -> feeds m1 b m2 -> feeds m (a ++ b) m2.
Proof.
  intro F. induction F as [m|m txt t toks ma mb m' X G F IH]; intro H; [easy|].
  cbn. apply fd_cons with ma mb; auto.
Qed.
Definition popped (e : elem) (ks : list rtree) (outer : list (elem * list rtree)) : machine :=
  match outer with
  | [] => MDone e ks
  | (e1, ks1) :: outer' => MOpen e1 (ks1 ++ [RT (NElem e) ks]) outer'
  end.
Lemma text_fed txt e ks outer : text_wf txt -> text_step (MOpen e ks outer) txt (MOpen e (ks ++ rt_text txt) outer).
Proof.
  intros [_ H]. unfold rt_text. destruct (is_blank txt) eqn:B.
  - rewrite app_nil_r. apply ts_none. constructor. now apply is_blank_spec.
  - apply is_blank_false in B. destruct H as [H|[v H]]; [contradiction|]. unfold value. rewrite H.
    apply ts_some with (OpAppend (NText v)); [now constructor|easy].
Qed.
Lemma tag_fed e ks outer t op m : tag_op (Some e) t op -> m_do (MOpen e ks outer) op = Some m ->
  tag_step (MOpen e ks outer) t m.
Proof. intros H1 H2. now apply tg with op. Qed.
Lemma one_fed e ks outer txt t op m : text_wf txt -> tag_op (Some e) t op ->
  m_do (MOpen e (ks ++ rt_text txt) outer) op = Some m -> feeds (MOpen e ks outer) [(txt, t)] m.
Proof.
  intros H1 H2 H3. apply fd_cons with (MOpen e (ks ++ rt_text txt) outer) m; [now apply text_fed|now apply tag_fed with op|constructor].
Qed.
Lemma items_fed :
  (forall i, item_wf i -> forall txt e ks outer, text_wf txt ->
     feeds (MOpen e ks outer) (toks_item txt i) (MOpen e (ks ++ rt_text txt ++ [rt_item (Some e) i]) outer)) /\
  (forall b, body_wf b -> forall e ks outer w, xml_name (tag_name e) -> ws w ->
     feeds (MOpen e ks outer) (toks_body b (close_tag (tag_name e) w)) (popped e (ks ++ rt_body (Some e) b) outer)).
Proof.
  apply citem_ind2.
  - intros nm l w ((p & n & Hn) & Hl & Hw) txt e ks outer Ht. cbn [toks_item rt_item].
    apply one_fed with (OpAppend (NElem (head_elem (Some e) nm l))); [easy|now apply empty_tag_op with p n|].
    cbn. now rewrite <- app_assoc.
  - intros nm l w b IH w' ((p & n & Hn) & Hl & Hw & Hb & Hw') txt e ks outer Ht. cbn [toks_item rt_item].
    set (h := head_elem (Some e) nm l).
    pose proof (head_elem_name (Some e) nm p n l Hn) as En. fold h in En.
    apply (feeds_app _ [(txt, open_tag nm l w)] (MOpen h [] ((e, ks ++ rt_text txt) :: outer))).
    + apply one_fed with (OpPush h); [easy|now apply open_tag_op with p n|reflexivity].
    + assert (xml_name (tag_name h)) as Hx by (rewrite En; now destruct (named_xml _ _ _ Hn)).
      pose proof (IH Hb h [] ((e, ks ++ rt_text txt) :: outer) w' Hx Hw') as F. rewrite En in F. cbn [popped app] in F.
      rewrite <- app_assoc in F. exact F.
  - intros c Hc txt e ks outer Ht. cbn [toks_item rt_item].
    apply one_fed with (OpAppend (NComment c)); [easy|apply to_comment; now destruct Hc|]. cbn. now rewrite <- app_assoc.
  - intros c Hc txt e ks outer Ht. cbn [toks_item rt_item].
    apply one_fed with (OpAppend (NCData c)); [easy|now apply to_cdata|]. cbn. now rewrite <- app_assoc.
  - intros t Ht e ks outer w Hx Hw. cbn [toks_body rt_body].
    apply one_fed with OpPop; [easy|now apply close_tag_op|]. now destruct outer as [|[e1 ks1] outer].
  - intros t i IHi b IHb (Ht & Hi & Hb) e ks outer w Hx Hw. cbn [toks_body rt_body].
    eapply feeds_app; [now apply IHi|]. pose proof (IHb Hb e (ks ++ rt_text t ++ [rt_item (Some e) i]) outer w Hx Hw) as F.
    rewrite <- !app_assoc in F. exact F.
Qed.

Lemma head_at {R : str -> Prop} nm l w s2 rest : xml_name nm -> Forall (attr_shape R) l -> ws w -> s2 = [] \/ s2 = lit "/" ->
  tag_at (lit "<" ++ head_print nm l ++ w ++ s2 ++ lit ">" ++ rest) (lit "<" ++ head_print nm l ++ w ++ s2 ++ lit ">") rest.
Proof.
  intros H1 H2 H3 H4.
  assert (calm (w ++ s2)) as C.
  { apply calm_app; [now apply ws_calm|]. destruct H4 as [->| ->]; [constructor|repeat constructor; discriminate]. }
  destruct (head_quotes nm l (w ++ s2) (xml_name_chars _ H1) H2 C) as [Q1 Q2].
  pose proof (elem_tag_at (head_print nm l ++ w ++ s2) rest Q1 (calm_no_gt _ Q2)) as T. rewrite <- !app_assoc in T. apply T.
  pose proof (head_first nm l H1) as F. destruct (head_print nm l); [easy|]. easy.
Qed.
Lemma close_at nm w rest : xml_name nm -> ws w -> tag_at (close_tag nm w ++ rest) (close_tag nm w) rest.
Proof.
  intros H1 H2. pose proof (elem_tag_at (lit "/" ++ nm ++ w) rest) as T.
  assert (C : calm (lit "/" ++ nm ++ w)).
  { apply calm_app; [repeat constructor; discriminate|]. apply calm_app; [now apply chars_calm, xml_name_chars|now apply ws_calm]. }
  unfold close_tag. rewrite <- !app_assoc in *. apply T; [now apply calm_open|rewrite calm_unquoted by easy; now apply calm_no_gt|].
  easy.
Qed.
Lemma lexed_one txt s t rest : no_tag txt -> tag_at s t rest -> lexed (txt ++ s) [(txt, t)] rest.
Proof. intros H1 H2. apply lx_tag with rest; [easy|easy|constructor]. Qed.
(** What the tags are, whether or not texts and values can be decoded. *)
Definition any_str (_ : str) : Prop := True.
Fixpoint item_shape (i : citem) : Prop :=
  match i with
  | CEmpty nm attrs w => (exists p n, named nm p n) /\ Forall (attr_shape any_str) attrs /\ ws w
  | CElem nm attrs w body w' =>
      (exists p n, named nm p n) /\ Forall (attr_shape any_str) attrs /\ ws w /\ body_shape body /\ ws w'
  | CComment c => comment_wf c
  | CCData c => cdata_wf c
  end
with body_shape (b : cbody) : Prop :=
  match b with
  | BEnd txt => no_tag txt
  | BItem txt i b => no_tag txt /\ item_shape i /\ body_shape b
  end.
Lemma attrs_shape l : Forall attr_wf l -> Forall (attr_shape any_str) l.
Proof. intro H. eapply Forall_impl; [|exact H]. intros a (H1 & H2 & H3 & H4 & H5 & H6 & H7 & _). now repeat (split; [easy|]). Qed.
Lemma wf_shapes : (forall i, item_wf i -> item_shape i) /\ (forall b, body_wf b -> body_shape b).
Proof.
  apply citem_ind2; cbn [item_wf body_wf item_shape body_shape].
  - intros nm l w (H1 & [H2 _] & H3). split; [easy|]. split; [now apply attrs_shape|easy].
  - intros nm l w b IH w' (H1 & [H2 _] & H3 & H4 & H5). split; [easy|]. split; [now apply attrs_shape|]. split; [easy|]. split; [now apply IH|easy].
  - easy.
  - easy.
  - now intros t [H _].
  - intros t i IHi b IHb ([H _] & Hi & Hb). split; [easy|]. split; [now apply IHi|now apply IHb].
Qed.
Lemma shapes_lexed :
  (forall i, item_shape i -> forall txt rest, no_tag txt -> lexed (txt ++ item_print i ++ rest) (toks_item txt i) rest) /\
  (forall b, body_shape b -> forall nm w rest, xml_name nm -> ws w ->
     lexed (body_print b ++ close_tag nm w ++ rest) (toks_body b (close_tag nm w)) rest).
Proof.
  apply citem_ind2.
  - intros nm l w ((p & n & Hn) & Hl & Hw) txt rest Ht. cbn [toks_item item_print].
    apply lexed_one; [easy|]. destruct (named_xml _ _ _ Hn) as [Hx _].
    pose proof (head_at nm l w (lit "/") rest Hx Hl Hw (or_intror eq_refl)) as T. unfold empty_tag.
    rewrite <- !app_assoc. exact T.
  - intros nm l w b IH w' ((p & n & Hn) & Hl & Hw & Hb & Hw') txt rest Ht. cbn [toks_item item_print].
    destruct (named_xml _ _ _ Hn) as [Hx _].
    apply lx_tag with (body_print b ++ close_tag nm w' ++ rest); [easy| |now apply IH].
    pose proof (head_at nm l w [] (body_print b ++ close_tag nm w' ++ rest) Hx Hl Hw (or_introl eq_refl)) as T.
    unfold open_tag, close_tag in *. rewrite <- !app_assoc in *. exact T.
  - intros c Hc txt rest Ht. cbn [toks_item item_print]. apply lexed_one; [easy|]. rewrite <- !app_assoc. now apply comment_at.
  - intros c Hc txt rest Ht. cbn [toks_item item_print]. apply lexed_one; [easy|]. rewrite <- !app_assoc. now apply cdata_at.
  - intros t Ht nm w rest Hx Hw. cbn [toks_body body_print]. apply lexed_one; [easy|]. now apply close_at.
  - intros t i IHi b IHb (Ht & Hi & Hb) nm w rest Hx Hw. cbn [toks_body body_print]. rewrite <- !app_assoc.
    eapply lexed_app; [apply IHi; easy|]. now apply IHb.
Qed.
Lemma items_lexed :
  (forall i, item_wf i -> forall txt rest, no_tag txt -> lexed (txt ++ item_print i ++ rest) (toks_item txt i) rest) /\
  (forall b, body_wf b -> forall nm w rest, xml_name nm -> ws w ->
     lexed (body_print b ++ close_tag nm w ++ rest) (toks_body b (close_tag nm w)) rest).
Proof.
  split; [intros i Hi; apply shapes_lexed; now apply wf_shapes|intros b Hb; apply shapes_lexed; now apply wf_shapes].
Qed.

(** * The document *)

Lemma shortened t : shortenable t -> exists a, abbreviate t 32 = Ok a.
Proof.
  intro H. pose proof (abbreviate_panics t) as P. destruct (abbreviate t 32) as [a|x| |] eqn:E.
  - now exists a.
  - now apply abbreviate_err in E.
  - exfalso. destruct (proj1 P eq_refl) as [P1 P2]. destruct H as [H|[H1 H2]]; [lia|]. now destruct P2.
  - now apply abbreviate_fuel in E.
Qed.
Definition ptoks (l : list (str * pitem)) : list (str * str) := map (fun p => (fst p, pitem_print (snd p))) l.
Lemma ws_no_tag w : ws w -> no_tag w.
Proof. intros H I. unfold ws in H. rewrite Forall_forall in H. now apply H in I. Qed.
Lemma prolog_lexed l : Forall (fun p => ws (fst p) /\ pitem_wf (snd p)) l -> forall rest,
  lexed (flat_map (fun p => fst p ++ pitem_print (snd p)) l ++ rest) (ptoks l) rest.
Proof.
  intro H. induction H as [|[w i] l [Hw Hi] H IH]; intro rest; [constructor|].
  cbn [flat_map ptoks map fst snd]. rewrite <- !app_assoc. cbn [fst snd] in *.
  apply lx_tag with (flat_map (fun p => fst p ++ pitem_print (snd p)) l ++ rest); [now apply ws_no_tag| |apply IH].
  destruct i as [c|d]; cbn [pitem_print]; rewrite <- !app_assoc; [now apply comment_at|now apply doctype_at].
Qed.
Lemma prolog_reads l : Forall (fun p => ws (fst p) /\ pitem_wf (snd p)) l ->
  (forall w c, In (w, PComment c) l -> shortenable (lit "<!--" ++ c ++ lit "-->")) ->
  forall st p n decl dtds, prolog st p n decl dtds (ptoks l) decl (dtds ++ doctypes l).
Proof.
  intro H. induction H as [|[w i] l [Hw Hi] H IH]; intros Hs st p n decl dtds.
  { cbn. rewrite app_nil_r. constructor. }
  cbn [ptoks map fst snd]. fold (ptoks l). cbn [fst snd] in *.
  destruct i as [c|d]; cbn [pitem_print doctypes].
  - apply pg_comment; [easy|apply begins_app| |].
    + intros _. apply shortened, (Hs w). now left.
    + apply IH. intros w' c' Hi'. apply (Hs w'). now right.
  - destruct (dtd_ok _ _ _ (doctype_at d [] Hi)) as (d' & E & Ed); [apply begins_app|].
    apply app_inv_head in E. apply app_inv_tail in E. subst d'.
    apply pg_dtd with d; [easy|apply begins_app|easy|].
    replace (dtds ++ d :: doctypes l) with ((dtds ++ [d]) ++ doctypes l) by now rewrite <- app_assoc.
    apply IH. intros w' c' Hi'. apply (Hs w'). now right.
Qed.

Definition no_elem : elem := bare [] None [] None.
Definition root_of (i : citem) : elem :=
  match assemble (rt_item None i) with NElem e => e | _ => no_elem end.
(** What is read. *)
Definition document_of (x : source) : document :=
  mkDoc (option_map snd (x_decl x)) (doctypes (x_prolog x)) (root_of (x_root x)).

Lemma accepts_parse s d : accepts s d -> parse_str s = Ok d.
Proof.
  intro A. pose proof (parse_str_result s) as R. destruct R as [d' A'|x N|_ N]; [|now apply N in A..].
  f_equal.
  destruct A as [toks txt root rest decl dtds b e body tail m r ks L P B R S E Sp H1 H2 ->].
  inversion A' as [toks' txt' root' rest' decl' dtds' b' e' body' tail' m' r' ks' L' P' B' R' S' E' Sp' H1' H2' Em' Ed]. subst.
  destruct (root_unique _ _ _ _ _ _ _ _ _ _ _ _ _ L P R L' P' R') as (-> & -> & -> & -> & -> & ->).
  rewrite S in S'. injection S' as <-. rewrite E in E'. injection E' as <-.
  destruct (splits_fun _ _ _ _ _ Sp Sp') as [-> ->].
  assert (ends (lit "/>") root' \/ ~ ends (lit "/>") root') as [D|D].
  { destruct (ends_with (lit "/>") root') eqn:D; [left|right]; rewrite ends_spec in *; congruence. }
  - destruct (H1 D) as [_ X]. injection X as -> ->. destruct (H1' D) as [_ X]. injection X as -> ->. easy.
  - pose proof (feeds_fun _ _ _ _ (H2 D) (H2' D)) as X. injection X as <- <-. easy.
Qed.
Lemma decl_lexed d rest : match d with None => True | Some (w, d) => ws w /\ decl_wf d end ->
  lexed ((match d with None => [] | Some (w, d) => w ++ lit "<?" ++ d ++ lit "?>" end) ++ rest)
    (match d with None => [] | Some (w, d) => [(w, lit "<?" ++ d ++ lit "?>")] end) rest.
Proof.
  destruct d as [[w d]|]; [|constructor]. intros [Hw Hd]. rewrite <- !app_assoc.
  apply lexed_one; [now apply ws_no_tag|now apply decl_at].
Qed.
Lemma decl_reads d toks dtds : match d with None => True | Some (w, d) => ws w /\ decl_wf d end ->
  (forall st p n, prolog st p n (option_map snd d) [] toks (option_map snd d) dtds) ->
  prolog 0 0 0 None [] ((match d with None => [] | Some (w, d) => [(w, lit "<?" ++ d ++ lit "?>")] end) ++ toks)
    (option_map snd d) dtds.
Proof.
  destruct d as [[w d]|]; cbn [option_map snd app]; [|auto]. intros [Hw Hd] H.
  assert (B : begins (lit "<?xml") (lit "<?" ++ d ++ lit "?>")).
  { destruct Hd as ([x ->] & _). now exists (x ++ lit "?>"). }
  destruct (decl_ok _ _ _ (decl_at d [] Hd) B) as (d' & E & _ & Ed).
  apply app_inv_head in E. apply app_inv_tail in E. subst d'.
  apply pg_decl with d; [easy|easy|easy|]. apply H.
Qed.
Theorem source_accepted x : source_wf x -> accepts (source_print x) (document_of x).
Proof.
  intros (Hd & Hp & Hs & Hg & Hi & Hr & Ha).
  assert (Hd' : match x_decl x with None => True | Some (w, d) => ws w /\ decl_wf d end).
  { destruct (x_decl x) as [[w d]|]; [now apply Hd|easy]. }
  set (dt := match x_decl x with None => [] | Some (w, d) => [(w, lit "<?" ++ d ++ lit "?>")] end).
  destruct Hr as (nm & l & Hk & Hq).
  assert (exists p n, named nm p n) as (p & n & Hn).
  { destruct Hk as [[w E]|(w & b & w' & E)]; rewrite E in Hi; now destruct Hi. }
  assert (attrs_wf l) as Hl by (destruct Hk as [[w E]|(w & b & w' & E)]; rewrite E in Hi; cbn in Hi; tauto).
  destruct (named_xml _ _ _ Hn) as [Hx _].
  assert (Hq' : (None : option elem) = None -> forall q, p = Some q -> In (lit "xmlns:" ++ q) (map a_key l)).
  { intros _ q ->. now apply Hq with n. }
  assert (Pr : prolog 0 0 0 None [] (dt ++ ptoks (x_prolog x)) (option_map snd (x_decl x)) (doctypes (x_prolog x))).
  { apply decl_reads; [easy|]. intros st p' n'. now apply (prolog_reads _ Hp Hs st p' n' _ []). }
  assert (Lx : forall root rest, tag_at (root ++ rest) root rest ->
    lexed ((match x_decl x with None => [] | Some (w, d) => w ++ lit "<?" ++ d ++ lit "?>" end) ++
      flat_map (fun p => fst p ++ pitem_print (snd p)) (x_prolog x) ++ x_gap x ++ root ++ rest)
      ((dt ++ ptoks (x_prolog x)) ++ [(x_gap x, root)]) rest).
  { intros root rest T. rewrite <- app_assoc. eapply lexed_app; [now apply decl_lexed|].
    eapply lexed_app; [now apply prolog_lexed|]. apply lexed_one; [now apply ws_no_tag|easy]. }
  unfold source_print, document_of, root_of.
  destruct Hk as [[w E]|(w & b & w' & E)]; rewrite E in *; cbn [item_print rt_item assemble].
  - destruct Hi as (_ & _ & Hw). destruct Hl as [Hl1 Hl2].
    destruct (head_tag_first nm l (w ++ lit "/>") Hx) as (F1 & F2 & F3).
    replace ((lit "<" ++ head_print nm l ++ w ++ lit "/>") ++ x_after x) with (empty_tag nm l w ++ x_after x) by easy.
    apply ac with (dt ++ ptoks (x_prolog x)) (x_gap x) (empty_tag nm l w) (x_after x) (head_print nm l)
      (head_elem None nm l) [] (x_after x) (MDone (head_elem None nm l) []); try easy.
    + apply Lx.
      pose proof (head_at nm l w (lit "/") (x_after x) Hx Hl1 Hw (or_intror eq_refl)) as T. unfold empty_tag. rewrite <- !app_assoc. exact T.
    + repeat split; [easy..|]. apply (check_head nm l w (lit "/")); try easy. now right.
    + apply (strip_head (R := readable) nm l w (lit "/")); try easy. now right.
    + now apply head_reads with p n.
    + split; [constructor|easy].
    + intro N. exfalso. apply N. exists (lit "<" ++ head_print nm l ++ w). unfold empty_tag. now rewrite <- !app_assoc.
  - destruct Hi as (_ & _ & Hw & Hb & Hw'). destruct Hl as [Hl1 Hl2].
    destruct (head_tag_first nm l (w ++ lit ">") Hx) as (F1 & F2 & F3).
    pose proof (proj2 items_lexed b Hb nm w' (x_after x) Hx Hw') as Lb.
    pose proof (head_elem_name None nm p n l Hn) as En.
    assert (Hx' : xml_name (tag_name (head_elem None nm l))) by now rewrite En.
    pose proof (proj2 items_fed b Hb (head_elem None nm l) [] [] w' Hx' Hw') as F. rewrite En in F. cbn [popped app] in F.
    replace ((lit "<" ++ head_print nm l ++ w ++ lit ">" ++ body_print b ++ lit "</" ++ nm ++ w' ++ lit ">") ++ x_after x)
      with (open_tag nm l w ++ body_print b ++ close_tag nm w' ++ x_after x) by (unfold open_tag, close_tag; now rewrite <- !app_assoc).
    apply ac with (dt ++ ptoks (x_prolog x)) (x_gap x) (open_tag nm l w) (body_print b ++ close_tag nm w' ++ x_after x) (head_print nm l)
      (head_elem None nm l) (toks_body b (close_tag nm w')) (x_after x) (MDone (head_elem None nm l) (rt_body (Some (head_elem None nm l)) b)); try easy.
    + apply Lx.
      pose proof (head_at nm l w [] (body_print b ++ close_tag nm w' ++ x_after x) Hx Hl1 Hw (or_introl eq_refl)) as T.
      unfold open_tag, close_tag in *. rewrite <- !app_assoc in *. exact T.
    + repeat split; [easy..|]. apply (check_head nm l w []); try easy. now left.
    + apply (strip_head (R := readable) nm l w []); try easy. now left.
    + now apply head_reads with p n.
    + intro D. exfalso. now apply (open_not_empty (R := readable)) in D.
Qed.
Theorem source_parsed x : source_wf x -> parse_str (source_print x) = Ok (document_of x).
Proof. intro H. now apply accepts_parse, source_accepted. Qed.

(** Reading is deterministic: properties of the specification SpecErr.v alone. *)
From Coq Require Import List NArith Arith Bool Ascii String Lia.
From Verif Require Import Base BaseFacts Escape Dom Spec EscapeFacts SpecDom ParseTree Parse SpecLex SpecParse SpecDoc SpecEsc LexFacts
  ParseFacts TagFacts DocFacts PosFacts UnescFacts SpecErr.
Import ListNotations.

(** * References and words *)

Lemma unescapes_fun t o o' : unescapes t o -> unescapes t o' -> o = o'.
Proof.
  intros H H'. destruct (unescape_exact t) as [E P].
  destruct o as [r|]; [apply E in H|apply P in H]; (destruct o' as [r'|]; [apply E in H'|apply P in H']); congruence.
Qed.
Lemma split_eq (k v k' v' : str) : k ++ lit "=" ++ v = k' ++ lit "=" ++ v' -> ~ In 61%N k -> ~ In 61%N k' -> k = k' /\ v = v'.
Proof.
  intros E H H'.
  assert (S1 : split_once cEq (k ++ lit "=" ++ v) = Some (k, v)) by now apply split_once_some.
  assert (S2 : split_once cEq (k ++ lit "=" ++ v) = Some (k', v')) by (apply split_once_some; now split).
  split; congruence.
Qed.
Lemma split_colon (k v k' v' : str) : k ++ lit ":" ++ v = k' ++ lit ":" ++ v' -> ~ In colon k -> ~ In colon k' -> k = k' /\ v = v'.
Proof.
  intros E H H'.
  assert (S1 : split_once cColon (k ++ lit ":" ++ v) = Some (k, v)) by now apply split_once_some.
  assert (S2 : split_once cColon (k ++ lit ":" ++ v) = Some (k', v')) by (apply split_once_some; now split).
  split; congruence.
Qed.
Lemma in_quotes_fun v u u' : in_quotes v u -> in_quotes v u' -> u = u'.
Proof.
  intros (q & _ & ->) (q' & _ & E). injection E as _ E. apply app_inj_tail in E. now destruct E.
Qed.

Lemma sticks_dec a l : sticks a l \/ ~ sticks a l.
Proof.
  destruct l as [|b l]; [right; intros (b & l' & E & _); discriminate|].
  destruct (ends_with (lit "=") a) eqn:E1; [left; exists b, l; split; [easy|left; now apply ends_spec]|].
  destruct (starts_with (lit "=") b) eqn:E2; [left; exists b, l; split; [easy|right; now apply begins_spec]|].
  right. intros (b' & l' & E & [H|H]); injection E as <- <-.
  - apply ends_spec in H. congruence.
  - apply begins_spec in H. congruence.
Qed.
Lemma sticks_head a b l l' : sticks a (b :: l) <-> sticks a (b :: l').
Proof. split; intros (x & y & E & H); injection E as <- <-; eexists; eexists; (split; [reflexivity|exact H]). Qed.
Lemma joined_fun : forall l r, joined l r -> forall r', joined l r' -> r = r'.
Proof.
  induction 1 as [|a l r N J IH|a b l r S N J IH|a b c l r S S2 J IH]; intros r' J'.
  - now inversion J'.
  - inversion J' as [|a' l' r0 N' J0|a' b' l' r0 S' N' J0|a' b' c' l' r0 S' S2' J0]; subst; try contradiction.
    now rewrite (IH _ J0).
  - inversion J' as [|a' l' r0 N' J0|a' b' l' r0 S' N' J0|a' b' c' l' r0 S' S2' J0]; subst; try contradiction.
    now rewrite (IH _ J0).
  - inversion J' as [|a' l' r0 N' J0|a' b' l' r0 S' N' J0|a' b' c' l' r0 S' S2' J0]; subst; try contradiction.
    now rewrite (IH _ J0).
Qed.

Lemma tag_words_fun t l l' : tag_words t l -> tag_words t l' -> l = l'.
Proof.
  intros (b & o & -> & W & Ho) (b' & o' & E & W' & Ho'). apply app_inv_head in E. rewrite !app_assoc in E. apply app_inv_tail in E.
  assert (S : forall c : str, self_closing (lit "<" ++ c ++ lit "/" ++ lit ">")) by (intro c; now exists (lit "<" ++ c)).
  assert (b = b') as <-; [|now apply words_fun with b].
  destruct Ho as [->|[-> Ho]]; destruct Ho' as [->|[-> Ho']].
  - now apply app_inv_tail in E.
  - exfalso. apply Ho'. apply S.
  - exfalso. apply Ho. rewrite app_nil_r in E. rewrite E. cbn [app]. rewrite <- app_assoc. apply (S b').
  - now rewrite !app_nil_r in E.
Qed.
Lemma tag_parts_fun t n kvs n' kvs' : tag_parts t n kvs -> tag_parts t n' kvs' -> n = n' /\ kvs = kvs'.
Proof.
  intros (c & W & J) (c' & W' & J'). pose proof (tag_words_fun _ _ _ W W') as E. injection E as <- <-.
  split; [easy|]. now apply joined_fun with c.
Qed.
Lemma tag_parts_words t n kvs : tag_parts t n kvs -> ~ tag_words t [].
Proof. intros (c & W & _) W'. pose proof (tag_words_fun _ _ _ W W') as E. discriminate. Qed.

(** * Attributes *)

Lemma attr_reads_fun kv x x' : attr_reads kv x -> attr_reads kv x' -> x = x'.
Proof.
  intros (v & u & -> & Hk & Q & U) (v' & u' & E & Hk' & Q' & U'). apply split_eq in E; [|easy..]. destruct E as [E1 <-].
  rewrite (in_quotes_fun _ _ _ Q' Q) in U'. pose proof (unescapes_fun _ _ _ U U') as E2. injection E2 as E2.
  destruct x, x'. cbn in *. congruence.
Qed.
Lemma attr_crash_reads kv x : attr_reads kv x -> ~ attr_crashes kv.
Proof.
  intros (v & u & -> & Hk & Q & U) (k' & v' & u' & E & Hk' & Q' & U'). apply split_eq in E; [|easy..]. destruct E as [_ <-].
  rewrite (in_quotes_fun _ _ _ Q' Q) in U'. pose proof (unescapes_fun _ _ _ U U') as E2. discriminate.
Qed.
Lemma eq_in (k v : str) : In 61%N (k ++ lit "=" ++ v).
Proof. apply in_or_app. right. now left. Qed.
Lemma attr_bad_shape kv m k v u : attr_bad kv m -> kv = k ++ lit "=" ++ v -> ~ In 61%N k -> in_quotes v u -> False.
Proof.
  intros B -> Hk Q. destruct B as [F|k' E Hk'|k' v' E Hk' Nv F].
  - apply F. apply eq_in.
  - change (k ++ lit "=" ++ v = k' ++ lit "=" ++ []) in E.
    apply split_eq in E; [|easy..]. destruct E as [_ ->]. destruct Q as (q & _ & Q). discriminate.
  - apply split_eq in E; [|easy..]. destruct E as [_ <-]. now apply (F u).
Qed.
Lemma attr_bad_fun kv m m' : attr_bad kv m -> attr_bad kv m' -> m = m'.
Proof.
  intros B B'. destruct B as [F|k E Hk|k v E Hk Nv F]; destruct B' as [F'|k' E' Hk'|k' v' E' Hk' Nv' F']; try easy; exfalso.
  - apply F. rewrite E'. apply (eq_in k' []).
  - apply F. rewrite E'. apply eq_in.
  - apply F'. rewrite E. apply (eq_in k []).
  - rewrite E in E'. change (k ++ lit "=" ++ [] = k' ++ lit "=" ++ v') in E'. apply split_eq in E'; [|easy..]. destruct E' as [_ E']. now subst.
  - apply F'. rewrite E. apply eq_in.
  - rewrite E in E'. change (k ++ lit "=" ++ v = k' ++ lit "=" ++ []) in E'. apply split_eq in E'; [|easy..]. destruct E' as [_ E']. now subst.
Qed.
Lemma attr_bad_reads kv m x : attr_bad kv m -> ~ attr_reads kv x.
Proof. intros B (v & u & E & Hk & Q & _). now apply (attr_bad_shape _ _ _ _ _ B E Hk Q). Qed.
Lemma attr_bad_crash kv m : attr_bad kv m -> ~ attr_crashes kv.
Proof. intros B (k & v & u & E & Hk & Q & _). now apply (attr_bad_shape _ _ _ _ _ B E Hk Q). Qed.

Lemma reads_all_fun kvs l : Forall2 attr_reads kvs l -> forall l', Forall2 attr_reads kvs l' -> l = l'.
Proof.
  induction 1 as [|kv x kvs l H F IH]; intros l' H'; inversion H' as [|? x' ? l0 H0 F0]; subst; [easy|].
  rewrite (attr_reads_fun _ _ _ H H0). now rewrite (IH _ F0).
Qed.
(** The first attribute that does not read. *)
Lemma first_unread good : forall l kv more kvs l', Forall2 attr_reads good l -> (forall x, ~ attr_reads kv x) ->
  kvs = good ++ kv :: more -> ~ Forall2 attr_reads kvs l'.
Proof.
  intros l kv more kvs l' H N -> H'. apply Forall2_app_inv_l in H'. destruct H' as (l1 & l2 & _ & H' & _).
  inversion H' as [|? x ? ? H0]; subst. now apply (N x).
Qed.
Lemma first_unread_fun : forall good l kv more good' l' kv' more', Forall2 attr_reads good l -> Forall2 attr_reads good' l' ->
  (forall x, ~ attr_reads kv x) -> (forall x, ~ attr_reads kv' x) ->
  good ++ kv :: more = good' ++ kv' :: more' -> kv = kv'.
Proof.
  induction good as [|g good IH]; intros l kv more good' l' kv' more' H H' N N' E; destruct good' as [|g' good'].
  - now injection E.
  - exfalso. injection E as <- _. inversion H' as [|? x ? ? H0]; subst. now apply (N x).
  - exfalso. injection E as -> _. inversion H as [|? x ? ? H0]; subst. now apply (N' x).
  - injection E as <- E. inversion H; subst. inversion H'; subst. eapply IH; eassumption.
Qed.

(** * Tags of elements *)

Lemma local_part_fun n a b : local_part n a -> local_part n b -> a = b.
Proof.
  intros [[-> Ha]|(p & -> & Hp)] [[E Hb]|(q & E & Hq)].
  - easy.
  - exfalso. apply Ha. rewrite E. apply in_or_app. right. now left.
  - exfalso. apply Hb. apply in_or_app. right. now left.
  - apply split_colon in E; [|easy..]. now destruct E.
Qed.

Section Element.
Variables (P : Prop) (t : str).
Lemma element_reads_fun n n' : element_reads P t n -> element_reads P t n' -> n = n'.
Proof.
  intros (kvs & l & nm & T & _) (kvs' & l' & nm' & T' & _). now destruct (tag_parts_fun _ _ _ _ _ T T').
Qed.
Lemma element_crash_reads n : element_reads P t n -> ~ element_crash t.
Proof.
  intros (kvs & l & nm & T & F & _) (n' & good & l' & kv & more & T' & F' & C).
  destruct (tag_parts_fun _ _ _ _ _ T T') as [_ E].
  eapply (first_unread good l' kv more kvs l); [exact F'| |exact E|exact F]. intros x H. now apply attr_crash_reads in H.
Qed.
Lemma element_crash_fault loc x : element_fault P t loc x -> ~ element_crash t.
Proof.
  intros H (n' & good' & l' & kv' & more' & T' & F' & C).
  assert (N : forall x, ~ attr_reads kv' x) by (intros y G; now apply attr_crash_reads in G).
  assert (K : forall n kvs l, tag_parts t n kvs -> ~ Forall2 attr_reads kvs l).
  { intros n kvs l T. destruct (tag_parts_fun _ _ _ _ _ T T') as [_ E]. now apply (first_unread good' l' kv' more'). }
  destruct H as [W|n good l kv more m T F B|p nm kvs l HP T F H1 H2|n kvs l nm T F H1 H2 H3|n kvs l nm k v T F H1 H2 H3 H4 H5].
  - now apply tag_parts_words in T'.
  - destruct (tag_parts_fun _ _ _ _ _ T T') as [_ E].
    assert (kv = kv') as <-.
    { apply (first_unread_fun good l kv more good' l' kv' more'); try easy. intros y G. now apply attr_bad_reads with (x := y) in B. }
    now apply attr_bad_crash in B.
  - now apply K with (l := l) in T.
  - now apply K with (l := l) in T.
  - now apply K with (l := l) in T.
Qed.
Lemma fault_not_reads loc x n : element_fault P t loc x -> ~ element_reads P t n.
Proof.
  intros H (kvs' & l' & nm' & T' & F' & Hp' & Lp' & V' & A').
  destruct H as [W|n0 good l kv more m T F B|p nm kvs l HP T F H1 H2|n0 kvs l nm T F H1 H2 H3|n0 kvs l nm k v T F H1 H2 H3 H4 H5].
  - now apply tag_parts_words in T'.
  - destruct (tag_parts_fun _ _ _ _ _ T' T) as [_ E].
    apply (first_unread good l kv more kvs' l'); try easy. intros y G. now apply attr_bad_reads with (x := y) in B.
  - destruct (tag_parts_fun _ _ _ _ _ T' T) as [-> ->]. rewrite (reads_all_fun _ _ F' _ F) in Hp'.
    apply H2. now apply (Hp' HP p nm).
  - destruct (tag_parts_fun _ _ _ _ _ T' T) as [-> ->]. now rewrite (local_part_fun _ _ _ Lp' H2) in V'.
  - destruct (tag_parts_fun _ _ _ _ _ T' T) as [-> ->]. rewrite (reads_all_fun _ _ F' _ F) in A'.
    rewrite Forall_forall in A'. now apply A' in H4.
Qed.
Lemma element_fault_fun loc x y : element_fault P t loc x -> element_fault P t loc y -> same_report x y.
Proof.
  assert (S1 : forall n kvs l n' good' l' kv' more' m', tag_parts t n kvs -> Forall2 attr_reads kvs l ->
    tag_parts t n' (good' ++ kv' :: more') -> Forall2 attr_reads good' l' -> attr_bad kv' m' -> False).
  { intros n kvs l n' good' l' kv' more' m' T F T' F' B. destruct (tag_parts_fun _ _ _ _ _ T T') as [_ E].
    apply (first_unread good' l' kv' more' kvs l); try easy. intros z G. now apply attr_bad_reads with (x := z) in B. }
  assert (S2 : forall n kvs l p nm kvs' l', tag_parts t n kvs -> Forall2 attr_reads kvs l -> (P -> prefix_declared n l) ->
    P -> tag_parts t (p ++ lit ":" ++ nm) kvs' -> Forall2 attr_reads kvs' l' -> ~ In colon p ->
    ~ In (lit "xmlns:" ++ p) (map fst l') -> False).
  { intros n kvs l p nm kvs' l' T F D HP T' F' Hp N. destruct (tag_parts_fun _ _ _ _ _ T T') as [-> ->].
    rewrite (reads_all_fun _ _ F _ F') in D. apply N. now apply (D HP p nm). }
  assert (S3 : forall n kvs nm n' kvs' nm', tag_parts t n kvs -> local_part n nm -> tag_parts t n' kvs' -> local_part n' nm' -> nm = nm').
  { intros n kvs nm n' kvs' nm' T L T' L'. destruct (tag_parts_fun _ _ _ _ _ T T') as [-> _]. now apply local_part_fun with n'. }
  intros H H'.
  destruct H as [W|n good l kv more m T F B|p nm kvs l HP T F H1 H2|n kvs l nm T F H1 H2 H3|n kvs l nm k v T F H1 H2 H3 H4 H5];
  destruct H' as [W'|n' good' l' kv' more' m' T' F' B'|p' nm' kvs' l' HP' T' F' H1' H2'|n' kvs' l' nm' T' F' H1' H2' H3'|n' kvs' l' nm' k' v' T' F' H1' H2' H3' H4' H5'];
  try (exfalso; eapply tag_parts_words; eassumption);
  try (exfalso; eapply S1; [exact T|exact F|exact T'|exact F'|eassumption]);
  try (exfalso; eapply S1; [exact T'|exact F'|exact T|exact F|eassumption]);
  try (exfalso; eapply S2; [exact T|exact F|eassumption|eassumption|exact T'|exact F'|eassumption|eassumption]);
  try (exfalso; eapply S2; [exact T'|exact F'|eassumption|eassumption|exact T|exact F|eassumption|eassumption]).
  - now left.
  - destruct (tag_parts_fun _ _ _ _ _ T T') as [_ E].
    assert (kv = kv') as <-.
    { apply (first_unread_fun good l kv more good' l' kv' more'); try easy; intros z G;
        [now apply attr_bad_reads with (x := z) in B|now apply attr_bad_reads with (x := z) in B']. }
    rewrite (attr_bad_fun _ _ _ B B'). now left.
  - destruct (tag_parts_fun _ _ _ _ _ T T') as [E _]. apply split_colon in E; [|easy..]. destruct E as [-> _]. now left.
  - assert (nm = nm') as <- by (now apply (S3 n kvs nm n' kvs' nm')). now left.
  - exfalso. assert (nm = nm') as <- by (now apply (S3 n kvs nm n' kvs' nm')). easy.
  - exfalso. assert (nm = nm') as <- by (now apply (S3 n kvs nm n' kvs' nm')). easy.
  - right. now exists k, k'.
Qed.
End Element.

(** * Steps *)

Lemma next_tag_fun rest txt t r rest' txt0 t0 r0 rest0 : next_tag_is rest txt t r rest' -> next_tag_is rest txt0 t0 r0 rest0 ->
  txt = txt0 /\ t = t0 /\ r = r0 /\ rest' = rest0.
Proof.
  intros (-> & Hn & T) (E & Hn0 & T0).
  destruct (split_lt _ _ _ _ Hn Hn0 (tag_at_lt _ _ _ T) (tag_at_lt _ _ _ T0) E) as [-> ->].
  destruct (tag_at_fun _ _ _ _ _ T T0) as [-> ->]. easy.
Qed.
Lemma next_tag_some rest txt t r rest' : next_tag_is rest txt t r rest' -> ~ no_tag rest.
Proof. intros (-> & _ & T) H. destruct (tag_at_lt _ _ _ T) as [x ->]. apply H. apply in_or_app. right. now left. Qed.
Lemma unfinished_some rest r : unfinished rest r -> ~ no_tag rest.
Proof. intros (txt & -> & _ & [x ->] & _) H. apply H. apply in_or_app. right. now left. Qed.
Lemma unfinished_next rest r txt t r' rest' : unfinished rest r -> ~ next_tag_is rest txt t r' rest'.
Proof.
  intros (txt0 & -> & Hn & B & N) (E & Hn' & T).
  destruct (split_lt _ _ _ _ Hn Hn' B (tag_at_lt _ _ _ T) E) as [-> ->]. now apply N in T.
Qed.
Lemma unfinished_fun rest r r' : unfinished rest r -> unfinished rest r' -> r = r'.
Proof.
  intros (txt & -> & Hn & B & _) (txt' & E & Hn' & B' & _). now destruct (split_lt _ _ _ _ Hn Hn' B B' E).
Qed.
Lemma place_fun s r loc loc' : place s r loc -> place s r loc' -> loc = loc'.
Proof.
  assert (K : forall loc, place s r loc -> loc = line_and_column s (blen s - blen r)).
  { intros [l c] (pos & E & (a & x & b & y & Es & Ep & L & E1 & E2)). cbn [fst snd] in *.
    replace (blen s - blen r) with (blen a) by lia. rewrite Es. cbn [app]. rewrite (line_and_column_spec a x b y L). congruence. }
  intros H H'. apply K in H, H'. congruence.
Qed.
Lemma prefix_blen (a b a' b' : str) : a ++ b = a' ++ b' -> blen a = blen a' -> a = a' /\ b = b'.
Proof.
  intros E L. apply app_eq_app in E. destruct E as (z & [[-> E]|[-> E]]); rewrite blen_app in L;
    assert (z = []) as -> by (apply blen_nil; lia); now rewrite app_nil_r.
Qed.
Lemma shortened_fun t a b : shortened t a -> shortened t b -> a = b.
Proof.
  intros [[L ->]|(L & x & m & y & E & L1 & L2 & ->)] [[L' ->]|(L' & x' & m' & y' & E' & L1' & L2' & ->)]; try lia; [easy|].
  rewrite E in E'. pose proof E' as E2. apply prefix_blen in E'; [|lia]. destruct E' as [<- _]. rewrite !app_assoc in E2.
  apply prefix_blen in E2; [now destruct E2 as [_ <-]|]. apply (f_equal blen) in E2. rewrite !blen_app in *. lia.
Qed.

Lemma comment_bang t : begins (lit "<!--") t -> begins (lit "<!") t.
Proof. apply begins_trans. now exists (lit "--"). Qed.
Lemma cdata_bang t : begins (lit "<![CDATA[") t -> begins (lit "<!") t.
Proof. apply begins_trans. now exists (lit "[CDATA["). Qed.
Lemma comment_cdata t : begins (lit "<!--") t -> begins (lit "<![CDATA[") t -> False.
Proof. intros [x ->] [y E]. discriminate. Qed.
Lemma close_bang t : begins (lit "</") t -> begins (lit "<!") t -> False.
Proof. intros [x ->] [y E]. discriminate. Qed.
Lemma close_pi t : begins (lit "</") t -> begins (lit "<?xml") t -> False.
Proof. intros [x ->] [y E]. discriminate. Qed.
Lemma bang_pi t : begins (lit "<!") t -> begins (lit "<?xml") t -> False.
Proof. intros [x ->] [y E]. discriminate. Qed.
Lemma short_begins t : t = lit "<!-->" \/ t = lit "<!--->" -> begins (lit "<!--") t.
Proof. intros [-> | ->]; [now exists (lit ">")|now exists (lit "->")]. Qed.
Lemma empty_begins t : t = lit "<!---->" -> begins (lit "<!--") t.
Proof. intros ->. now exists (lit "-->"). Qed.

(** What kind of tag it is. *)
Ltac kinds :=
  repeat match goal with
  | A : ?t = lit "<!-->" \/ ?t = lit "<!--->" |- _ =>
      lazymatch goal with _ : begins (lit "<!--") t |- _ => fail | _ => pose proof (short_begins _ A) end
  | A : ?t = lit "<!---->" |- _ =>
      lazymatch goal with _ : begins (lit "<!--") t |- _ => fail | _ => pose proof (empty_begins _ A) end
  | A : begins (lit "<!--") ?t |- _ =>
      lazymatch goal with _ : begins (lit "<!") t |- _ => fail | _ => pose proof (comment_bang _ A) end
  | A : begins (lit "<![CDATA[") ?t |- _ =>
      lazymatch goal with _ : begins (lit "<!") t |- _ => fail | _ => pose proof (cdata_bang _ A) end
  end.
Ltac kind_clash :=
  match goal with
  | A : begins (lit "<!--") ?t, B : begins (lit "<![CDATA[") ?t |- _ => exfalso; exact (comment_cdata _ A B)
  | A : begins (lit "</") ?t, B : begins (lit "<!") ?t |- _ => exfalso; exact (close_bang _ A B)
  | A : begins (lit "</") ?t, B : begins (lit "<?xml") ?t |- _ => exfalso; exact (close_pi _ A B)
  | A : begins (lit "<!") ?t, B : begins (lit "<?xml") ?t |- _ => exfalso; exact (bang_pi _ A B)
  | A : ?P, B : ~ ?P |- _ => exfalso; exact (B A)
  | A : ?t = ?a \/ ?t = ?b, B : ?t <> ?a, C : ?t <> ?b |- _ => exfalso; destruct A as [A|A]; [exact (B A)|exact (C A)]
  | A : ?t = lit "<!-->" \/ ?t = lit "<!--->", B : ?t = lit "<!---->" |- _ => exfalso; rewrite B in A; destruct A as [A|A]; discriminate A
  end.

Lemma text_fine_outside txt : text_fine [] txt -> ws txt.
Proof. intros [H|[H _]]; [easy|]. now destruct H. Qed.
Lemma text_fine_crash names txt : text_fine names txt -> ~ ws txt -> ~ unescapes txt None.
Proof. intros [H|[_ [v H]]] N U; [easy|]. pose proof (unescapes_fun _ _ _ H U). discriminate. Qed.

Lemma tag_fine_fun names t a b : tag_fine names t a -> tag_fine names t b -> a = b.
Proof.
  intros H H'. destruct H; destruct H'; kinds; try kind_clash; try congruence.
  f_equal. eapply element_reads_fun; eassumption.
Qed.
Ltac outer :=
  try match goal with A : ?n = [] |- _ => subst n end;
  try match goal with A : text_fine [] ?x |- _ => apply text_fine_outside in A end;
  try match goal with A : [] <> [] |- _ => now destruct A end;
  try match goal with A : [] = _ :: _ |- _ => discriminate A end;
  try match goal with A : _ :: _ = [] |- _ => discriminate A end.
Lemma outermost t n : element_reads True t n -> element_reads ([] = @nil str) t n.
Proof. intros (kvs & l & nm & A & B & C & D). exists kvs, l, nm. split; [easy|]. split; [easy|]. split; [|easy]. intros _. now apply C. Qed.
Lemma fault_not_fine names txt t loc x names' : content_fault names txt t loc x ->
  text_fine names txt -> ~ tag_fine names t names'.
Proof.
  intros H X H'. destruct H; destruct H'; kinds; try kind_clash; outer; try kind_clash; try congruence;
    try match goal with A : element_fault _ _ _ _, B : element_reads _ _ _ |- _ => exact (fault_not_reads _ _ _ _ _ A B) end.
Qed.
Lemma crash_not_fine names txt t names' : content_crash names txt t -> text_fine names txt -> ~ tag_fine names t names'.
Proof.
  intros H X H'. destruct H; try (eapply text_fine_crash; eassumption); destruct H'; kinds; try kind_clash;
    try match goal with A : element_crash _, B : element_reads _ _ _ |- _ => exact (element_crash_reads _ _ _ B A) end.
Qed.
Lemma fault_not_crash names txt t loc x : content_fault names txt t loc x -> ~ content_crash names txt t.
Proof.
  intros H H'. destruct H; destruct H'; kinds; outer; try kind_clash;
    try match goal with A : unescapes ?t _, B : unescapes ?t _ |- _ => pose proof (unescapes_fun _ _ _ A B); discriminate end;
    try match goal with A : text_fine _ _, B : ~ ws _, C : unescapes _ None |- _ => exact (text_fine_crash _ _ A B C) end;
    try match goal with A : element_fault _ _ _ _, B : element_crash _ |- _ => exact (element_crash_fault _ _ _ _ A B) end;
    try match goal with A : element_reads _ _ _, B : element_crash _ |- _ => exact (element_crash_reads _ _ _ A B) end.
  match goal with A : shortened _ ?w, B : forall what, ~ _ |- _ => exact (B w A) end.
Qed.
Lemma content_fault_fun names txt t loc x y : content_fault names txt t loc x -> content_fault names txt t loc y -> same_report x y.
Proof.
  intros H H'. destruct H; destruct H'; kinds; outer; try kind_clash; try (now left);
    try match goal with A : element_fault _ _ _ _, B : element_fault _ _ _ _ |- _ => exact (element_fault_fun _ _ _ _ _ A B) end;
    try match goal with A : element_fault _ _ _ _, B : element_reads True _ _ |- _ => exfalso; exact (fault_not_reads _ _ _ _ _ A (outermost _ _ B)) end.
  - match goal with A : shortened _ ?w, B : shortened _ ?v |- _ => rewrite (shortened_fun _ _ _ A B) end. now left.
  - left. congruence.
Qed.

(** * Reading as steps *)

Inductive step : stage * str -> stage * str -> Prop :=
| sp_prolog toks rest txt t r rest' : next_tag_is rest txt t r rest' -> ws txt -> prolog_fine toks t ->
    step (Before toks, rest) (Before (toks ++ [(txt, t)]), rest')
| sp_single toks rest txt t r rest' n : next_tag_is rest txt t r rest' -> ws txt ->
    ~ prolog_like t -> ~ begins (lit "</") t -> formed t -> element_reads True t n -> self_closing t ->
    step (Before toks, rest) (Single, rest')
| sp_root toks rest txt t r rest' n : next_tag_is rest txt t r rest' -> ws txt ->
    ~ prolog_like t -> ~ begins (lit "</") t -> formed t -> element_reads True t n -> ~ self_closing t ->
    step (Before toks, rest) (Inside [n], rest')
| sp_tag names rest txt t r rest' names' : next_tag_is rest txt t r rest' ->
    text_fine names txt -> tag_fine names t names' -> step (Inside names, rest) (Inside names', rest').
Inductive steps (c : stage * str) : stage * str -> Prop :=
| ss_refl : steps c c
| ss_step c1 c2 : step c c1 -> steps c1 c2 -> steps c c2.

Lemma steps_snoc c c1 c2 : steps c c1 -> step c1 c2 -> steps c c2.
Proof. induction 1 as [c|c d e H1 H2 IH]; intro H; [apply ss_step with c2; [easy|constructor]|]. apply ss_step with d; auto. Qed.
Lemma reads_steps s st rest : reads s st rest -> steps (Before [], s) (st, rest).
Proof.
  induction 1 as [|toks rest txt t r rest' R IH N W P|toks rest txt t r rest' n R IH N W P1 P2 P3 P4 P5|toks rest txt t r rest' n R IH N W P1 P2 P3 P4 P5|names rest txt t r rest' names' R IH N X F].
  - constructor.
  - eapply steps_snoc; [exact IH|]. eapply sp_prolog; eassumption.
  - eapply steps_snoc; [exact IH|]. eapply sp_single; eassumption.
  - eapply steps_snoc; [exact IH|]. eapply sp_root; eassumption.
  - eapply steps_snoc; [exact IH|]. eapply sp_tag; eassumption.
Qed.
Ltac same_next :=
  match goal with A : next_tag_is ?x _ _ _ _, B : next_tag_is ?x _ _ _ _ |- _ =>
    destruct (next_tag_fun _ _ _ _ _ _ _ _ _ A B) as (? & ? & ? & ?); subst; clear B end.
Lemma step_fun c a b : step c a -> step c b -> a = b.
Proof.
  intros H H'. destruct H; inversion H'; subst; same_next; try easy;
    try match goal with A : prolog_fine _ _, B : ~ prolog_like _ |- _ => exfalso; exact (B (proj1 A)) end; try kind_clash.
  - match goal with A : element_reads _ _ _, B : element_reads _ _ _ |- _ => now rewrite (element_reads_fun _ _ _ _ A B) end.
  - match goal with A : tag_fine _ _ _, B : tag_fine _ _ _ |- _ => now rewrite (tag_fine_fun _ _ _ _ A B) end.
Qed.
Definition stuck (c : stage * str) : Prop := forall c', ~ step c c'.
Lemma stuck_unique c a b : steps c a -> steps c b -> stuck a -> stuck b -> a = b.
Proof.
  induction 1 as [c|c d a H1 H2 IH]; intros Hb Sa Sb.
  - destruct Hb as [|d b H1 _]; [easy|]. now apply Sa in H1.
  - destruct Hb as [|d' b H1' Hb]; [now apply Sb in H1|]. rewrite (step_fun _ _ _ H1' H1) in Hb. now apply IH.
Qed.

(** Where reading ends. *)
Inductive verdict := Done | Reject (x : error) | Crash.
Definition agree (v w : verdict) : Prop :=
  match v, w with Done, Done => True | Crash, Crash => True | Reject x, Reject y => same_report x y | _, _ => False end.
Inductive before_ends (s : str) (toks : list (str * str)) (rest txt t r : str) : verdict -> Prop :=
| be_text v loc : ~ ws txt -> unescapes txt (Some v) -> place s rest loc ->
    before_ends s toks rest txt t r (Reject (ParsingError PTextOutsideRoot (Some loc)))
| be_declaration loc : ws txt -> begins (lit "<?xml") t -> ~ declaration_allowed toks -> place s r loc ->
    before_ends s toks rest txt t r (Reject (ParsingError PDeclNotFirst (Some loc)))
| be_closing loc : ws txt -> begins (lit "</") t -> place s r loc ->
    before_ends s toks rest txt t r (Reject (ParsingError PStartsWithClose (Some loc)))
| be_form loc : ws txt -> ~ prolog_like t -> ~ begins (lit "</") t -> ~ formed t -> place s r loc ->
    before_ends s toks rest txt t r (Reject (ParsingError PInvalidSyntax (Some loc)))
| be_root loc x : ws txt -> ~ prolog_like t -> ~ begins (lit "</") t -> formed t -> place s r loc ->
    element_fault True t loc x -> before_ends s toks rest txt t r (Reject x)
| be_crash_text : ~ ws txt -> unescapes txt None -> before_ends s toks rest txt t r Crash
| be_crash_comment : ws txt -> first_comment toks t -> (forall what, ~ shortened t what) ->
    before_ends s toks rest txt t r Crash
| be_crash_root : ws txt -> ~ prolog_like t -> ~ begins (lit "</") t -> formed t -> element_crash t ->
    before_ends s toks rest txt t r Crash.
Inductive inside_ends (s : str) (names : list str) (txt t r : str) : verdict -> Prop :=
| ie_fault loc x : place s r loc -> content_fault names txt t loc x -> inside_ends s names txt t r (Reject x)
| ie_crash : content_crash names txt t -> inside_ends s names txt t r Crash.
Inductive halts (s : str) : stage -> str -> verdict -> Prop :=
| ha_before_none toks tail : no_tag tail -> halts s (Before toks) tail (Reject (ParsingError PNoContent None))
| ha_before_open toks rest r loc : unfinished rest r -> place s r loc ->
    halts s (Before toks) rest (Reject (ParsingError PNoClose (Some loc)))
| ha_before toks rest txt t r rest' v : next_tag_is rest txt t r rest' -> before_ends s toks rest txt t r v ->
    halts s (Before toks) rest v
| ha_single tail : no_tag tail -> halts s Single tail Done
| ha_single_open rest r loc : unfinished rest r -> place s r loc ->
    halts s Single rest (Reject (ParsingError PInvalidSyntax (Some loc)))
| ha_second rest txt t r rest' loc : next_tag_is rest txt t r rest' -> place s r loc ->
    halts s Single rest (Reject (ParsingError POnlyOneRoot (Some loc)))
| ha_done tail : no_tag tail -> halts s (Inside []) tail Done
| ha_not_closed n names tail : no_tag tail -> halts s (Inside (n :: names)) tail (Reject (ParsingError PRootNotClosed None))
| ha_open names rest r loc : unfinished rest r -> place s r loc ->
    halts s (Inside names) rest (Reject (ParsingError PInvalidSyntax (Some loc)))
| ha_inside names rest txt t r rest' v : next_tag_is rest txt t r rest' -> inside_ends s names txt t r v ->
    halts s (Inside names) rest v.

Definition ending (s : str) (v : verdict) : Prop := exists st rest, reads s st rest /\ halts s st rest v.
Lemma ending_done s : read_through s <-> ending s Done.
Proof.
  split.
  - intros (tail & N & [R|R]); eexists; eexists; (split; [exact R|constructor; exact N]).
  - intros (st & rest & R & H). inversion H as [ | |toks rest0 txt t r rest' v N B|tail N| | |tail N| | |names rest0 txt t r rest' v N B]; subst.
    + inversion B.
    + exists rest. auto.
    + exists rest. auto.
    + inversion B.
Qed.
Lemma ending_reject s x : rejected s x <-> ending s (Reject x).
Proof.
  split.
  - intro H. destruct H as [ | | | | | | | |st rest r loc R O U P| | ].
    9:{ destruct O as [->|[names ->]]; eexists; eexists; (split; [exact R|econstructor; eassumption]). }
    1,2: eexists; eexists; (split; [eassumption|econstructor; eassumption]).
    6: eexists; eexists; (split; [eassumption|econstructor; eassumption]).
    7: eexists; eexists; (split; [eassumption|econstructor; eassumption]).
    1,2,3,4,5: eexists; eexists; (split; [eassumption|eapply ha_before; [eassumption|econstructor; eassumption]]).
    eexists; eexists; (split; [eassumption|eapply ha_inside; [eassumption|econstructor; eassumption]]).
  - intros (st & rest & R & H).
    inversion H as [toks tail N|toks rest0 r loc U P|toks rest0 txt t r rest' v N B|tail N|rest0 r loc U P|rest0 txt t r rest' loc N P|tail N|n names tail N|names rest0 r loc U P|names rest0 txt t r rest' v N B]; subst.
    + eapply rj_no_content; eassumption.
    + eapply rj_no_close; eassumption.
    + inversion B; subst; [eapply rj_text|eapply rj_declaration|eapply rj_closing|eapply rj_root_form|eapply rj_root]; eassumption.
    + eapply rj_unfinished; [exact R|now left|eassumption|eassumption].
    + eapply rj_second; eassumption.
    + eapply rj_not_closed; eassumption.
    + eapply rj_unfinished; [exact R|right; now exists names|eassumption|eassumption].
    + inversion B; subst. eapply rj_content; eassumption.
Qed.
Lemma ending_crash s : crashes s <-> ending s Crash.
Proof.
  split.
  - intro H. destruct H.
    1,2,3: eexists; eexists; (split; [eassumption|eapply ha_before; [eassumption|econstructor; eassumption]]).
    eexists; eexists; (split; [eassumption|eapply ha_inside; [eassumption|econstructor; eassumption]]).
  - intros (st & rest & R & H). inversion H as [ | |toks rest0 txt t r rest' v N B| | | | | | |names rest0 txt t r rest' v N B]; subst.
    + inversion B; subst; [eapply cr_text|eapply cr_comment|eapply cr_root]; eassumption.
    + inversion B; subst. eapply cr_content; eassumption.
Qed.

Lemma first_prolog toks t : first_comment toks t -> prolog_like t.
Proof. intros [H _]. left. now apply comment_bang. Qed.
Lemma decl_prolog t : begins (lit "<?xml") t -> prolog_like t.
Proof. intro H. now right. Qed.
Lemma close_prolog t : begins (lit "</") t -> ~ prolog_like t.
Proof. intros H [G|G]; kind_clash. Qed.
Ltac prologs :=
  repeat match goal with
  | A : first_comment ?toks ?t |- _ => lazymatch goal with _ : begins (lit "<!--") t |- _ => fail | _ =>
      pose proof (first_prolog _ _ A); pose proof (comment_bang _ (proj1 A)); pose proof (proj1 A) end
  | A : begins (lit "<?xml") ?t |- _ => lazymatch goal with _ : prolog_like t |- _ => fail | _ => pose proof (decl_prolog _ A) end
  | A : begins (lit "</") ?t |- _ => lazymatch goal with _ : ~ prolog_like t |- _ => fail | _ => pose proof (close_prolog _ A) end
  | A : prolog_fine ?toks ?t |- _ => lazymatch goal with _ : prolog_like t |- _ => fail | _ => pose proof (proj1 A) end
  end.
Ltac no_next :=
  match goal with
  | A : next_tag_is ?x _ _ _ _, B : no_tag ?x |- _ => exfalso; exact (next_tag_some _ _ _ _ _ A B)
  | A : unfinished ?x _, B : no_tag ?x |- _ => exfalso; exact (unfinished_some _ _ A B)
  | A : unfinished ?x _, B : next_tag_is ?x _ _ _ _ |- _ => exfalso; exact (unfinished_next _ _ _ _ _ _ A B)
  end.
Lemma halts_stuck s st rest v : halts s st rest v -> stuck (st, rest).
Proof.
  intros H c' S. inversion S; subst; inversion H; subst; try no_next; same_next.
  - match goal with A : before_ends _ _ _ _ _ _ _ |- _ => inversion A; subst end; prologs; try kind_clash.
    + match goal with A : prolog_fine _ _ |- _ => destruct A as (_ & A & _); auto end.
    + match goal with A : prolog_fine _ _ |- _ => destruct A as (_ & _ & A); destruct (A ltac:(assumption)) as [w Hw] end.
      match goal with A : forall what, ~ _ |- _ => exact (A w Hw) end.
  - match goal with A : before_ends _ _ _ _ _ _ _ |- _ => inversion A; subst end; prologs; try kind_clash;
      try match goal with A : element_fault _ _ _ _, B : element_reads _ _ _ |- _ => exact (fault_not_reads _ _ _ _ _ A B) end;
      try match goal with A : element_crash _, B : element_reads _ _ _ |- _ => exact (element_crash_reads _ _ _ B A) end.
  - match goal with A : before_ends _ _ _ _ _ _ _ |- _ => inversion A; subst end; prologs; try kind_clash;
      try match goal with A : element_fault _ _ _ _, B : element_reads _ _ _ |- _ => exact (fault_not_reads _ _ _ _ _ A B) end;
      try match goal with A : element_crash _, B : element_reads _ _ _ |- _ => exact (element_crash_reads _ _ _ B A) end.
  - match goal with A : inside_ends _ _ _ _ _ _ |- _ => inversion A; subst end.
    + eapply fault_not_fine; eassumption.
    + eapply crash_not_fine; eassumption.
Qed.
Ltac same_place :=
  match goal with A : place ?s ?r ?l, B : place ?s ?r ?m |- _ =>
    pose proof (place_fun _ _ _ _ A B); subst; clear B end.
Lemma before_ends_fun s toks rest txt t r v w : before_ends s toks rest txt t r v -> before_ends s toks rest txt t r w -> agree v w.
Proof.
  intros H H'. destruct H; destruct H'; prologs; try kind_clash; try same_place; cbn [agree]; try exact I; try (now left);
    try match goal with A : unescapes ?t _, B : unescapes ?t _ |- _ => pose proof (unescapes_fun _ _ _ A B); discriminate end;
    try match goal with A : element_fault _ _ _ _, B : element_fault _ _ _ _ |- _ => exact (element_fault_fun _ _ _ _ _ A B) end;
    try match goal with A : element_fault _ _ _ _, B : element_crash _ |- _ => exact (element_crash_fault _ _ _ _ A B) end.
Qed.
Lemma inside_ends_fun s names txt t r v w : inside_ends s names txt t r v -> inside_ends s names txt t r w -> agree v w.
Proof.
  intros H H'. destruct H; destruct H'; try same_place; cbn [agree]; try exact I.
  - eapply content_fault_fun; eassumption.
  - eapply fault_not_crash; eassumption.
  - eapply fault_not_crash; eassumption.
Qed.
Lemma halts_fun s st rest v w : halts s st rest v -> halts s st rest w -> agree v w.
Proof.
  intros H H'. destruct H; inversion H'; subst; try no_next; try same_next;
    try match goal with A : unfinished ?x _, B : unfinished ?x _ |- _ => pose proof (unfinished_fun _ _ _ A B); subst; clear B end;
    try same_place; cbn [agree]; try exact I; try (now left).
  - eapply before_ends_fun; eassumption.
  - eapply inside_ends_fun; eassumption.
Qed.
Theorem ending_fun s v w : ending s v -> ending s w -> agree v w.
Proof.
  intros (st & rest & R & H) (st' & rest' & R' & H'). apply reads_steps in R, R'.
  pose proof (stuck_unique _ _ _ R R' (halts_stuck _ _ _ _ H) (halts_stuck _ _ _ _ H')) as E. injection E as <- <-.
  eapply halts_fun; eassumption.
Qed.

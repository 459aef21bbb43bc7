(** [next_tag] finds the tags of SpecLex.v. *)
From Coq Require Import List NArith Arith Bool Ascii String Lia.
From Verif Require Import Base BaseFacts Dom Spec SpecLex ParseTree Parse.
Import ListNotations.

Lemma prefix_cases (a b a' b' : str) : a ++ b = a' ++ b' -> begins a a' \/ begins a' a.
Proof.
  intro E. apply app_eq_app in E. destruct E as (l & [[-> _]|[-> _]]).
  - right. now exists l.
  - left. now exists l.
Qed.
Lemma begins_antisym a b : begins a b -> begins b a -> a = b.
Proof.
  intros [x ->] [y E]. rewrite <- app_assoc in E.
  assert (x ++ y = []) as H.
  { apply (app_inv_head a). now rewrite app_nil_r. }
  apply app_eq_nil in H. destruct H as [-> _]. now rewrite app_nil_r.
Qed.
Lemma begins_refl a : begins a a.
Proof. exists []. now rewrite app_nil_r. Qed.
Lemma begins_app a b : begins a (a ++ b).
Proof. now exists b. Qed.
Lemma begins_spec p s : begins p s <-> starts_with p s = true.
Proof. unfold begins. now rewrite starts_with_spec. Qed.
Lemma begins_false p s : ~ begins p s <-> starts_with p s = false.
Proof. rewrite begins_spec. destruct (starts_with p s); split; congruence. Qed.
Lemma ends_spec p s : ends p s <-> ends_with p s = true.
Proof. unfold ends. now rewrite ends_with_spec. Qed.

Lemma shortest_fun P s t r t' r' : shortest P s t r -> shortest P s t' r' -> t = t' /\ r = r'.
Proof.
  intros (E & H1 & H2) (E' & H1' & H2').
  assert (t = t') as ->.
  { apply begins_antisym; [now apply (H2 t' r')|now apply (H2' t r)]. }
  split; [easy|]. apply (app_inv_head t'). congruence.
Qed.

(** * find *)

Lemma find_shortest p s i : p <> [] -> find_sub p s = Some i ->
  exists t rest, shortest (ends p) s t rest /\ blen t = i + blen p.
Proof.
  intros Hp H. apply find_sub_some in H. destruct H as (a & b & -> & <- & Hmin).
  exists (a ++ p), b. split; [|now rewrite blen_app].
  split; [now rewrite <- app_assoc|]. split; [now exists a|].
  intros t' r' E [a' ->]. rewrite <- app_assoc in E.
  destruct (prefix_cases (a ++ p) b (a' ++ p) r') as [H|[x H]].
  - now rewrite <- !app_assoc.
  - easy.
  - assert (Hl := Hmin a' r' E).
    assert (blen (a ++ p) = blen (a' ++ p) + blen x) as Hb by (rewrite H; now rewrite !blen_app).
    rewrite !blen_app in Hb. assert (blen x = 0) as Hx by lia. apply blen_nil in Hx. subst x.
    rewrite app_nil_r in H. rewrite H. apply begins_refl.
Qed.
Lemma find_none p s : find_sub p s = None -> forall t rest, ~ shortest (ends p) s t rest.
Proof.
  intros H t rest (-> & [a ->] & _). apply find_sub_none in H. apply H.
  exists a, rest. now rewrite <- app_assoc.
Qed.

(** * quote_aware_find *)

Lemma open_quote_app o a b : open_quote o (a ++ b) = open_quote (open_quote o a) b.
Proof. revert o. induction a; intro o; cbn; auto. Qed.
Lemma unquoted_app o a b : unquoted o (a ++ b) = unquoted o a ++ unquoted (open_quote o a) b.
Proof.
  revert o. induction a as [|c a IH]; intro o; cbn; [easy|].
  destruct o as [q|].
  - destruct (c =? q)%N; apply IH.
  - destruct (is_quote c); [apply IH|]. cbn. now rewrite IH.
Qed.

Definition next_quote (o : option char) (c : char) : option char :=
  match o with
  | Some q => if (c =? q)%N then None else Some q
  | None => if is_quote c then Some c else None
  end.

Lemma qaf_unfold pattern c rest' i o :
  quote_aware_find_from pattern (c :: rest') i o =
  match o with
  | None => if negb (is_quote c) && starts_with pattern (c :: rest') then Some i
            else quote_aware_find_from pattern rest' (i + len_utf8 c) (next_quote o c)
  | Some _ => quote_aware_find_from pattern rest' (i + len_utf8 c) (next_quote o c)
  end.
Proof.
  cbn [quote_aware_find_from]. destruct o as [q|]; cbn [next_quote]; [easy|].
  unfold is_quote, cDq, cSq, dquote, squote.
  destruct (c =? 34)%N eqn:E1; cbn [orb negb andb].
  - apply N.eqb_eq in E1. now subst c.
  - destruct (c =? 39)%N eqn:E2; cbn [orb negb andb]; [|easy].
    apply N.eqb_eq in E2. now subst c.
Qed.

(** The found position: everything before it leaves no quote open, and no
    earlier unquoted occurrence exists. *)
Lemma qaf_some pattern : match pattern with [] => False | c :: _ => is_quote c = false end ->
  forall rest i o j, quote_aware_find_from pattern rest i o = Some j ->
  exists b r, rest = b ++ pattern ++ r /\ j = i + blen b /\ open_quote o b = None /\
    forall b' r', rest = b' ++ pattern ++ r' -> open_quote o b' = None -> begins b b'.
Proof.
  intro Hp. induction rest as [|c rest IH]; intros i o j H; [easy|].
  rewrite qaf_unfold in H.
  assert (K : quote_aware_find_from pattern rest (i + len_utf8 c) (next_quote o c) = Some j ->
    (forall r', c :: rest = pattern ++ r' -> o <> None) ->
    exists b r, c :: rest = b ++ pattern ++ r /\ j = i + blen b /\ open_quote o b = None /\
    forall b' r', c :: rest = b' ++ pattern ++ r' -> open_quote o b' = None -> begins b b').
  { intros K Hn. apply IH in K. destruct K as (b & r & -> & -> & Ho & Hmin).
    exists (c :: b), r. split; [easy|]. split; [cbn; lia|]. split; [easy|].
    intros b' r' E Ho'. destruct b' as [|x b'].
    - exfalso. now apply (Hn r').
    - injection E as <- E. cbn in Ho'. apply Hmin in E; [|easy]. destruct E as [y ->]. now exists y. }
  destruct o as [q|].
  - apply K; [exact H|]. easy.
  - destruct (negb (is_quote c) && starts_with pattern (c :: rest)) eqn:E.
    + injection H as <-. apply andb_true_iff in E. destruct E as [E1 E2].
      apply starts_with_spec in E2. destruct E2 as [r E2].
      exists [], r. split; [easy|]. split; [cbn; lia|]. split; [easy|].
      intros b' r' _ _. apply (begins_app [] b').
    + apply K; [exact H|]. intros r' E' _. destruct pattern as [|p pattern]; [easy|].
      injection E' as -> E'. cbn [starts_with] in E. rewrite Hp, E', N.eqb_refl in E. cbn in E.
      now rewrite starts_with_app in E.
Qed.
Lemma qaf_none pattern : match pattern with [] => False | c :: _ => is_quote c = false end ->
  forall rest i o, quote_aware_find_from pattern rest i o = None ->
  forall b r, rest = b ++ pattern ++ r -> open_quote o b <> None.
Proof.
  intro Hp. induction rest as [|c rest IH]; intros i o H b r E.
  - destruct b; [|discriminate]. destruct pattern; [easy|discriminate].
  - rewrite qaf_unfold in H. destruct b as [|x b].
    + cbn. intros ->. cbn in E. destruct pattern as [|p pattern]; [easy|]. injection E as -> E.
      cbn [starts_with] in H. rewrite Hp, E, N.eqb_refl, starts_with_app in H. discriminate.
    + injection E as -> E. cbn. destruct o as [q|].
      * now apply (IH _ _ H b r).
      * destruct (_ && _); [discriminate|]. now apply (IH _ _ H b r).
Qed.

(** * nested_quote_aware_find_close *)

Definition count (c : char) (s : str) : nat := count_occ N.eq_dec s c.
Definition next_depth (o : option char) (c : char) (d : nat) : nat :=
  match o with
  | Some _ => d
  | None => if is_quote c then d else if (c =? lt_)%N then S d else if (c =? gt_)%N then d - 1 else d
  end.
Lemma nf_unfold c rest' i d o :
  nested_find_from (c :: rest') i d o =
  match o, d with
  | None, O => if (c =? gt_)%N then Some i
               else nested_find_from rest' (i + len_utf8 c) (next_depth o c d) (next_quote o c)
  | _, _ => nested_find_from rest' (i + len_utf8 c) (next_depth o c d) (next_quote o c)
  end.
Proof.
  cbn [nested_find_from]. destruct o as [q|]; cbn [next_quote next_depth]; [now destruct d|].
  unfold is_quote, cDq, cSq, dquote, squote, cLt, cGt, lt_, gt_.
  destruct (c =? 34)%N eqn:E1; cbn [orb].
  { apply N.eqb_eq in E1. subst c. now destruct d. }
  destruct (c =? 39)%N eqn:E2; cbn [orb].
  { apply N.eqb_eq in E2. subst c. now destruct d. }
  destruct (c =? 60)%N eqn:E3; cbn [orb].
  { apply N.eqb_eq in E3. subst c. now destruct d. }
  destruct (c =? 62)%N eqn:E4; cbn [orb]; [|now destruct d].
  destruct d; [easy|]. now rewrite Nat.sub_succ, Nat.sub_0_r.
Qed.

(** [b] is read with the depth ending at zero. *)
Definition reads (o : option char) (d : nat) (b : str) : Prop :=
  open_quote o b = None /\ d + count lt_ (unquoted o b) = count gt_ (unquoted o b).

Lemma unquoted_cons o c s :
  unquoted o (c :: s) = (match o with
                         | Some _ => []
                         | None => if is_quote c then [] else [c]
                         end) ++ unquoted (next_quote o c) s.
Proof. cbn. destruct o; cbn; [easy|]. now destruct (is_quote c). Qed.
Lemma open_cons o c s : open_quote o (c :: s) = open_quote (next_quote o c) s.
Proof. easy. Qed.

Lemma count_app c a b : count c (a ++ b) = count c a + count c b.
Proof. apply count_occ_app. Qed.
Lemma count_one c x : count c [x] = if (x =? c)%N then 1 else 0.
Proof.
  unfold count. cbn. destruct (N.eq_dec x c) as [->|H]; [now rewrite N.eqb_refl|].
  apply N.eqb_neq in H. now rewrite H.
Qed.

(** One character read. *)
Lemma reads_cons o d c b : ~ (o = None /\ c = gt_ /\ d = 0) ->
  reads o d (c :: b) <-> reads (next_quote o c) (next_depth o c d) b.
Proof.
  intro Hn. unfold reads. rewrite open_cons, unquoted_cons, !count_app.
  destruct o as [q|]; cbn [next_depth next_quote]; [easy|].
  destruct (is_quote c) eqn:Q; [easy|]. rewrite !count_one.
  unfold lt_, gt_ in *.
  destruct (c =? 60)%N eqn:E1.
  - apply N.eqb_eq in E1. subst c. cbn [N.eqb Pos.eqb]. split; intros [H1 H2]; (split; [easy|lia]).
  - destruct (c =? 62)%N eqn:E2.
    + apply N.eqb_eq in E2. subst c. destruct d as [|d].
      * exfalso. now apply Hn.
      * split; intros [H1 H2]; (split; [easy|lia]).
    + split; intros [H1 H2]; (split; [easy|lia]).
Qed.

Lemma nf_some : forall rest i d o j, nested_find_from rest i d o = Some j ->
  exists b r, rest = b ++ gt_ :: r /\ j = i + blen b /\ reads o d b /\
    forall b' r', rest = b' ++ gt_ :: r' -> reads o d b' -> begins b b'.
Proof.
  induction rest as [|c rest IH]; intros i d o j H; [easy|].
  rewrite nf_unfold in H.
  assert (K : ~ (o = None /\ c = gt_ /\ d = 0) ->
    nested_find_from rest (i + len_utf8 c) (next_depth o c d) (next_quote o c) = Some j ->
    exists b r, c :: rest = b ++ gt_ :: r /\ j = i + blen b /\ reads o d b /\
    forall b' r', c :: rest = b' ++ gt_ :: r' -> reads o d b' -> begins b b').
  { intros Hn K. apply IH in K. destruct K as (b & r & -> & -> & Ho & Hmin).
    exists (c :: b), r. split; [easy|]. split; [cbn; lia|]. split; [now apply reads_cons|].
    intros b' r' E Ho'. destruct b' as [|x b'].
    - exfalso. injection E as -> _. destruct Ho' as [Ho1 Ho2]. cbn in Ho1, Ho2.
      apply Hn. repeat split; [easy|lia].
    - injection E as <- E. apply reads_cons in Ho'; [|easy].
      apply Hmin in E; [|easy]. destruct E as [y ->]. now exists y. }
  destruct o as [q|].
  - apply K; [now intros [? _]|]. destruct d; exact H.
  - destruct d as [|d].
    + destruct (c =? gt_)%N eqn:E.
      * injection H as <-. apply N.eqb_eq in E. subst c. exists [], rest.
        split; [easy|]. split; [cbn; lia|]. split; [easy|].
        intros b' r' _ _. apply (begins_app [] b').
      * apply K; [|exact H]. intros (_ & -> & _). now rewrite N.eqb_refl in E.
    + apply K; [|exact H]. now intros (_ & _ & ?).
Qed.
Lemma nf_none : forall rest i d o, nested_find_from rest i d o = None ->
  forall b r, rest = b ++ gt_ :: r -> ~ reads o d b.
Proof.
  induction rest as [|c rest IH]; intros i d o H b r E; [now destruct b|].
  rewrite nf_unfold in H.
  assert (K : ~ (o = None /\ c = gt_ /\ d = 0) ->
    nested_find_from rest (i + len_utf8 c) (next_depth o c d) (next_quote o c) = None -> ~ reads o d b).
  { intros Hn K R. destruct b as [|x b].
    - injection E as -> E. destruct R as [R1 R2]. cbn in R1, R2. apply Hn. repeat split; [easy|lia].
    - injection E as -> E. apply reads_cons in R; [|easy]. now apply (IH _ _ _ K b r). }
  destruct o as [q|].
  - apply K; [now intros [? _]|]. destruct d; exact H.
  - destruct d as [|d].
    + destruct (c =? gt_)%N eqn:E1; [discriminate|].
      apply K; [|exact H]. intros (_ & -> & _). now rewrite N.eqb_refl in E1.
    + apply K; [|exact H]. now intros (_ & _ & ?).
Qed.

(** * next_tag *)

Lemma skip_prefix p s : begins p s -> exists r, s = p ++ r /\ slice_from s (blen p) = Ok r.
Proof. intros [r ->]. exists r. split; [easy|]. apply slice_from_app. Qed.

(** From the body found to the tag. *)
Lemma shortest_of_body (p e : str) (Q : str -> Prop) r b r1 : r = b ++ e ++ r1 -> Q b ->
  (forall b' r', r = b' ++ e ++ r' -> Q b' -> begins b b') ->
  (forall b1 b2 x, b1 ++ e = (b2 ++ e) ++ x -> begins b1 b2 -> x = []) ->
  shortest (fun t => exists b, t = p ++ b ++ e /\ Q b) (p ++ r) (p ++ b ++ e) r1.
Proof.
  intros -> HQ Hmin He. split; [now rewrite <- !app_assoc|]. split; [now exists b|].
  intros t' r' E (b' & -> & HQ'). rewrite <- !app_assoc in E. apply app_inv_head in E.
  pose proof (Hmin b' r' E HQ') as Hb.
  destruct (prefix_cases (b ++ e) r1 (b' ++ e) r') as [[x H]|[x H]].
  - now rewrite <- !app_assoc.
  - rewrite H. exists x. now rewrite <- !app_assoc.
  - apply He in H as Hx; [|easy]. subst x. rewrite app_nil_r in H.
    rewrite H. apply begins_refl.
Qed.
Lemma suffix_len (e b1 b2 x : str) : b1 ++ e = (b2 ++ e) ++ x -> begins b1 b2 -> x = [].
Proof.
  intros E [y ->]. apply (f_equal (@List.length char)) in E. rewrite !app_length in E.
  apply length_zero_iff_nil. lia.
Qed.

Inductive next_result (pre suf : str) : outcome (option nat * option nat) -> Prop :=
| nr_none : no_tag suf -> next_result pre suf (Ok (None, None))
| nr_open txt s : suf = txt ++ s -> no_tag txt -> begins [lt_] s -> (forall t rest, ~ tag_at s t rest) ->
    next_result pre suf (Ok (Some (blen pre + blen txt), None))
| nr_tag txt s t rest : suf = txt ++ s -> no_tag txt -> tag_at s t rest ->
    next_result pre suf (Ok (Some (blen pre + blen txt), Some (blen pre + blen txt + blen t))).

Lemma not_begins_lt s p q : begins p s -> starts_with q p = false -> List.length q <= List.length p -> ~ begins q s.
Proof.
  intros [r ->] H Hl [r' E].
  destruct (prefix_cases p r q r' E) as [[x Hx]|[x Hx]].
  - assert (x = []) as ->.
    { apply length_zero_iff_nil. apply (f_equal (@List.length char)) in Hx. rewrite app_length in Hx. lia. }
    rewrite app_nil_r in Hx. subst q. now rewrite starts_with_refl in H.
  - subst p. now rewrite starts_with_app in H.
Qed.

Lemma next_tag_spec pre suf : next_result pre suf (next_tag (pre ++ suf) (blen pre)).
Proof.
  unfold next_tag. rewrite slice_from_app. cbn [bind].
  change (lit "<") with [lt_]. destruct (find_sub [lt_] suf) as [i|] eqn:F.
  2:{ cbn. apply nr_none. now apply find_char_none. }
  apply find_char_some in F. destruct F as (txt & r & -> & Htxt & <-).
  cbn [add_opt option_map].
  replace (blen txt + blen pre) with (blen (pre ++ txt)) by (rewrite blen_app; lia).
  replace (pre ++ txt ++ lt_ :: r) with ((pre ++ txt) ++ lt_ :: r) by now rewrite <- app_assoc.
  rewrite slice_from_app. cbn [bind].
  replace (blen (pre ++ txt)) with (blen pre + blen txt) by now rewrite blen_app.
  set (s := lt_ :: r).
  assert (Bs : begins [lt_] s) by now exists r.
  destruct (starts_with (lit "<!--") s) eqn:E1.
  { apply begins_spec in E1.
    destruct (find_sub (lit "-->") s) as [j|] eqn:F.
    - apply find_shortest in F; [|discriminate]. destruct F as (t & rest & Hs & Hb).
      cbn [add_opt option_map].
      replace (j + (blen pre + blen txt + 3)) with (blen pre + blen txt + blen t) by (rewrite Hb; cbn; lia).
      apply nr_tag with s rest; [easy..|]. now apply ta_comment.
    - apply nr_open with s; [easy..|]. intros t rest T.
      assert (N1 : ~ begins (lit "<?") s) by (eapply not_begins_lt; [exact E1|easy|cbn; lia]).
      destruct T as [_ H|H _|H _|_ H _ _|_ _ H _]; try contradiction.
      + now apply (find_none _ _ F t rest).
      + destruct E1 as [x Ex]. destruct H as [y Ey]. rewrite Ex in Ey. discriminate.
      + apply H. destruct E1 as [x Ex]. rewrite Ex. now exists (lit "--" ++ x). }
  destruct (starts_with (lit "<?") s) eqn:E2.
  { apply begins_spec in E2. unfold quote_aware_find.
    destruct (skip_prefix _ _ E2) as (r2 & Er2 & Hs2). change 2 with (blen (lit "<?")) at 1.
    rewrite Hs2. cbn [bind].
    destruct (quote_aware_find_from (lit "?>") r2 2 None) as [j|] eqn:F.
    - apply qaf_some in F; [|easy]. destruct F as (b & r3 & Hr & -> & Ho & Hmin).
      cbn [add_opt option_map].
      replace (2 + blen b + (blen pre + blen txt + 2)) with (blen pre + blen txt + blen (lit "<?" ++ b ++ lit "?>"))
        by (rewrite !blen_app; cbn; lia).
      apply nr_tag with s r3; [easy..|]. apply ta_pi; [easy|]. rewrite Er2.
      apply shortest_of_body; [easy..|]. intros b1 b2 x Hx Hb. now apply (suffix_len (lit "?>") b1 b2).
    - apply nr_open with s; [easy..|]. intros t rest T. apply begins_false in E1.
      assert (NN : forall q, begins q s -> starts_with q (lit "<?") = false -> exists y, q = lit "<?" ++ y) .
      { intros q Hq Hs. destruct E2 as [x Ex]. destruct Hq as [y Ey].
        rewrite Ex in Ey. destruct (prefix_cases _ _ _ _ Ey) as [[z ->]|[z Hz]]; [now exists z|].
        rewrite Hz in Hs. now rewrite starts_with_app in Hs. }
      destruct T as [H _|_ H|H _|H _ _ _|_ H _ _]; try contradiction.
      + destruct H as (Hs & (b & -> & Hb) & _). rewrite <- !app_assoc, Er2 in Hs. apply app_inv_head in Hs.
        now apply (qaf_none (lit "?>") eq_refl _ _ _ F b rest Hs).
      + destruct (NN _ H eq_refl) as [y Ey]. discriminate.
      + destruct (NN _ H eq_refl) as [y Ey]. discriminate. }
  destruct (starts_with (lit "<![CDATA[") s) eqn:E3.
  { apply begins_spec in E3.
    destruct (find_sub (lit "]]>") s) as [j|] eqn:F.
    - apply find_shortest in F; [|discriminate]. destruct F as (t & rest & Hs & Hb).
      cbn [add_opt option_map].
      replace (j + (blen pre + blen txt + 3)) with (blen pre + blen txt + blen t) by (rewrite Hb; cbn; lia).
      apply nr_tag with s rest; [easy..|]. now apply ta_cdata.
    - apply nr_open with s; [easy..|]. intros t rest T. apply begins_false in E1, E2.
      destruct T as [H _|H _|_ H|_ _ H _|_ _ H _]; try contradiction.
      + now apply (find_none _ _ F t rest).
      + apply H. destruct E3 as [x Ex]. rewrite Ex. now exists (lit "[CDATA[" ++ x). }
  apply begins_false in E1, E2, E3.
  destruct (starts_with (lit "<!") s) eqn:E4.
  { apply begins_spec in E4. unfold nested_quote_aware_find_close.
    destruct (skip_prefix _ _ E4) as (r2 & Er2 & Hs2). change 2 with (blen (lit "<!")) at 1.
    rewrite Hs2. cbn [bind].
    destruct (nested_find_from r2 2 0 None) as [j|] eqn:F.
    - apply nf_some in F. destruct F as (b & r3 & Hr & -> & Ho & Hmin).
      cbn [add_opt option_map].
      replace (2 + blen b + (blen pre + blen txt + 1)) with (blen pre + blen txt + blen (lit "<!" ++ b ++ lit ">"))
        by (rewrite !blen_app; cbn; lia).
      apply nr_tag with s r3; [easy..|]. apply ta_decl; [easy..|]. rewrite Er2.
      apply (shortest_of_body _ _ (fun b => quotes_closed b /\ angles_balanced b)); [easy..|].
      intros b1 b2 x Hx Hb. now apply (suffix_len (lit ">") b1 b2).
    - apply nr_open with s; [easy..|]. intros t rest T.
      destruct T as [H _|H _|H _|_ _ _ H|_ _ H _]; try contradiction.
      destruct H as (Hs & (b & -> & Hb) & _). rewrite <- !app_assoc, Er2 in Hs. apply app_inv_head in Hs.
      now apply (nf_none _ _ _ _ F b rest Hs). }
  apply begins_false in E4. unfold quote_aware_find.
  destruct (skip_prefix _ _ Bs) as (r2 & Er2 & Hs2). change 1 with (blen [lt_]) at 1.
  rewrite Hs2. cbn [bind].
  destruct (quote_aware_find_from (lit ">") r2 1 None) as [j|] eqn:F.
  - apply qaf_some in F; [|easy]. destruct F as (b & r3 & Hr & -> & Ho & Hmin).
    cbn [add_opt option_map].
    replace (1 + blen b + (blen pre + blen txt + 1)) with (blen pre + blen txt + blen (lit "<" ++ b ++ lit ">"))
      by (rewrite !blen_app; cbn; lia).
    apply nr_tag with s r3; [easy..|]. apply ta_elem; [easy..|]. rewrite Er2.
    apply (shortest_of_body (lit "<") (lit ">") quotes_closed); [easy..|].
    intros b1 b2 x Hx Hb. now apply (suffix_len (lit ">") b1 b2).
  - apply nr_open with s; [easy..|]. intros t rest T.
    destruct T as [H _|H _|H _|H _ _ _|_ _ _ H]; try contradiction.
    destruct H as (Hs & (b & -> & Hb) & _). rewrite <- !app_assoc, Er2 in Hs. apply app_inv_head in Hs.
    now apply (qaf_none (lit ">") eq_refl _ _ _ F b rest Hs).
Qed.

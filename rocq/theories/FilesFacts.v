(** Files and streams. *)
From Coq Require Import List NArith Arith Bool Ascii String Lia Permutation.
From Verif Require Import Base Spec BaseFacts Escape Dom SpecDom DomFacts EscapeFacts SerFacts Parse Files SpecBytes SpecFiles Utf8Facts.
Import ListNotations.

(** * Reading streams *)

Lemma read_delivers l bs : read_to_end l = Ok bs <-> delivers l bs.
Proof.
  split.
  - revert bs. induction l as [|[[|b c]| |] l IH]; intros bs H; cbn [read_to_end] in H.
    + injection H as <-. constructor.
    + injection H as <-. constructor.
    + destruct (read_to_end l) as [r| | |]; try discriminate. injection H as <-. apply (dv_chunk b c). now apply IH.
    + constructor. now apply IH.
    + discriminate.
  - induction 1 as [| |b c l r _ IH|l r _ IH]; cbn [read_to_end]; [easy|easy| |easy]. now rewrite IH.
Qed.
Lemma read_breaks l : read_to_end l = Err IOError <-> breaks l.
Proof.
  split.
  - induction l as [|[[|b c]| |] l IH]; cbn [read_to_end]; intro H; try discriminate.
    + constructor. apply IH. destruct (read_to_end l); try discriminate. injection H as ->. easy.
    + constructor. now apply IH.
    + constructor.
  - induction 1 as [l|b c l _ IH|l _ IH]; cbn [read_to_end]; [easy| |easy]. now rewrite IH.
Qed.
Lemma read_cases l : (exists bs, delivers l bs) \/ breaks l.
Proof.
  induction l as [|[[|b c]| |] l IH].
  - left. exists []. constructor.
  - left. exists []. constructor.
  - destruct IH as [[bs H]|H]; [left; eexists; now apply dv_chunk, H|right; now constructor].
  - destruct IH as [[bs H]|H]; [left; eexists; now apply dv_again, H|right; now constructor].
  - right. constructor.
Qed.
Lemma string_of_spec bs : (exists s, text_ok s /\ utf8 s = bs /\ string_of bs = Ok s) \/
  ((forall s, text_ok s -> utf8 s <> bs) /\ string_of bs = Err IOError).
Proof.
  unfold string_of. destruct (from_utf8 bs) as [s|] eqn:E.
  - left. exists s. apply from_utf8_spec in E. now split.
  - right. split; [|easy]. intros s Hs <-. rewrite from_utf8_utf8 in E by easy. discriminate.
Qed.
Lemma string_of_utf8 s : text_ok s -> string_of (utf8 s) = Ok s.
Proof. intro H. unfold string_of. now rewrite from_utf8_utf8. Qed.
Theorem stream_text l s : text_ok s -> delivers l (utf8 s) -> parse_stream l = parse_str s.
Proof. intros Hs H. unfold parse_stream. apply read_delivers in H. rewrite H. cbn [bind]. now rewrite string_of_utf8. Qed.
Theorem stream_invalid l bs : delivers l bs -> (forall s, text_ok s -> utf8 s <> bs) -> parse_stream l = Err IOError.
Proof.
  intros H N. unfold parse_stream. apply read_delivers in H. rewrite H. cbn [bind].
  destruct (string_of_spec bs) as [(s & Hs & E & _)|[_ ->]]; [now apply N in E|easy].
Qed.
Theorem stream_breaks l : breaks l -> parse_stream l = Err IOError.
Proof. intro H. unfold parse_stream. apply read_breaks in H. now rewrite H. Qed.

(** * Writing streams *)

Lemma write_all_ok : forall l bs w r, write_all l bs = (w, r) ->
  (r = Ok tt /\ w = bs) \/ (r = Err IOError /\ exists rest, rest <> [] /\ bs = w ++ rest).
Proof.
  induction l as [|[[|n]| |] l IH]; intros [|b bs] w r H; cbn [write_all] in H; try (injection H as <- <-; now left).
  - injection H as <- <-. right. split; [easy|]. now exists (b :: bs).
  - change (skipn (S n) (b :: bs)) with (skipn n bs) in H. change (firstn (S n) (b :: bs)) with (b :: firstn n bs) in H.
    destruct (write_all l (skipn n bs)) as [w' r'] eqn:E. injection H as <- <-. apply IH in E. destruct E as [[-> ->]|[-> (rest & Nr & E)]].
    + left. split; [easy|]. cbn [app]. now rewrite firstn_skipn.
    + right. split; [easy|]. exists rest. split; [easy|]. cbn [app]. f_equal. rewrite <- app_assoc, <- E. symmetry. apply firstn_skipn.
  - now apply IH.
  - injection H as <- <-. right. split; [easy|]. now exists (b :: bs).
Qed.
Lemma write_all_succeeds l : Forall (fun e => e = WInterrupted \/ exists n, e = Accepts (S n)) l ->
  forall bs, write_all l bs = (bs, Ok tt).
Proof.
  induction 1 as [|e l He _ IH]; intros [|b bs]; try easy. cbn [write_all]. destruct He as [->|[n ->]]; [apply IH|].
  rewrite IH. now rewrite firstn_skipn.
Qed.

(** * The file system *)

Lemma path_eqb_eq a : forall b, path_eqb a b = true <-> a = b.
Proof.
  induction a as [|x a IH]; intros [|y b]; cbn [path_eqb]; try (split; easy).
  rewrite andb_true_iff, str_eqb_eq, IH. split; [now intros [-> ->]|]. intro H. now injection H as -> ->.
Qed.
Lemma path_eqb_refl p : path_eqb p p = true.
Proof. now apply path_eqb_eq. Qed.
Lemma path_eqb_neq a b : a <> b -> path_eqb a b = false.
Proof. intro H. destruct (path_eqb a b) eqn:E; [|easy]. now apply path_eqb_eq in E. Qed.
Lemma mget_mset_same (p : path) (e : entry) m : mget path_eqb p (mset path_eqb p e m) = Some e.
Proof.
  induction m as [|[q x] m IH]; cbn [mset mget]; [now rewrite path_eqb_refl|].
  destruct (path_eqb p q) eqn:E; cbn [mget]; now rewrite E.
Qed.
Lemma mget_mset_other (p q : path) (e : entry) m : q <> p -> mget path_eqb q (mset path_eqb p e m) = mget path_eqb q m.
Proof.
  intro N. induction m as [|[r x] m IH]; cbn [mset mget]; [now rewrite path_eqb_neq|].
  destruct (path_eqb p r) eqn:E; cbn [mget].
  - apply path_eqb_eq in E. subst r. now rewrite path_eqb_neq.
  - now destruct (path_eqb q r).
Qed.
Lemma lookup_put_same w p e : p <> [] -> lookup (put w p e) p = Some e.
Proof. intro N. unfold lookup, put. cbn [fs_entries]. destruct p; [easy|]. apply mget_mset_same. Qed.
Lemma lookup_put_other w p q e : q <> p -> lookup (put w p e) q = lookup w q.
Proof. intro N. unfold lookup, put. cbn [fs_entries]. destruct q; [easy|]. now apply mget_mset_other. Qed.
(** Creating directories adds directories only. *)
Lemma create_dirs_spec : forall rest w done w' r, create_dirs w done rest = (w', r) ->
  (r = Ok tt \/ r = Err IOError) /\ fs_denied w' = fs_denied w /\ fs_disk w' = fs_disk w /\
  (forall q e, lookup w q = Some e -> lookup w' q = Some e) /\
  (forall q, lookup w q = None -> lookup w' q = None \/ (lookup w' q = Some Dir /\ exists a b, a <> [] /\ rest = a ++ b /\ q = done ++ a)) /\
  (r = Ok tt -> forall a b, a <> [] -> rest = a ++ b -> lookup w' (done ++ a) = Some Dir).
Proof.
  induction rest as [|c rest IH]; intros w done w' r H; cbn [create_dirs] in H.
  - injection H as <- <-. split; [now left|]. split; [easy|]. split; [easy|]. split; [easy|]. split; [intros q Hq; now left|].
    intros _ a b Na E. destruct a; [easy|discriminate].
  - assert (Np : done ++ [c] <> []) by now destruct done.
    destruct (lookup w (done ++ [c])) as [[|bs]|] eqn:L.
    + apply IH in H. destruct H as (H1 & H2 & H2' & H3 & H4 & H5). split; [easy|]. split; [easy|]. split; [easy|]. split; [easy|]. split.
      * intros q Hq. destruct (H4 q Hq) as [N|(D & a & b & Na & -> & ->)]; [now left|]. right. split; [easy|].
        exists (c :: a), b. split; [easy|]. split; [easy|]. now rewrite <- app_assoc.
      * intros Hr a b Na E. destruct a as [|x a]; [easy|]. injection E as <- E.
        destruct a as [|y a]; [now apply H3|]. specialize (H5 Hr (y :: a) b ltac:(easy) E). now rewrite <- app_assoc in H5.
    + injection H as <- <-. split; [now right|]. split; [easy|]. split; [easy|]. split; [easy|]. split; [intros q Hq; now left|easy].
    + destruct (fs_denied w (done ++ [c])).
      * injection H as <- <-. split; [now right|]. split; [easy|]. split; [easy|]. split; [easy|]. split; [intros q Hq; now left|easy].
      * apply IH in H. destruct H as (H1 & H2 & H2' & H3 & H4 & H5). split; [easy|]. split; [easy|]. split; [easy|].
        assert (K : lookup w' (done ++ [c]) = Some Dir) by (apply H3; now apply lookup_put_same).
        split; [|split].
        -- intros q e Hq. apply H3. rewrite lookup_put_other; [easy|]. intros ->. congruence.
        -- intros q Hq. destruct (list_eq_dec str_eq_dec q (done ++ [c])) as [->|Nq].
           ++ right. split; [easy|]. now exists [c], rest.
           ++ destruct (H4 q) as [N|(D & a & b & Na & -> & ->)]; [now rewrite lookup_put_other|now left|].
              right. split; [easy|]. exists (c :: a), b. split; [easy|]. split; [easy|]. now rewrite <- app_assoc.
        -- intros Hr a b Na E. destruct a as [|x a]; [easy|]. injection E as <- E.
           destruct a as [|y a]; [easy|]. specialize (H5 Hr (y :: a) b ltac:(easy) E). now rewrite <- app_assoc in H5.
Qed.

Lemma create_dirs_succeeds : forall rest w done,
  (forall a b, a <> [] -> rest = a ++ b -> lookup w (done ++ a) = Some Dir \/ (lookup w (done ++ a) = None /\ fs_denied w (done ++ a) = false)) ->
  snd (create_dirs w done rest) = Ok tt.
Proof.
  induction rest as [|c rest IH]; intros w done H; cbn [create_dirs]; [easy|].
  destruct (H [c] rest ltac:(easy) eq_refl) as [L|[L D]]; rewrite L.
  - apply IH. intros a b Na ->. rewrite <- app_assoc. now apply (H (c :: a) b).
  - rewrite D. apply IH. intros a b Na ->. rewrite <- app_assoc. rewrite lookup_put_other.
    + now apply (H (c :: a) b).
    + intro E. apply app_inv_head in E. now destruct a.
Qed.
Lemma removelast_split (p : path) : p <> [] -> exists l, p = removelast p ++ [l].
Proof. intro N. exists (last p []). now apply app_removelast_last. Qed.
Lemma on_way_parent (p : path) q : p <> [] -> on_the_way q p <-> exists b, removelast p = q ++ b.
Proof.
  intro N. destruct (removelast_split p N) as [l E]. split.
  - intros (r & Nr & Ep). destruct (removelast_split r Nr) as [m Em]. exists (removelast r). rewrite Ep. now apply removelast_app.
  - intros [b Eb]. exists (b ++ [l]). split; [now destruct b|]. now rewrite app_assoc, <- Eb.
Qed.
Lemma way_neq q p : on_the_way q p -> q <> p.
Proof. intros (r & N & E) ->. rewrite <- (app_nil_r p) in E at 1. apply app_inv_head in E. now subst. Qed.

(** Everything about writing a file. *)
Theorem write_path d w p ind w' r : write_to_filepath_with_indent d w p ind = (w', r) ->
  ((r = Ok tt /\ fs_denied w p = false /\ lookup w' p = Some (File (utf8 (doc_to_string_with_indent d ind))) /\
      forall q, on_the_way q p -> lookup w' q = Some Dir) \/
   (r = Err IOError /\ (lookup w' p = lookup w p \/
      exists written rest, lookup w' p = Some (File written) /\ rest <> [] /\ utf8 (doc_to_string_with_indent d ind) = written ++ rest))) /\
  (lookup w p = Some Dir -> lookup w' p = Some Dir) /\
  fs_denied w' = fs_denied w /\
  forall q, q <> p -> lookup w' q = lookup w q \/ (lookup w q = None /\ lookup w' q = Some Dir /\ on_the_way q p).
Proof.
  unfold write_to_filepath_with_indent. remember (utf8 (doc_to_string_with_indent d ind)) as bs eqn:Ebs. clear Ebs. intro H.
  destruct p as [|c0 p0].
  - cbn in H. unfold fs_write in H. cbn in H. destruct (fs_denied w []); injection H as <- <-;
      (split; [right; split; [easy|now left]|]; split; [easy|]; split; [easy|]; intros; now left).
  - assert (Np : c0 :: p0 <> []) by easy. change (parent (c0 :: p0)) with (Some (removelast (c0 :: p0))) in H.
    remember (c0 :: p0) as p eqn:Ep. clear c0 p0 Ep.
    destruct (create_dir_all w (removelast p)) as [w1 r1] eqn:C. unfold create_dir_all in C. apply create_dirs_spec in C.
    destruct C as (C1 & C2 & C2' & C3 & C4 & C5).
    assert (W : forall q, lookup w1 q = lookup w q \/ (lookup w q = None /\ lookup w1 q = Some Dir /\ on_the_way q p)).
    { intro q. destruct (lookup w q) as [e|] eqn:L; [left; now apply C3|].
      destruct (C4 q L) as [N|(D & a & b & Na & E & ->)]; [now left|]. right. split; [easy|]. split; [easy|].
      apply on_way_parent; [easy|]. now exists b. }
    assert (Wp : lookup w1 p = lookup w p).
    { destruct (W p) as [E|(_ & _ & K)]; [easy|]. now apply way_neq in K. }
    assert (Q : forall w2, (w2 = w1 \/ exists bs', w2 = put w1 p (File bs')) -> forall q, q <> p ->
               lookup w2 q = lookup w q \/ (lookup w q = None /\ lookup w2 q = Some Dir /\ on_the_way q p)).
    { intros w2 [->|[bs' ->]] q Nq; [apply W|]. rewrite lookup_put_other by easy. apply W. }
    assert (F : forall r', (r' = Err IOError) -> (w1, r') = (w', r) ->
      ((r = Ok tt /\ fs_denied w p = false /\ lookup w' p = Some (File bs) /\ forall q, on_the_way q p -> lookup w' q = Some Dir) \/
       (r = Err IOError /\ (lookup w' p = lookup w p \/ exists written rest, lookup w' p = Some (File written) /\ rest <> [] /\ bs = written ++ rest))) /\
      (lookup w p = Some Dir -> lookup w' p = Some Dir) /\ fs_denied w' = fs_denied w /\
      forall q, q <> p -> lookup w' q = lookup w q \/ (lookup w q = None /\ lookup w' q = Some Dir /\ on_the_way q p)).
    { intros r' Er' E. injection E as <- <-. split; [right; split; [easy|now left]|]. split; [now rewrite Wp|]. split; [easy|].
      apply Q. now left. }
    destruct C1 as [-> | ->].
    + unfold fs_write in H. rewrite C2, Wp in H. destruct (fs_denied w p) eqn:Dn; [eapply F; [|exact H]; easy|].
      assert (P : parent p = Some (removelast p)) by (destruct p; easy). rewrite P in H. clear P.
      assert (PD : lookup w1 (removelast p) = Some Dir).
      { destruct (removelast p) as [|x l] eqn:R; [easy|]. apply (C5 eq_refl (x :: l) []); [easy|now rewrite app_nil_r]. }
      rewrite PD in H. rewrite C2' in H.
      destruct (write_all (fs_disk w) bs) as [wr rr] eqn:WA.
      destruct (lookup w p) as [[|old]|] eqn:L; [eapply F; [|exact H]; easy| |].
      all: injection H as <- <-; apply write_all_ok in WA; split;
        [|split; [easy|split; [easy|apply Q; right; now eexists]]].
      all: destruct WA as [[-> ->]|[-> (rest & Nr & ->)]];
        [left; split; [easy|]; split; [easy|]; split; [now apply lookup_put_same|]|
         right; split; [easy|]; right; exists wr, rest; split; [now apply lookup_put_same|easy]].
      all: intros q Hq; rewrite lookup_put_other by (now apply way_neq); apply on_way_parent in Hq; [|easy]; destruct Hq as [b Eb];
        destruct q as [|x q]; [easy|]; now apply (C5 eq_refl (x :: q) b).
    + eapply F; [|exact H]; easy.
Qed.
(** When writing succeeds. *)
Theorem write_path_succeeds d w p ind : p <> [] -> fs_denied w p = false -> lookup w p <> Some Dir ->
  (forall q, on_the_way q p -> lookup w q = Some Dir \/ (lookup w q = None /\ fs_denied w q = false)) ->
  Forall (fun e => e = WInterrupted \/ exists n, e = Accepts (S n)) (fs_disk w) ->
  snd (write_to_filepath_with_indent d w p ind) = Ok tt.
Proof.
  intros Np Dn ND HW HD. unfold write_to_filepath_with_indent.
  assert (P : parent p = Some (removelast p)) by (destruct p; easy). rewrite P.
  destruct (create_dir_all w (removelast p)) as [w1 r1] eqn:C. unfold create_dir_all in C.
  assert (R : r1 = Ok tt).
  { change r1 with (snd (w1, r1)). rewrite <- C. apply create_dirs_succeeds. intros a b Na E. apply HW. apply on_way_parent; [easy|]. now exists b. }
  subst r1. apply create_dirs_spec in C. destruct C as (C1 & C2 & C2' & C3 & C4 & C5).
  unfold fs_write. rewrite C2, Dn, P, C2'.
  assert (PD : lookup w1 (removelast p) = Some Dir).
  { destruct (removelast p) as [|x l] eqn:R; [easy|]. apply (C5 eq_refl (x :: l) []); [easy|now rewrite app_nil_r]. }
  rewrite PD, write_all_succeeds by easy.
  assert (N1 : lookup w1 p <> Some Dir).
  { intro K. destruct (lookup w p) as [e|] eqn:L; [rewrite (C3 _ _ L) in K; congruence|].
    destruct (C4 p L) as [K'|(_ & a & b & Na & E & Ea)]; [congruence|].
    cbn in Ea. subst a. assert (on_the_way p p) by (apply on_way_parent; [easy|now exists b]). now apply way_neq in H. }
  destruct (lookup w1 p) as [[|]|]; easy.
Qed.

Lemma scalar_lit a : Forall scalar (lit a).
Proof.
  induction a as [|c a IH]; [constructor|]. constructor; [|exact IH].
  assert (N_of_ascii c < 256)%N by apply N_ascii_bounded. unfold scalar. lia.
Qed.

(** * The output is Unicode text *)

Lemma text_ok_app a b : text_ok (a ++ b) <-> text_ok a /\ text_ok b.
Proof. apply Forall_app. Qed.
Lemma escape_char_ok set c : scalar c -> text_ok (escape_char set c).
Proof.
  intro H. unfold escape_char. destruct (existsb (N.eqb c) set); [|now constructor].
  destruct (find (fun nc => (snd nc =? c)%N) predefined) as [[nm x]|] eqn:E; [|now constructor].
  apply find_some in E. destruct E as [E _]. apply text_ok_app. split; [apply (scalar_lit "&")|]. apply text_ok_app.
  split; [|apply (scalar_lit ";")]. cbn [predefined In] in E.
  repeat (destruct E as [E|E]; [injection E as <- <-; apply scalar_lit|]). destruct E.
Qed.
Lemma escaped_ok set s : text_ok s -> text_ok (flat_map (escape_char set) s).
Proof. induction 1 as [|c s H _ IH]; [constructor|]. cbn [flat_map]. apply text_ok_app. split; [now apply escape_char_ok|easy]. Qed.
Lemma flat_map_text_ok {A} (f : A -> str) l : (forall x, In x l -> text_ok (f x)) -> text_ok (flat_map f l).
Proof.
  induction l as [|x l IH]; intro H; [constructor|]. cbn [flat_map]. apply text_ok_app.
  split; [apply H; now left|apply IH; intros y Hy; apply H; now right].
Qed.
Lemma qualified_ok e : unicode_elem e -> text_ok (qualified e).
Proof.
  intro H. destruct H as [e H1 H2 _ _ _ _ _]. unfold qualified. destruct (e_prefix e) as [p|]; [|easy].
  apply text_ok_app. split; [now apply H2|]. apply text_ok_app. split; [apply scalar_lit|easy].
Qed.
Lemma attrs_ok m l : attrs_in_order m l -> pairs_ok m -> text_ok (flat_map attr_text l).
Proof.
  intros [P _] H. apply flat_map_text_ok. intros [k v] Hkv. apply (Permutation_in _ (Permutation_sym P)) in Hkv.
  destruct (H k v Hkv) as [Hk Hv]. unfold attr_text. cbn [fst snd]. rewrite !text_ok_app.
  split; [apply scalar_lit|]. split; [easy|]. split; [apply scalar_lit|]. split; [apply (scalar_lit """")|].
  split; [now apply escaped_ok|apply (scalar_lit """")].
Qed.
Lemma opening_ok e l x : unicode_elem e -> attrs_in_order (e_attributes e) l -> text_ok x -> text_ok (SpecDom.opening e l x).
Proof.
  intros H Hl Hx. unfold SpecDom.opening. rewrite !text_ok_app. split; [apply scalar_lit|]. split; [now apply qualified_ok|].
  split; [|easy]. apply (attrs_ok _ _ Hl). now destruct H.
Qed.
Lemma closing_ok e : unicode_elem e -> text_ok (SpecDom.closing e).
Proof.
  intro H. unfold SpecDom.closing. rewrite !text_ok_app. split; [apply scalar_lit|]. split; [now apply qualified_ok|apply scalar_lit].
Qed.
Definition nodes_ok (l : list node) : Prop :=
  (forall t, In (NText t) l \/ In (NComment t) l \/ In (NCData t) l -> text_ok t) /\ (forall c, In (NElem c) l -> unicode_elem c).
Lemma nodes_ok_cons n l : nodes_ok (n :: l) -> nodes_ok l.
Proof.
  intros [H1 H2]. split.
  - intros t Ht. apply H1. destruct Ht as [K|[K|K]]; [left|right;left|right;right]; now right.
  - intros c Hc. apply H2. now right.
Qed.
Lemma children_ok e : unicode_elem e -> nodes_ok (e_children e).
Proof. intro H. destruct H. now split. Qed.
Lemma leaf_ok n s l : leaf_text n s -> nodes_ok (n :: l) -> text_ok s.
Proof.
  intros H [K _]. destruct n as [e|t|t|t]; cbn [leaf_text] in H; [easy| | |]; subst s.
  - apply escaped_ok. apply K. left. now left.
  - rewrite !text_ok_app. split; [apply scalar_lit|]. split; [|apply scalar_lit]. apply K. right. left. now left.
  - rewrite !text_ok_app. split; [apply scalar_lit|]. split; [|apply scalar_lit]. apply K. right. right. now left.
Qed.
Lemma inline_ok : forall e s, inline_elem e s -> unicode_elem e -> text_ok s.
Proof.
  apply (inline_elem_mut (fun e s => unicode_elem e -> text_ok s) (fun l s => nodes_ok l -> text_ok s)).
  - intros e l Hl _ H. apply opening_ok; [easy|easy|apply scalar_lit].
  - intros e l s Hl _ _ IH H. rewrite !text_ok_app. split; [apply opening_ok; [easy|easy|apply scalar_lit]|].
    split; [apply IH; now apply children_ok|now apply closing_ok].
  - constructor.
  - intros n s l r Hn _ IH H. apply text_ok_app. split; [now apply (leaf_ok n s l)|]. apply IH. now apply nodes_ok_cons in H.
  - intros e s l r _ IHe _ IH H. apply text_ok_app. split; [apply IHe; apply H; now left|]. apply IH. now apply nodes_ok_cons in H.
Qed.
Lemma layout_ok ind : text_ok ind -> forall pre e s, layout ind pre e s -> text_ok pre -> unicode_elem e -> text_ok s.
Proof.
  intro Hi.
  apply (layout_mut ind (fun pre e s => text_ok pre -> unicode_elem e -> text_ok s) (fun pre l s => text_ok pre -> nodes_ok l -> text_ok s)).
  - intros pre e s _ Hs Hp He. apply text_ok_app. split; [easy|]. now apply (inline_ok e).
  - intros pre e l s _ Hl _ IH Hp He. rewrite !text_ok_app. split; [easy|]. split; [apply opening_ok; [easy|easy|apply scalar_lit]|].
    split; [now repeat constructor|]. split; [|split; [easy|now apply closing_ok]].
    apply IH; [now apply text_ok_app|now apply children_ok].
  - constructor.
  - intros pre n s l r Hn _ IH Hp Hl. rewrite !text_ok_app. split; [easy|]. split; [now apply (leaf_ok n s l)|].
    split; [now repeat constructor|]. apply IH; [easy|]. now apply nodes_ok_cons in Hl.
  - intros pre e s l r _ IHe _ IH Hp Hl. rewrite !text_ok_app. split; [apply IHe; [easy|]; apply Hl; now left|].
    split; [now repeat constructor|]. apply IH; [easy|]. now apply nodes_ok_cons in Hl.
Qed.
Theorem doc_text_ok d ind : elem_ok (root_element d) -> unicode_doc d -> text_ok (doc_to_string_with_indent d ind).
Proof.
  intros Ok (Hd & Ht & He).
  assert (G : forall i, good_indent i -> text_ok (doc_to_string_with_indent d i)).
  { intros i Hi. destruct (doc_layout d i Ok Hi) as (s & Hs & ->). rewrite !text_ok_app.
    assert (N10 : text_ok [10%N]) by (repeat constructor).
    split; [|split; [|split; [|easy]]].
    - destruct (declaration d) as [x|]; [|constructor]. rewrite !text_ok_app. repeat split; try apply scalar_lit; [|easy]. now apply Hd.
    - apply flat_map_text_ok. intros x Hx. apply text_ok_app. split; [|easy]. rewrite Forall_forall in Ht. now apply Ht.
    - assert (Hti : text_ok i).
      { destruct Hi as [->|Hi]; [now repeat constructor|]. eapply Forall_impl; [|exact Hi]. intros c ->. now left. }
      apply (layout_ok i Hti [] _ s Hs); [constructor|easy]. }
  destruct (validate_indent ind) eqn:V.
  - apply G. now apply validate_indent_spec.
  - apply validate_indent_false in V. rewrite doc_bad_indent by easy. apply G. right. repeat constructor.
Qed.

(** * Reading back *)

Theorem file_text w p bs s : fs_denied w p = false -> lookup w p = Some (File bs) -> text_ok s -> bs = utf8 s ->
  parse_filepath w p = parse_str s.
Proof. intros D L Hs ->. unfold parse_filepath, read_to_string. rewrite D, L. now rewrite string_of_utf8. Qed.
Theorem file_invalid w p bs : lookup w p = Some (File bs) -> (forall s, text_ok s -> utf8 s <> bs) -> parse_filepath w p = Err IOError.
Proof.
  intros L N. unfold parse_filepath, read_to_string. rewrite L. destruct (fs_denied w p); [easy|].
  destruct (string_of_spec bs) as [(s & Hs & E & _)|[_ ->]]; [now apply N in E|easy].
Qed.
Theorem file_unreadable w p : fs_denied w p = true \/ lookup w p = None \/ lookup w p = Some Dir -> parse_filepath w p = Err IOError.
Proof.
  unfold parse_filepath, read_to_string. intros [-> | [-> | ->]]; [easy| |]; now destruct (fs_denied w p).
Qed.
Theorem file_back d w p ind w' : elem_ok (root_element d) -> unicode_doc d ->
  write_to_filepath_with_indent d w p ind = (w', Ok tt) -> parse_filepath w' p = parse_str (doc_to_string_with_indent d ind).
Proof.
  intros Hok Hd H. apply write_path in H. destruct H as ([(_ & D & L & _)|[E _]] & _ & Dn & _); [|discriminate].
  eapply file_text; [now rewrite Dn|exact L|now apply doc_text_ok|easy].
Qed.
Theorem stream_back d out ind bs l : elem_ok (root_element d) -> unicode_doc d ->
  write_to_file_with_indent d out ind = (bs, Ok tt) -> delivers l bs -> parse_stream l = parse_str (doc_to_string_with_indent d ind).
Proof.
  intros Hok Hd H Hl. unfold write_to_file_with_indent in H. apply write_all_ok in H. destruct H as [[_ ->]|[E _]]; [|discriminate].
  apply stream_text; [now apply doc_text_ok|easy].
Qed.

(** Deciding [unicode_doc], for concrete documents. *)
Definition scalarb (c : N) : bool := ((c <? 55296) || (57344 <=? c) && (c <? 1114112))%N.
Lemma scalarb_ok s : forallb scalarb s = true -> text_ok s.
Proof.
  intro H. apply Forall_forall. intros c Hc. rewrite forallb_forall in H. specialize (H c Hc). unfold scalarb in H. unfold scalar. lia.
Qed.
Definition optb (o : option str) : bool := match o with None => true | Some s => forallb scalarb s end.
Definition pairsb (m : amap) : bool := forallb (fun kv => forallb scalarb (fst kv) && forallb scalarb (snd kv)) m.
Fixpoint unicode_elemb (e : elem) : bool :=
  forallb scalarb (e_name e) && optb (e_prefix e) && optb (e_xmlns e) && pairsb (e_attributes e) && pairsb (e_context e) &&
  (fix go l := match l with
               | [] => true
               | NElem c :: l' => unicode_elemb c && go l'
               | NText t :: l' | NComment t :: l' | NCData t :: l' => forallb scalarb t && go l'
               end) (e_children e).
Lemma optb_ok o : optb o = true -> opt_ok o.
Proof. intros H s ->. now apply scalarb_ok. Qed.
Lemma pairsb_ok m : pairsb m = true -> pairs_ok m.
Proof.
  unfold pairsb. rewrite forallb_forall. intros H k v Hkv. specialize (H _ Hkv). cbn [fst snd] in H.
  apply andb_true_iff in H. now split; apply scalarb_ok.
Qed.
Lemma unicode_elemb_ok : forall e, unicode_elemb e = true -> unicode_elem e.
Proof.
  induction e as [e IH] using elem_ind'. destruct e as [nm ch at_ ns px cx]. cbn [unicode_elemb e_name e_children e_attributes e_xmlns e_prefix e_context].
  rewrite !andb_true_iff. intros [[[[[H1 H2] H3] H4] H5] H6].
  assert (K : nodes_ok ch).
  { clear H1 H2 H3 H4 H5. cbn [e_children] in IH. induction ch as [|n ch IHl]; [now split; [intros t [[]|[[]|[]]]|]|].
    assert (Hl : nodes_ok ch).
    { apply IHl; [intros c Hc; apply IH; now right|]. destruct n; apply andb_true_iff in H6; now apply H6. }
    destruct Hl as [Hl1 Hl2]. split.
    - intros t Ht. destruct n as [c|x|x|x]; apply andb_true_iff in H6; destruct H6 as [H6 _].
      all: destruct Ht as [[E|Ht]|[[E|Ht]|[E|Ht]]]; try discriminate; try (apply Hl1; now auto);
        injection E as <-; now apply scalarb_ok.
    - intros c [->|Hc]; [|now apply Hl2]. apply andb_true_iff in H6. apply IH; [now left|easy]. }
  destruct K as [K1 K2]. constructor; cbn [e_name e_children e_attributes e_xmlns e_prefix e_context];
    [now apply scalarb_ok|now apply optb_ok|now apply optb_ok|now apply pairsb_ok|now apply pairsb_ok|easy|easy].
Qed.
Definition unicode_docb (d : document) : bool :=
  optb (declaration d) && forallb (forallb scalarb) (doctype_defs d) && unicode_elemb (root_element d).
Lemma unicode_docb_ok d : unicode_docb d = true -> unicode_doc d.
Proof.
  unfold unicode_docb. rewrite !andb_true_iff. intros [[H1 H2] H3]. split; [now apply optb_ok|]. split; [|now apply unicode_elemb_ok].
  apply Forall_forall. intros x Hx. rewrite forallb_forall in H2. now apply scalarb_ok, H2.
Qed.

(** A text that is one element, put inside another text. *)
From Coq Require Import List NArith ZArith Arith Bool Ascii String Lia Permutation.
From Verif Require Import Base BaseFacts Escape Dom Spec SpecDom Parse SpecLex SpecParse SpecEsc LexFacts ParseFacts DocFacts PosFacts
  SpecTree DomFacts SpecDoc SerFacts P_Parse SpecMean MeanFacts SpecLocal SpecEmbed SpecErr ReadFacts ErrFacts LoopFacts AppendFacts.
Import ListNotations.

(** * Reading *)

Lemma step_reads s c c' : reads s (fst c) (snd c) -> step c c' -> reads s (fst c') (snd c').
Proof.
  intros R H. destruct H; cbn in *.
  - eapply rd_prolog; eassumption.
  - eapply rd_single; eassumption.
  - eapply rd_root; eassumption.
  - eapply rd_tag; eassumption.
Qed.
Lemma steps_reads s c c' : reads s (fst c) (snd c) -> steps c c' -> reads s (fst c') (snd c').
Proof. intros R H. induction H as [c|c d e H1 H2 IH]; [easy|]. apply IH. now apply step_reads with c. Qed.
Lemma steps_trans c d e : steps c d -> steps d e -> steps c e.
Proof. induction 1 as [c|c c1 d H1 H2 IH]; [easy|]. intro H. apply ss_step with c1; auto. Qed.
Lemma no_tag_step st tail c : no_tag tail -> ~ step (st, tail) c.
Proof.
  intros N S.
  assert (X : exists txt t r rest', next_tag_is tail txt t r rest') by (inversion S; subst; eauto 10).
  destruct X as (txt & t & r & rest' & E & _ & T). apply tag_at_lt in T. destruct T as [z Z].
  apply N. rewrite E, Z. apply in_or_app. right. now left.
Qed.
Lemma step_less st x v txt t r y st1 z : next_tag_is x txt t r y -> step (st, x ++ v) (st1, z) -> step (st, x) (st1, y) /\ z = y ++ v.
Proof.
  intros N S. pose proof (next_tag_more _ _ _ _ _ v N) as Nv.
  inversion S; subst; same_next; (split; [|easy]).
  - eapply sp_prolog; eassumption.
  - eapply sp_single; eassumption.
  - eapply sp_root; eassumption.
  - eapply sp_tag; eassumption.
Qed.
(** Reading that goes through the tags of a text reaches the place after any of
    them, whatever follows it. *)
Lemma steps_lexed s toks rest : lexed s toks rest -> forall v st st2 tail, steps (st, s ++ v) (st2, tail) -> no_tag tail ->
  exists st', steps (st, s) (st', rest) /\ steps (st', rest ++ v) (st2, tail).
Proof.
  induction 1 as [s|txt s t rest toks tail0 Hn T L IH]; intros v st st2 tail S N; [exists st; split; [constructor|easy]|].
  assert (NT : next_tag_is (txt ++ s) txt t s rest) by now repeat split.
  inversion S as [E|c1 c2 S1 S2]; subst.
  - exfalso. apply tag_at_lt in T. destruct T as [z ->]. apply N. apply in_or_app. left. apply in_or_app. right. now left.
  - destruct c1 as [st1 s1]. destruct (step_less _ _ _ _ _ _ _ _ _ NT S1) as [S3 ->].
    destruct (IH _ _ _ _ S2 N) as (st' & A & B). exists st'. split; [|easy]. now apply ss_step with (st1, rest).
Qed.

(** What may be read outside other elements may be read inside them. *)
Lemma element_reads_inside (P : Prop) t n : element_reads P t n -> forall Q : Prop, (Q -> P) -> element_reads Q t n.
Proof. intros (kvs & l & nm & A & B & C & D) Q H. exists kvs, l, nm. split; [easy|]. split; [easy|]. split; [auto|easy]. Qed.
Lemma text_fine_inside names out txt : text_fine names txt -> text_fine (names ++ out) txt.
Proof. intros [H|[H H2]]; [now left|]. right. split; [now destruct names|easy]. Qed.
Lemma tag_fine_inside names out t names' : tag_fine names t names' -> tag_fine (names ++ out) t (names' ++ out).
Proof.
  intros [H1 H2 H3 H4|H1 H2|n l -> H2 H3 H4|n H1 H2 H3 H4 H5 H6|n H2 H3 H4 H5 H6].
  - apply tf_comment; try easy. now destruct names.
  - apply tf_cdata; try easy. now destruct names.
  - now apply tf_close with n.
  - apply tf_single with n; try easy; [now destruct names|]. apply (element_reads_inside _ _ _ H5). now destruct names.
  - cbn. apply tf_open; try easy. apply (element_reads_inside _ _ _ H5). now destruct names.
Qed.
Lemma prolog_fine_like toks t : prolog_fine toks t -> prolog_like t.
Proof. now intros [H _]. Qed.
(** A text without prolog, read inside other elements. *)
Lemma reads_inside s el : lexed s el [] -> starts_with_element el -> begins (lit "<") s ->
  forall v n out st rest, reads s st rest ->
  match st with
  | Before toks => toks = [] /\ rest = s
  | Single => steps (Inside (n :: out), s ++ v) (Inside (n :: out), rest ++ v)
  | Inside names => steps (Inside (n :: out), s ++ v) (Inside (names ++ n :: out), rest ++ v)
  end.
Proof.
  intros L (txt0 & t0 & more & -> & P0) B v n out st rest H.
  assert (N0 : exists r rest', next_tag_is s txt0 t0 r rest').
  { inversion L as [|a s0 b rest0 c d N T L']; subst. exists s0, rest0. now repeat split. }
  destruct N0 as (r0 & rest0 & N0).
  induction H as [|toks rest txt t r rest' R IH N W P|toks rest txt t r rest' m R IH N W P1 P2 P3 P4 P5|toks rest txt t r rest' m R IH N W P1 P2 P3 P4 P5|names rest txt t r rest' names' R IH N X F].
  - easy.
  - destruct IH as [-> ->]. same_next. now apply prolog_fine_like in P.
  - destruct IH as [-> ->]. same_next. eapply ss_step; [|constructor].
    eapply sp_tag; [now apply next_tag_more with (u := v) in N; exact N|now left|].
    apply tf_single with m; try easy. { intro Q. apply P1. now left. } apply (element_reads_inside _ _ _ P4). easy.
  - destruct IH as [-> ->]. same_next. eapply ss_step; [|constructor].
    eapply sp_tag; [now apply next_tag_more with (u := v) in N; exact N|now left|].
    cbn. apply tf_open; try easy. { intro Q. apply P1. now left. } apply (element_reads_inside _ _ _ P4). easy.
  - eapply steps_snoc; [exact IH|]. eapply sp_tag; [now apply next_tag_more with (u := v) in N; exact N| |].
    + now apply text_fine_inside.
    + now apply tag_fine_inside.
Qed.

(** * Depth *)

Lemma begins_dec_ p s : {begins p s} + {~ begins p s}.
Proof. destruct (starts_with p s) eqn:E; [left; now apply starts_with_spec|right]. intro H. apply starts_with_spec in H. congruence. Qed.
Lemma ends_dec_ p s : {ends p s} + {~ ends p s}.
Proof. destruct (ends_with p s) eqn:E; [left; now apply ends_spec|right]. intro H. apply ends_spec in H. congruence. Qed.
(** How many more elements are open after a tag. *)
Definition delta (t : str) : Z :=
  if begins_dec_ (lit "<!") t then 0%Z
  else if begins_dec_ (lit "</") t then (-1)%Z
  else if ends_dec_ (lit "/>") t then 0%Z else 1%Z.
Fixpoint depth (l : list str) : Z := match l with [] => 0%Z | t :: l' => (delta t + depth l')%Z end.
Lemma depth_app a b : depth (a ++ b) = (depth a + depth b)%Z.
Proof. induction a as [|t a IH]; [easy|]. cbn. rewrite IH. lia. Qed.
Lemma delta_open t n : opening t n -> ~ self_closing t -> delta t = 1%Z.
Proof.
  intros (A & B & _) S. unfold delta. destruct (begins_dec_ (lit "<!") t); [easy|]. destruct (begins_dec_ (lit "</") t); [easy|].
  now destruct (ends_dec_ (lit "/>") t).
Qed.
Lemma delta_single t n : opening t n -> self_closing t -> delta t = 0%Z.
Proof.
  intros (A & B & _) S. unfold delta. destruct (begins_dec_ (lit "<!") t); [easy|]. destruct (begins_dec_ (lit "</") t); [easy|].
  now destruct (ends_dec_ (lit "/>") t).
Qed.
Lemma delta_markup t : begins (lit "<!") t -> delta t = 0%Z.
Proof. intro A. unfold delta. now destruct (begins_dec_ (lit "<!") t). Qed.
Lemma delta_close t : begins (lit "</") t -> delta t = (-1)%Z.
Proof.
  intro A. unfold delta. destruct (begins_dec_ (lit "<!") t) as [[z B]|B].
  - destruct A as [y ->]. discriminate.
  - now destruct (begins_dec_ (lit "</") t).
Qed.
Lemma split_last {A} (x y : list A) l c : x ++ y = l ++ [c] -> y <> [] -> exists y', y = y' ++ [c] /\ l = x ++ y'.
Proof.
  intros E N. destruct (exists_last N) as (y' & c' & ->). rewrite app_assoc in E. apply app_inj_tail in E. destruct E as [<- ->].
  now exists y'.
Qed.
Lemma depth_tags :
  (forall l, element_tags l -> depth l = 0%Z /\ forall x y, l = x ++ y -> x <> [] -> y <> [] -> (0 < depth x)%Z) /\
  (forall l, content_tags l -> depth l = 0%Z /\ forall x y, l = x ++ y -> (0 <= depth x)%Z).
Proof.
  apply tags_ind2.
  - intros t n O S. cbn. rewrite (delta_single _ _ O S). split; [easy|]. intros [|a x] [|b y] E N M; try easy.
    injection E as _ E. now destruct x.
  - intros t n body c O S _ [D IH] C. pose proof (closing_begins _ _ C) as B. cbn. rewrite depth_app, D. cbn. rewrite (delta_open _ _ O S), (delta_close _ B).
    split; [easy|]. intros [|a x] y E N M; [easy|]. injection E as <- E. symmetry in E. apply split_last in E; [|easy].
    destruct E as (y' & -> & E). cbn. rewrite (delta_open _ _ O S). specialize (IH _ _ E). lia.
  - split; [easy|]. intros [|a x] y E; [easy|discriminate].
  - intros t l B _ [D IH]. cbn. rewrite (delta_markup _ B). split; [lia|]. intros [|a x] y E; [easy|]. injection E as <- E.
    cbn. rewrite (delta_markup _ B). specialize (IH _ _ E). lia.
  - intros l1 l2 _ [D1 IH1] _ [D2 IH2]. rewrite depth_app. split; [lia|]. intros x y E. apply app_eq_app in E.
    destruct E as (z & [[-> ->]|[-> ->]]).
    + destruct x as [|a x]; [easy|]. destruct z as [|b z]; [rewrite app_nil_r in D1; lia|]. specialize (IH1 _ _ eq_refl). assert (0 < depth (a :: x))%Z by now apply IH1. lia.
    + rewrite depth_app, D1. specialize (IH2 _ _ eq_refl). lia.
Qed.
(** The depth at a place is the number of open elements. *)
Lemma reads_depth s st rest : reads s st rest ->
  match st with
  | Before toks => lexed s toks rest /\ Forall (fun x => prolog_like (snd x)) toks
  | Single => True
  | Inside names => exists pr a, lexed s (pr ++ a) rest /\ Forall (fun x => prolog_like (snd x)) pr /\
      starts_with_element a /\ depth (map snd a) = Z.of_nat (List.length names)
  end.
Proof.
  assert (One : forall rest txt t r rest', next_tag_is rest txt t r rest' -> lexed rest [(txt, t)] rest').
  { intros rest0 txt t r rest' (-> & N & T). now apply lx_tag with rest'; [..|constructor]. }
  induction 1 as [|toks rest txt t r rest' R IH N W P|toks rest txt t r rest' m R IH N W P1 P2 P3 P4 P5|toks rest txt t r rest' m R IH N W P1 P2 P3 P4 P5|names rest txt t r rest' names' R IH N X F].
  - split; constructor.
  - destruct IH as [L Q]. split; [apply lexed_app with rest; eauto|]. apply Forall_app. split; [easy|]. constructor; [|easy].
    now apply prolog_fine_like in P.
  - easy.
  - destruct IH as [L Q]. exists toks, [(txt, t)]. split; [apply lexed_app with rest; eauto|]. split; [easy|].
    split; [now exists txt, t, []|]. cbn. unfold delta. destruct (begins_dec_ (lit "<!") t) as [Z|_]; [exfalso; apply P1; now left|].
    destruct (begins_dec_ (lit "</") t); [easy|]. now destruct (ends_dec_ (lit "/>") t).
  - destruct IH as (pr & a & L & Q & (txt0 & t0 & more & -> & P0) & D). exists pr, (((txt0, t0) :: more) ++ [(txt, t)]).
    split; [rewrite app_assoc; apply lexed_app with rest; eauto|]. split; [easy|]. split; [now exists txt0, t0, (more ++ [(txt, t)])|].
    rewrite map_app, depth_app, D. cbn [map snd depth]. unfold delta.
    destruct F as [H1 H2 H3 H4|H1 H2|n l -> H2 H3 H4|n H1 H2 H3 H4 H5 H6|n H2 H3 H4 H5 H6].
    + destruct (begins_dec_ (lit "<!") t) as [Z|Z]; [lia|]. exfalso. apply Z. destruct H2 as [z ->]. now exists (lit "--" ++ z).
    + destruct (begins_dec_ (lit "<!") t) as [Z|Z]; [lia|]. exfalso. apply Z. destruct H2 as [z ->]. now exists (lit "[CDATA[" ++ z).
    + pose proof (delta_close _ H2) as Dc. unfold delta in Dc. rewrite Dc. cbn [List.length]. lia.
    + destruct (begins_dec_ (lit "<!") t) as [Z|Z]; [easy|]. destruct (begins_dec_ (lit "</") t) as [Y|Y]; [easy|].
      destruct (ends_dec_ (lit "/>") t) as [U|U]; [lia|easy].
    + destruct (begins_dec_ (lit "<!") t) as [Z|Z]; [easy|]. destruct (begins_dec_ (lit "</") t) as [Y|Y]; [easy|].
      destruct (ends_dec_ (lit "/>") t) as [U|U]; [easy|]. cbn [List.length]. lia.
Qed.

(** * The cut *)

Lemma lexed_split x : forall s y tail, lexed s (x ++ y) tail -> exists mid, lexed s x mid /\ lexed mid y tail.
Proof.
  induction x as [|[txt t] x IH]; intros s y tail H; [exists s; split; [constructor|easy]|].
  cbn in H. inversion H as [|txt' s0 t' rest toks tail' N T L]; subst. destruct (IH _ _ _ L) as (mid & A & B).
  exists mid. split; [|easy]. now apply lx_tag with rest.
Qed.
Lemma lexed_same s x m : lexed s x m -> forall m', lexed s x m' -> m = m'.
Proof.
  assert (E : forall s x m, lexed s x m -> s = List.concat (map (fun y => fst y ++ snd y) x) ++ m).
  { induction 1 as [|txt s0 t rest toks tail N T L IH]; [easy|]. apply tag_at_nonempty in T. destruct T as [-> _]. cbn.
    rewrite IH at 1. now rewrite <- !app_assoc. }
  intros H m' H'. apply E in H, H'. rewrite H in H'. now apply app_inv_head in H'.
Qed.
Lemma prolog_split (pr pr' a a' : list (str * str)) : pr ++ a = pr' ++ a' -> Forall (fun x => prolog_like (snd x)) pr ->
  Forall (fun x => prolog_like (snd x)) pr' -> starts_with_element a -> starts_with_element a' -> pr = pr' /\ a = a'.
Proof.
  intros E F F' (x & t & m & -> & P) (x' & t' & m' & -> & P'). revert pr' E F'.
  induction F as [|k l K F IH]; intros [|k' l'] E F'; cbn in E.
  - easy.
  - injection E as <- _. inversion F'; subst. easy.
  - injection E as -> _. easy.
  - injection E as <- E. inversion F'; subst. destruct (IH _ E) as [-> H]; [easy|]. now rewrite H.
Qed.
Lemma cut_starts u v pr a b : cut u v pr a b -> starts_with_element a.
Proof.
  intros ((_ & _ & _ & (txt & t & more & E & P)) & _ & N & _). destruct a as [|k a]; [easy|]. injection E as -> _. now exists txt, t, a.
Qed.
Lemma cut_rest u v pr a b : cut u v pr a b -> exists tail, lexed (u ++ v) (pr ++ a) v /\ lexed v b tail /\ no_tag tail.
Proof.
  intros (((tail & S & N) & _) & L & _). exists tail. apply lexed_tail_more with (u := v) in L. cbn in L.
  rewrite app_assoc in S. apply lexed_split in S. destruct S as (mid & S1 & S2). pose proof (lexed_same _ _ _ L _ S1). now subst mid.
Qed.
Lemma cut_state u v pr a b d : parse_str (u ++ v) = Ok d -> cut u v pr a b ->
  exists n out tail, reads u (Inside (n :: out)) [] /\ steps (Inside (n :: out), v) (Inside [], tail) /\ no_tag tail.
Proof.
  intros H C. assert (R : read_through (u ++ v)) by (apply parse_accepts; eauto). destruct R as (tail & N & R).
  destruct (cut_rest _ _ _ _ _ C) as (tail' & L & Lb & N').
  assert (S : exists fin, steps (Before [], u ++ v) (fin, tail) /\ (fin = Single \/ fin = Inside [])).
  { destruct R as [R|R]; apply reads_steps in R; eauto. }
  destruct S as (fin & S & Fin).
  destruct C as (O & Lu & Na & Nb). destruct (steps_lexed _ _ _ Lu _ _ _ _ S N) as (st & S1 & S2). cbn [app] in S2.
  assert (R1 : reads u st []) by (apply (steps_reads u (Before [], u) (st, [])); [constructor|easy]).
  pose proof (reads_depth _ _ _ (reads_more _ _ _ v R1)) as D. cbn [app] in D.
  pose proof O as (_ & Fp & Et & Se).
  assert (Sa : starts_with_element a) by (apply (cut_starts u v pr a b); easy).
  destruct st as [toks| |names].
  - exfalso. destruct D as [D F]. destruct (lexed_fun _ _ _ (lexed_app _ _ _ _ _ D Lb) N' _ _ (lexed_app _ _ _ _ _ L Lb) N') as [E _].
    apply app_inv_tail in E. subst toks. apply Forall_app in F. destruct F as [_ F]. destruct Sa as (x & t & m & -> & P). now inversion F.
  - exfalso. inversion S2 as [E|c1 c2 S3 S4]; subst.
    + destruct b as [|k b]; [easy|]. inversion Lb as [|txt s0 t rest toks tl Ht T Lr]; subst. apply tag_at_lt in T. destruct T as [z ->].
      apply N. apply in_or_app. right. now left.
    + inversion S3.
  - destruct D as (pr' & a' & D & F & Sa' & Dp). destruct (lexed_fun _ _ _ (lexed_app _ _ _ _ _ D Lb) N' _ _ (lexed_app _ _ _ _ _ L Lb) N') as [E _].
    apply app_inv_tail in E. destruct (prolog_split _ _ _ _ E F Fp Sa' Sa) as [-> ->].
    rewrite map_app in Et. destruct (proj1 depth_tags _ Et) as [_ Q]. specialize (Q _ _ eq_refl).
    assert (0 < depth (map snd a))%Z by (apply Q; [now destruct a|now destruct b]).
    destruct names as [|n out]; [cbn in Dp; lia|]. exists n, out, tail. split; [|split; [|easy]].
    2:{ destruct Fin as [->| ->]; [|easy]. exfalso. clear - S2.
        assert (G : forall c c', steps c c' -> (exists names, fst c = Inside names) -> exists names, fst c' = Inside names).
        { induction 1 as [|c c1 c2 H1 H2 IH]; [easy|]. intros [m E]. apply IH. destruct H1; cbn in E; try discriminate. now eexists. }
        destruct (G _ _ S2) as [m E]; [now eexists|]. discriminate. }
    easy.
Qed.
Lemma alone_inside s el d v n out : parse_str s = Ok d -> alone s el ->
  steps (Inside (n :: out), s ++ v) (Inside (n :: out), v).
Proof.
  intros H ((_ & _ & _ & Se) & L & B). assert (R : read_through s) by (apply parse_accepts; eauto). destruct R as (tail & N & R).
  pose proof (fun st rest => reads_inside s el L Se B v n out st rest) as K.
  assert (E : tail = []).
  { assert (X : exists toks, lexed s toks tail).
    { destruct R as [R|R].
      - inversion R as [| |toks rest txt t r rest' m R0 (-> & N0 & T)| |]; subst. apply reads_depth in R0. destruct R0 as [R0 _].
        exists (toks ++ [(txt, t)]). apply lexed_app with (txt ++ r); [easy|]. now apply lx_tag with tail; [..|constructor].
      - apply reads_depth in R. destruct R as (pr & a & R & _). eauto. }
    destruct X as [toks X]. now apply (lexed_fun _ _ _ X N _ _ L). }
  subst tail. destruct R as [R|R]; exact (K _ _ R).
Qed.
Lemma embed_reads u v s pr a b el d d2 : parse_str (u ++ v) = Ok d -> cut u v pr a b -> parse_str s = Ok d2 -> alone s el ->
  read_through (u ++ s ++ v).
Proof.
  intros H C H2 A. destruct (cut_state _ _ _ _ _ _ H C) as (n & out & tail & R & S & N). exists tail. split; [easy|]. right.
  apply reads_more with (u := s ++ v) in R. cbn [app] in R.
  apply (steps_reads (u ++ s ++ v) (Inside (n :: out), s ++ v) (Inside [], tail)); [easy|].
  apply steps_trans with (Inside (n :: out), v); [|easy]. now apply alone_inside with el d2.
Qed.

(** * Tags and items *)

Lemma insert_tags m : element_tags m ->
  (forall l, element_tags l -> forall x y, l = x ++ y -> x <> [] -> y <> [] -> element_tags (x ++ m ++ y)) /\
  (forall l, content_tags l -> forall x y, l = x ++ y -> content_tags (x ++ m ++ y)).
Proof.
  intro M. apply tags_ind2.
  - intros t n O S [|a x] [|b y] E Nx Ny; try easy. injection E as _ E. now destruct x.
  - intros t n body c O S _ IH C [|a x] y E Nx Ny; [easy|]. injection E as <- E. symmetry in E. apply split_last in E; [|easy].
    destruct E as (y' & -> & E). specialize (IH _ _ E). cbn. rewrite !app_assoc. rewrite <- (app_assoc x). now apply et_pair with n.
  - intros [|a x] [|b y] E; try easy. cbn. apply ct_elem; [easy|constructor].
  - intros t l B Hl IH [|a x] y E; cbn in E.
    + subst y. cbn. apply ct_elem; [easy|]. now constructor.
    + injection E as <- E. cbn. constructor; [easy|]. now apply IH.
  - intros l1 l2 H1 IH1 H2 IH2 x y E. apply app_eq_app in E. destruct E as (z & [[-> ->]|[-> ->]]).
    + destruct x as [|a x]; [cbn; apply ct_elem; [easy|]; now apply ct_elem|].
      destruct z as [|b z]; [rewrite app_nil_r in H1; apply ct_elem; [easy|]; now apply ct_elem|].
      specialize (IH1 _ _ eq_refl). rewrite !app_assoc. apply ct_elem; [|easy]. rewrite <- !app_assoc. now apply IH1.
    + rewrite <- app_assoc. apply ct_elem; [easy|]. now apply IH2.
Qed.
Lemma embed_tags u v s pr a b el : cut u v pr a b -> alone s el -> one_root (u ++ s ++ v) pr (a ++ el ++ b).
Proof.
  intros C A. destruct (cut_rest _ _ _ _ _ C) as (tail & L & Lb & N). pose proof (cut_starts _ _ _ _ _ C) as Sa.
  destruct C as ((_ & Fp & Et & _) & Lu & Na & Nb). destruct A as ((_ & _ & Et2 & _) & Ls & B).
  repeat split; [|easy| |].
  - exists tail. split; [|easy]. apply lexed_tail_more with (u := s ++ v) in Lu. cbn in Lu.
    apply lexed_tail_more with (u := v) in Ls. cbn in Ls. rewrite (app_assoc pr). apply lexed_app with (s ++ v); [easy|]. apply lexed_app with v; easy.
  - rewrite map_app in Et. rewrite !map_app. apply (proj1 (insert_tags _ Et2) _ Et); [easy|now destruct a|now destruct b].
  - destruct Sa as (txt & t & more & -> & P). now exists txt, t, (more ++ el ++ b).
Qed.
Lemma items_app a A : items a A -> forall b B, items b B -> items (a ++ b) (A ++ B).
Proof. induction 1 as [|txt t toks i j l X G F IH]; intros b B H; [easy|]. rewrite <- !app_assoc. cbn. constructor; [easy..|]. now apply IH. Qed.
Lemma items_split a : forall b I, items (a ++ b) I -> exists A B, I = A ++ B /\ items a A /\ items b B.
Proof.
  induction a as [|[txt t] a IH]; intros b I H; [exists [], I; repeat split; [constructor|easy]|].
  cbn in H. inversion H as [|? ? ? i j l X G F]; subst. destruct (IH _ _ F) as (A & B & -> & HA & HB).
  exists (i ++ j ++ A), B. split; [now rewrite <- !app_assoc|]. split; [now constructor|easy].
Qed.
Lemma items_nonempty a A : items a A -> a <> [] -> A <> [].
Proof.
  intros [|txt t toks i j l X G F] N; [easy|]. intro E. apply app_eq_nil in E. destruct E as [_ E]. apply app_eq_nil in E.
  destruct E as [-> _]. inversion G.
Qed.

(** * Trees *)

Lemma alike_refl e : alike_head e e.
Proof. now repeat split. Qed.
Lemma alike_all l : Forall2 alike_head l l.
Proof. induction l; constructor; [apply alike_refl|easy]. Qed.
Lemma items_alike :
  (forall anc e is, element_of_items anc e is -> forall anc', Forall2 alike_head anc anc' -> element_of_items anc' e is) /\
  (forall anc ns is, nodes_of_items anc ns is -> forall anc', Forall2 alike_head anc anc' -> nodes_of_items anc' ns is).
Proof.
  apply items_ind2.
  - intros anc e n l is L X C _ IH anc' F. assert (F' : Forall2 alike_head (e :: anc) (e :: anc')) by (constructor; [apply alike_refl|easy]).
    constructor; [easy| | |now apply IH].
    + now rewrite X; apply rule_alike.
    + intro p. rewrite C. now apply nearest_alike.
  - intros anc anc' F. constructor.
  - intros anc n ns is N _ IH anc' F. constructor; auto.
  - intros anc e ns is is' _ IH1 _ IH2 anc' F. constructor; auto.
Qed.
Lemma nodes_app anc x A : nodes_of_items anc x A -> forall y B, nodes_of_items anc y B -> nodes_of_items anc (x ++ y) (A ++ B).
Proof.
  induction 1 as [|anc n ns is N H IH|anc e ns is is' He H IH]; intros y B Hy; [easy|cbn; constructor; auto|].
  cbn. rewrite <- app_assoc. constructor; auto.
Qed.
Lemma other_alike e l : alike_head e (other_children e l).
Proof. now repeat split. Qed.
Lemma put_at e x c y path c' : children e = x ++ NElem c :: y ->
  put_element (List.length x :: path) c' e = other_children e (x ++ NElem (put_element path c' c) :: y).
Proof.
  intro E. cbn [put_element]. rewrite E. rewrite nth_error_app2, Nat.sub_diag by lia. cbn [nth_error]. unfold other_children. f_equal.
  rewrite firstn_app, Nat.sub_diag, firstn_all. cbn [firstn]. rewrite app_nil_r. f_equal. f_equal. clear E. now induction x.
Qed.
Lemma insert_items :
  (forall anc e is, element_of_items anc e is -> forall A B, is = A ++ B -> A <> [] -> B <> [] ->
    exists path c x y, element_at e path = Some c /\ children c = x ++ y /\
      forall m ms, nodes_of_items (lineage e path anc) m ms ->
        element_of_items anc (put_element path (other_children c (x ++ m ++ y)) e) (A ++ ms ++ B)) /\
  (forall anc ns is, nodes_of_items anc ns is -> forall A B, is = A ++ B ->
    (exists x y, ns = x ++ y /\ nodes_of_items anc x A /\ nodes_of_items anc y B) \/
    (exists l e r path c x y, ns = l ++ NElem e :: r /\ element_at e path = Some c /\ children c = x ++ y /\
      forall m ms, nodes_of_items (lineage e path anc) m ms ->
        nodes_of_items anc (l ++ NElem (put_element path (other_children c (x ++ m ++ y)) e) :: r) (A ++ ms ++ B))).
Proof.
  apply items_ind2.
  - intros anc e n l is L X C Ns IH A B E NA NB. destruct A as [|i A]; [easy|]. injection E as <- E. symmetry in E.
    apply split_last in E; [|easy]. destruct E as (B' & -> & E). destruct (IH _ _ E) as [(x & y & Ec & Hx & Hy)|(lf & e' & r & path & c & x & y & Ec & Ea & Ey & K)].
    + exists [], e, x, y. split; [easy|]. split; [easy|]. cbn [lineage put_element]. intros m ms Hm. cbn [app].
      replace (A ++ ms ++ B' ++ [IClose]) with ((A ++ ms ++ B') ++ [IClose]) by now rewrite <- !app_assoc.
      constructor; [exact L| | |].
      * cbn. rewrite X. apply rule_alike; [easy|easy|apply alike_all].
      * intro p. cbn [other_children e_context]. rewrite C. apply nearest_alike. constructor; [apply other_alike|apply alike_all].
      * cbn [other_children e_children]. apply (proj2 items_alike) with (e :: anc); [|constructor; [apply other_alike|apply alike_all]].
        apply nodes_app; [easy|]. now apply nodes_app.
    + exists (List.length lf :: path), c, x, y. split; [|split; [easy|]].
      { cbn. change (children e) with (e_children e). rewrite Ec, nth_error_app2, Nat.sub_diag by lia. exact Ea. }
      intros m ms Hm. rewrite (put_at _ lf e' r) by exact Ec. cbn [app].
      replace (A ++ ms ++ B' ++ [IClose]) with ((A ++ ms ++ B') ++ [IClose]) by now rewrite <- !app_assoc.
      cbn [lineage] in Hm. change (children e) with (e_children e) in Hm. rewrite Ec, nth_error_app2, Nat.sub_diag in Hm by lia. cbn [nth_error] in Hm.
      constructor; [exact L| | |].
      * cbn. rewrite X. apply rule_alike; [easy|easy|apply alike_all].
      * intro p. cbn [other_children e_context]. rewrite C. apply nearest_alike. constructor; [apply other_alike|apply alike_all].
      * cbn [other_children e_children]. apply (proj2 items_alike) with (e :: anc); [|constructor; [apply other_alike|apply alike_all]].
        now apply K.
  - intros anc A B E. symmetry in E. apply app_eq_nil in E. destruct E as [-> ->]. left. exists [], []. split; [easy|]. split; constructor.
  - intros anc n ns is N H IH A B E. destruct A as [|i A].
    + left. exists [], (n :: ns). split; [easy|]. split; [constructor|]. cbn in E. rewrite <- E. now constructor.
    + injection E as <- E. destruct (IH _ _ E) as [(x & y & -> & Hx & Hy)|(lf & e' & r & path & c & x & y & -> & Ea & Ey & K)].
      * left. exists (n :: x), y. split; [easy|]. split; [now constructor|easy].
      * right. exists (n :: lf), e', r, path, c, x, y. split; [easy|]. split; [easy|]. split; [easy|].
        intros m ms Hm. cbn. constructor; [easy|]. now apply K.
  - intros anc e ns is is' He IHe Hn IHn A B E. apply app_eq_app in E. destruct E as (z & [[-> ->]|[-> ->]]).
    + destruct A as [|i A].
      { left. exists [], (NElem e :: ns). split; [easy|]. split; [constructor|]. now constructor. }
      destruct z as [|j z].
      { left. exists [NElem e], ns. split; [easy|]. rewrite app_nil_r in He. cbn [app]. split; [|easy].
        rewrite <- (app_nil_r (i :: A)). constructor; [easy|constructor]. }
      destruct (IHe _ _ eq_refl) as (path & c & x & y & Ea & Ey & K); [easy|easy|].
      right. exists [], e, ns, path, c, x, y. split; [easy|]. split; [easy|]. split; [easy|]. intros m ms Hm. cbn [app].
      replace (i :: A ++ ms ++ j :: z ++ is') with (((i :: A) ++ ms ++ (j :: z)) ++ is') by (cbn; now rewrite <- !app_assoc).
      constructor; [now apply K|easy].
    + destruct (IHn _ _ eq_refl) as [(x & y & -> & Hx & Hy)|(lf & e' & r & path & c & x & y & -> & Ea & Ey & K)].
      * left. exists (NElem e :: x), y. split; [easy|]. split; [now constructor|easy].
      * right. exists (NElem e :: lf), e', r, path, c, x, y. split; [easy|]. split; [easy|]. split; [easy|].
        intros m ms Hm. cbn [app]. rewrite <- app_assoc. constructor; [easy|]. now apply K.
Qed.

(** * Namespaces in the new place *)

Lemma aget_cons p k v m : aget p ((k, v) :: m) = if str_eqb p k then Some v else aget p m.
Proof. reflexivity. Qed.
Lemma context_exists l : exists m, forall p, aget p m = nearest (lit "xmlns:" ++ p) l.
Proof.
  induction l as [|e l [m IH]]; [now exists []|].
  assert (H : forall at_ : amap, exists m1, forall p, aget p m1 = match aget (lit "xmlns:" ++ p) at_ with Some v => Some v | None => aget p m end).
  { intro at_. induction at_ as [|[k v] at_ [m1 IH1]]; [now exists m|].
    destruct (starts_with (lit "xmlns:") k) eqn:S.
    - apply starts_with_spec in S. destruct S as [q ->]. exists ((q, v) :: m1). intro p. rewrite !aget_cons.
      destruct (str_eqb p q) eqn:Q.
      + apply str_eqb_eq in Q. subst q. now rewrite str_eqb_refl.
      + rewrite IH1. destruct (str_eqb (lit "xmlns:" ++ p) (lit "xmlns:" ++ q)) eqn:Q2; [|easy].
        apply str_eqb_eq in Q2. apply app_inv_head in Q2. subst q. now rewrite str_eqb_refl in Q.
    - exists m1. intro p. rewrite IH1, aget_cons. destruct (str_eqb (lit "xmlns:" ++ p) k) eqn:Q; [|easy].
      apply str_eqb_eq in Q. subst k. now rewrite starts_with_app in S. }
  destruct (H (e_attributes e)) as [m1 H1]. exists m1. intro p. rewrite H1. cbn [nearest]. unfold get_attr. now rewrite IH.
Qed.

Lemma moved_alike :
  (forall anc e e', moved anc e e' -> forall anc', Forall2 alike_head anc anc' -> moved anc' e e') /\
  (forall anc l l', moved_nodes anc l l' -> forall anc', Forall2 alike_head anc anc' -> moved_nodes anc' l l').
Proof.
  apply moved_ind2.
  - intros anc e e' H1 H2 H3 H4 H5 _ IH anc' F.
    assert (F' : Forall2 alike_head (e' :: anc) (e' :: anc')) by (constructor; [apply alike_refl|easy]).
    constructor; try easy; [| |now apply IH].
    + rewrite H4. now apply rule_alike.
    + intro p. rewrite H5. now apply nearest_alike.
  - intros anc anc' F. constructor.
  - intros anc n l l' N _ IH anc' F. constructor; auto.
  - intros anc e e' l l' _ IH1 _ IH2 anc' F. constructor; auto.
Qed.
Lemma items_moved :
  (forall anc e is, element_of_items anc e is -> forall anc', exists e', element_of_items anc' e' is /\ moved anc' e e') /\
  (forall anc ns is, nodes_of_items anc ns is -> forall anc', exists ns', nodes_of_items anc' ns' is /\ moved_nodes anc' ns ns').
Proof.
  apply items_ind2.
  - intros anc e n l is L X C _ IH anc'. destruct (context_exists (e :: anc')) as [ctx Hc].
    set (h := mkElem (e_name e) [] (e_attributes e) (namespace_rule e anc') (e_prefix e) ctx).
    destruct (IH (h :: anc')) as (ns & H1 & H2).
    exists (mkElem (e_name e) ns (e_attributes e) (namespace_rule e anc') (e_prefix e) ctx). set (e' := mkElem _ ns _ _ _ _).
    assert (A : Forall2 alike_head (h :: anc') (e' :: anc')) by (constructor; [now repeat split|apply alike_all]).
    assert (Q : namespace_rule e anc' = namespace_rule e' anc') by (apply rule_alike; [easy|easy|apply alike_all]).
    assert (K : forall p, aget p (e_context e') = nearest (lit "xmlns:" ++ p) (e' :: anc')) by (intro p; now rewrite Hc).
    split.
    + constructor; [exact L|exact Q|exact K|]. exact (proj2 items_alike _ _ _ H1 _ A).
    + constructor; [easy|easy|easy|exact Q|exact K|]. exact (proj2 moved_alike _ _ _ H2 _ A).
  - intros anc anc'. exists []. split; constructor.
  - intros anc n ns is N _ IH anc'. destruct (IH anc') as (ns' & H1 & H2). exists (n :: ns'). split; now constructor.
  - intros anc e ns is is' _ IH1 _ IH2 anc'. destruct (IH1 anc') as (e' & A1 & A2), (IH2 anc') as (ns' & B1 & B2).
    exists (NElem e' :: ns'). split; now constructor.
Qed.
(** Elements on which no namespace is declared do not matter. *)
Definition quiet (anc : list elem) : Prop :=
  Forall declares_nothing anc /\ forall q l, anc = q :: l -> e_prefix q = None -> e_xmlns q = None.
Lemma quiet_attr e k : declares_nothing e -> begins (lit "xmlns") k -> get_attr e k = None.
Proof.
  intros D B. unfold get_attr. destruct (aget k (e_attributes e)) as [v|] eqn:E; [|easy]. apply aget_in in E. now apply D in E.
Qed.
Lemma quiet_nearest anc k : Forall declares_nothing anc -> begins (lit "xmlns") k -> nearest k anc = None.
Proof. intros F B. induction F as [|e l H F IH]; [easy|]. cbn. now rewrite (quiet_attr _ _ H B). Qed.
Lemma nearest_quiet l anc k : Forall declares_nothing anc -> begins (lit "xmlns") k -> nearest k (l ++ anc) = nearest k l.
Proof. intros F B. induction l as [|e l IH]; cbn; [now apply quiet_nearest|]. now rewrite IH. Qed.
Lemma rule_quiet e l anc : quiet anc -> namespace_rule e (l ++ anc) = namespace_rule e l.
Proof.
  intros [F H]. unfold namespace_rule. destruct (e_prefix e) as [p|].
  - rewrite !nearest_quiet; [easy|easy|now exists (lit ":" ++ p)|easy|now exists (lit ":" ++ lit "xmlns:" ++ p)].
  - destruct (get_attr e (lit "xmlns")); [easy|]. destruct l as [|q l]; [|easy]. cbn. destruct anc as [|q anc]; [easy|].
    specialize (H q anc eq_refl). destruct (e_prefix q); [easy|]. now apply H.
Qed.
Lemma items_quiet anc : quiet anc ->
  (forall l e is, element_of_items l e is -> element_of_items (l ++ anc) e is) /\
  (forall l ns is, nodes_of_items l ns is -> nodes_of_items (l ++ anc) ns is).
Proof.
  intro Q. apply items_ind2.
  - intros l e n at_ is L X C _ IH. constructor; [easy| | |exact IH].
    + now rewrite rule_quiet.
    + intro p. rewrite C. symmetry. apply (nearest_quiet (e :: l)); [apply Q|now exists (lit ":" ++ p)].
  - intro l. constructor.
  - intros l n ns is N _ IH. now constructor.
  - intros l e ns is is' _ IH1 _ IH2. now constructor.
Qed.
Lemma lineage_around e : forall path around, exists l, lineage e path around = l ++ e :: around.
Proof.
  intro path. revert e. induction path as [|i path IH]; intros e around; [now exists []|]. cbn.
  destruct (nth_error (children e) i) as [[c| | |]|]; try (now exists []).
  destruct (IH c (e :: around)) as [l ->]. exists (l ++ [c]). now rewrite <- app_assoc.
Qed.
Lemma nodes_in anc ns is e : nodes_of_items anc ns is -> In (NElem e) ns -> exists is', element_of_items anc e is'.
Proof.
  induction 1 as [|anc n ns is N H IH|anc e' ns is is' He H IH]; intro I; [easy|destruct I as [E|I]; auto|destruct I as [E|I]; auto].
  - now apply N in E.
  - injection E as ->. eauto.
Qed.
Lemma lineage_quiet path : forall anc e is c, element_of_items anc e is -> element_at e path = Some c -> quiet anc ->
  Forall declares_nothing (lineage e path anc) -> quiet (lineage e path anc).
Proof.
  induction path as [|i path IH]; intros anc e is c He Ea [Fa Ha] F.
  - cbn in *. split; [easy|]. intros q l E P. injection E as <- <-. inversion He as [? ? n at_ is0 L X C Ns]; subst.
    rewrite X. unfold namespace_rule. rewrite P. inversion F as [|? ? D _]; subst.
    rewrite (quiet_attr _ _ D) by now exists []. destruct anc as [|q l]; [easy|]. specialize (Ha q l eq_refl).
    destruct (e_prefix q); [easy|]. now apply Ha.
  - cbn in *. destruct (nth_error (children e) i) as [[c'| | |]|] eqn:En; try easy.
    apply nth_error_In in En. pose proof He as He'. inversion He as [? ? n at_ is0 L X C Ns]; subst.
    destruct (nodes_in _ _ _ _ Ns En) as [is' Hc]. apply (IH _ _ _ _ Hc Ea); [|easy].
    destruct (lineage_around c' path (e :: anc)) as [l El]. rewrite El in F. apply Forall_app in F. destruct F as [_ F].
    inversion F as [|? ? _ F2]; subst. split; [easy|]. intros q l' E P. injection E as <- <-.
    rewrite X. unfold namespace_rule. rewrite P. inversion F2 as [|? ? D _]; subst.
    rewrite (quiet_attr _ _ D) by now exists []. destruct anc as [|q l']; [easy|]. specialize (Ha q l' eq_refl).
    destruct (e_prefix q); [easy|]. now apply Ha.
Qed.

(** * Documents *)

Lemma declares_dec e : declares_nothing e \/ ~ declares_nothing e.
Proof.
  unfold declares_nothing. induction (e_attributes e) as [|[k v] l IH]; [left; now intros k v|].
  destruct (begins_dec_ (lit "xmlns") k) as [B|B].
  - right. intro H. apply (H k v); [now left|easy].
  - destruct IH as [IH|IH].
    + left. intros k' v' [E|I]; [now injection E as <- <-|now apply IH with v'].
    + right. intro H. apply IH. intros k' v' I. apply H with v'. now right.
Qed.
Lemma all_declare_dec l : Forall declares_nothing l \/ ~ Forall declares_nothing l.
Proof.
  induction l as [|e l IH]; [now left|]. destruct (declares_dec e) as [D|D]; [|right; intro F; now inversion F].
  destruct IH as [IH|IH]; [left; now constructor|right; intro F; now inversion F].
Qed.
Lemma items_moved_same :
  (forall anc e is, element_of_items anc e is -> moved anc e e) /\ (forall anc ns is, nodes_of_items anc ns is -> moved_nodes anc ns ns).
Proof.
  apply items_ind2.
  - intros anc e n l is L X C _ IH. now constructor.
  - intro anc. constructor.
  - intros anc n ns is N _ IH. now constructor.
  - intros anc e ns is is' _ IH1 _ IH2. now constructor.
Qed.
Lemma quiet_nil : quiet [].
Proof. split; [constructor|]. intros q l E. discriminate E. Qed.
(** Adding to a tree that declares no namespaces. *)
Lemma settled_alone anc e is : element_of_items anc e is -> set_namespace_context e None (Some []) = e.
Proof.
  intro H. inversion H as [? ? n l is0 L X C Ns]; subst. unfold set_namespace_context, default_namespace.
  destruct e as [nm ch at_ ns [p|] ctx]; cbn in *.
  - destruct ns as [ns|]; [easy|]. specialize (C p). cbn in C. rewrite C. unfold namespace_rule in X. cbn in X.
    repeat match type of X with None = match ?x with _ => _ end => destruct x; [discriminate|] end.
    unfold set_xmlns. cbn. f_equal. symmetry. exact X.
  - now destruct ns.
Qed.
Lemma element_at_items path : forall anc e is c, element_of_items anc e is -> element_at e path = Some c ->
  exists l is', lineage e path anc = c :: l /\ element_of_items l c is'.
Proof.
  induction path as [|i path IH]; intros anc e is c He Ea; cbn in *.
  - injection Ea as <-. eauto.
  - destruct (nth_error (children e) i) as [[c'| | |]|] eqn:En; try easy. apply nth_error_In in En.
    inversion He as [? ? n at_ is0 L X C Ns]; subst. destruct (nodes_in _ _ _ _ Ns En) as [is' Hc]. exact (IH _ _ _ _ Hc Ea).
Qed.
Lemma element_at_normal path : forall e c, tree_normal e -> element_at e path = Some c -> text_normal (children c).
Proof.
  induction path as [|i path IH]; intros e c H Ea; cbn in *.
  - injection Ea as <-. now destruct H.
  - destruct (nth_error (children e) i) as [[c'| | |]|] eqn:En; try easy. apply nth_error_In in En. destruct H as [e H1 H2].
    now apply IH with c'; [apply H2|].
Qed.
Lemma normal_insert x y e : text_normal (x ++ y) -> text_normal (x ++ NElem e :: y).
Proof.
  intros [A B]. split.
  - intros a s t b E. apply app_eq_app in E. destruct E as (z & [[-> E]|[-> E]]).
    + destruct z as [|n z]; [cbn in E; injection E as E1 E2; discriminate|].
      injection E as <- E. destruct z as [|n z]; [discriminate|]. injection E as <- E.
      apply (A a s t (z ++ y)). rewrite <- app_assoc. reflexivity.
    + destruct z as [|n z]; [discriminate|]. injection E as <- E. apply (A (x ++ z) s t b). rewrite E, <- app_assoc. reflexivity.
  - intros s I. apply B. apply in_or_app. apply in_app_or in I. destruct I as [I|[I|I]]; [now left|discriminate|now right].
Qed.
Lemma empty_map (m : amap) : (forall k, aget k m = None) -> m = [].
Proof. destruct m as [|[k v] m]; [easy|]. intro H. specialize (H k). rewrite aget_cons, str_eqb_refl in H. discriminate. Qed.
Lemma quiet_insert root is path c x y e is2 : element_of_items [] root is -> tree_normal root ->
  element_at root path = Some c -> children c = x ++ y -> Forall declares_nothing (lineage root path []) ->
  element_of_items (lineage root path []) e is2 ->
  insert c (List.length x) (NElem e) = Ok (other_children c (x ++ NElem e :: y)) /\
  (y = [] -> append c (NElem e) = Ok (other_children c (x ++ [NElem e]))).
Proof.
  intros He Tn Ea Ec F H2. pose proof (lineage_quiet _ _ _ _ _ He Ea quiet_nil F) as [_ Q].
  destruct (element_at_items _ _ _ _ _ He Ea) as (l & is' & El & Hc). rewrite El in *.
  assert (D : default_namespace c = None).
  { unfold default_namespace. specialize (Q c l eq_refl). destruct (e_prefix c); [easy|]. now apply Q. }
  inversion Hc as [? ? n at_ is0 L X C Ns]; subst.
  assert (K : e_context c = []).
  { apply empty_map. intro p. rewrite C. apply quiet_nearest; [easy|]. now exists (lit ":" ++ p). }
  assert (I : forall z is3, element_of_items (c :: l) z is3 -> inherited c (NElem z) = NElem z).
  { intros z is3 Hz. unfold inherited, apply_xmlns_context. rewrite D, K. f_equal. exact (settled_alone _ _ _ Hz). }
  assert (N : clean (x ++ NElem e :: y) = x ++ NElem e :: y).
  { apply clean_fixed. apply normal_insert. rewrite <- Ec. now apply element_at_normal with path root. }
  split.
  - destruct (@exists_last _ (x ++ NElem e :: y)) as (front & last & Ef); [now destruct x|].
    rewrite (insert_eq c x y (NElem e) Ec front last Ef).
    assert (J : inherited c last = last).
    { assert (In last (x ++ NElem e :: y)) by (rewrite Ef; apply in_or_app; right; now left).
      destruct last as [z| | |]; try reflexivity. apply in_app_or in H. destruct H as [H|[H|H]].
      - destruct (nodes_in _ _ _ z Ns) as [is3 Hz]; [|now apply I with is3]. change (e_children c) with (children c). rewrite Ec. apply in_or_app. now left.
      - injection H as <-. now apply I with is2.
      - destruct (nodes_in _ _ _ z Ns) as [is3 Hz]; [|now apply I with is3]. change (e_children c) with (children c). rewrite Ec. apply in_or_app. now right. }
    rewrite J, <- Ef, N. reflexivity.
  - intros ->. rewrite append_eq. rewrite (I _ _ H2). change (e_children c) with (children c). rewrite Ec, app_nil_r, N. reflexivity.
Qed.
Theorem embedding u v pr a b d : parse_str (u ++ v) = Ok d -> cut u v pr a b ->
  exists path c x y, element_at (d_root d) path = Some c /\ children c = x ++ y /\
    forall s el d2, parse_str s = Ok d2 -> alone s el ->
    exists e d3, moved (lineage (d_root d) path []) (d_root d2) e /\
      (Forall declares_nothing (lineage (d_root d) path []) -> e = d_root d2 /\
        insert c (List.length x) (NElem e) = Ok (other_children c (x ++ NElem e :: y)) /\
        (y = [] -> append c (NElem e) = Ok (other_children c (x ++ [NElem e])))) /\
      parse_str (u ++ s ++ v) = Ok d3 /\
      doc_same d3 (mkDoc (d_declaration d) (d_dtds d) (put_element path (other_children c (x ++ NElem e :: y)) (d_root d))).
Proof.
  intros H Ct. assert (Sf : stands_for pr (a ++ b) d) by (apply accepts_stands with (u ++ v); [now apply parsed_accepts|apply Ct]).
  destruct Sf as (Dc & Dt & is & Hi & He). destruct (items_split _ _ _ Hi) as (A & B & -> & HA & HB).
  destruct (proj1 insert_items _ _ _ He A B eq_refl) as (path & c & x & y & Ea & Ey & K);
    [apply (items_nonempty a); [easy|apply Ct]|apply (items_nonempty b); [easy|apply Ct]|].
  exists path, c, x, y. split; [easy|]. split; [easy|]. intros s el d2 H2 Al.
  assert (Sf2 : stands_for [] el d2) by (apply accepts_stands with s; [now apply parsed_accepts|apply Al]).
  destruct Sf2 as (_ & _ & is2 & Hi2 & He2).
  assert (M : exists e, element_of_items (lineage (d_root d) path []) e is2 /\ moved (lineage (d_root d) path []) (d_root d2) e /\
    (Forall declares_nothing (lineage (d_root d) path []) -> e = d_root d2)).
  { destruct (all_declare_dec (lineage (d_root d) path [])) as [F|F].
    - exists (d_root d2). assert (E : element_of_items (lineage (d_root d) path []) (d_root d2) is2).
      { pose proof (lineage_quiet _ _ _ _ _ He Ea quiet_nil F) as Q. exact (proj1 (items_quiet _ Q) [] _ _ He2). }
      split; [easy|]. split; [|easy]. now apply (proj1 items_moved_same) with is2.
    - destruct (proj1 items_moved _ _ _ He2 (lineage (d_root d) path [])) as (e & M1 & M2). exists e. now split. }
  destruct M as (e & M1 & M2 & M3). exists e.
  assert (R : read_through (u ++ s ++ v)) by now apply embed_reads with pr a b el d d2.
  apply parse_accepts in R. destruct R as [d3 R]. exists d3. split; [easy|].
  split; [|split; [easy|]].
  { intro F. split; [now apply M3|]. destruct (C48_parsed_valid _ _ H) as [_ Tn]. exact (quiet_insert _ _ _ _ _ _ _ _ He Tn Ea Ey F M1). }
  apply stands_for_fun with pr (a ++ el ++ b).
  - apply accepts_stands with (u ++ s ++ v); [now apply parsed_accepts|now apply embed_tags].
  - split; [easy|]. split; [easy|]. exists (A ++ is2 ++ B). split; [apply items_app; [easy|now apply items_app]|].
    apply (K [NElem e] is2). rewrite <- (app_nil_r is2). constructor; [easy|constructor].
Qed.

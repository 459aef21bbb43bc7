(** Namespaces of parsed documents. *)
From Coq Require Import List NArith Arith Bool Ascii String Lia.
From Verif Require Import Base BaseFacts Escape Dom Spec EscapeFacts SpecDom DomFacts SpecApi ApiFacts
  ParseTree SpecTree ParseTreeFacts Parse SpecLex SpecParse LexFacts ParseFacts DocFacts TagFacts AcceptFacts ParsedFacts.
Import ListNotations.

(** The namespace the parser gives to an element whose ancestors are [anc],
    innermost first. *)
Definition parsed_ns (e : elem) (anc : list elem) : option str :=
  match e_prefix e with
  | None =>
      match get_attr e (lit "xmlns") with
      | Some v => Some v
      | None => match anc with
                | [] => None
                | q :: _ => match e_prefix q with None => e_xmlns q | Some _ => None end
                end
      end
  | Some p =>
      match get_attr e (lit "xmlns:" ++ p) with
      | Some v => Some v
      | None => match nearest (lit "xmlns:" ++ lit "xmlns:" ++ p) anc with
                | Some v => Some v
                | None => nearest (lit "xmlns:" ++ p) anc
                end
      end
  end.
Definition scope_ok (e : elem) (anc : list elem) : Prop :=
  (forall p, aget p (e_context e) = nearest (lit "xmlns:" ++ p) (e :: anc)) /\
  e_xmlns e = parsed_ns e anc /\
  (match anc with [] => forall p, e_prefix e = Some p -> get_attr e (lit "xmlns:" ++ p) <> None
   | q :: _ => inherited q (NElem e) = NElem e end).

Lemma context_bare nm prefix l ns p : aget p (e_context (bare nm prefix (set_all l []) ns)) =
  aget (lit "xmlns:" ++ p) (set_all l []).
Proof. cbn [bare e_context]. apply context_get. apply set_all_ok. constructor. Qed.


Lemma element_of_scope top b e anc : element_of top b = Ok e ->
  match top with
  | None => anc = []
  | Some q => exists anc', anc = q :: anc' /\ scope_ok q anc'
  end -> scope_ok e anc.
Proof.
  intros H Ht. apply element_of_spec in H. destruct H as (nm & comps & l & prefix & local & W & Rl & Q & V1 & V2 & Hp & ->).
  set (m := set_all l []) in *. destruct top as [q|].
  - destruct Ht as (anc' & -> & Hc & Hx & Hi).
    pose proof (inherited_adopted q (NElem (bare local prefix m (explicit_ns (Some q) m prefix)))) as A.
    rewrite <- adopt_opt_inherited in A. set (c := adopt_opt (Some q) _) in *.
    destruct A as (_ & _ & Aa & Ap & Ac & Ax). cbn [bare e_attributes e_prefix] in Aa, Ap.
    assert (Hctx : forall p, aget p (e_context c) = nearest (lit "xmlns:" ++ p) (c :: q :: anc')).
    { intro p. rewrite Ac, (context_bare local prefix l), Hc. cbn [nearest]. unfold get_attr at 2. now rewrite Aa. }
    split; [exact Hctx|]. split.
    + rewrite Ax. unfold parsed_ns, get_attr. rewrite Aa, Ap. cbn [bare e_xmlns e_prefix].
      destruct prefix as [p|]; cbn [explicit_ns new_xmlns].
      * destruct (aget (lit "xmlns:" ++ p) m) as [v|] eqn:Em; [easy|].
        pose proof (Hc (lit "xmlns:" ++ p)) as Hn. rewrite Hn.
        destruct (nearest (lit "xmlns:" ++ lit "xmlns:" ++ p) (q :: anc')) as [v|]; [easy|].
        unfold new_xmlns. change (sXmlnsC ++ p) with (lit "xmlns:" ++ p). rewrite Em, Hctx. cbn [nearest].
        unfold get_attr at 1. now rewrite Aa, Em.
      * change sXmlns with (lit "xmlns"). now destruct (aget (lit "xmlns") m).
    + change (inherited q (NElem (adopt_opt (Some q) (bare local prefix m (explicit_ns (Some q) m prefix)))) =
        NElem (adopt_opt (Some q) (bare local prefix m (explicit_ns (Some q) m prefix)))).
      rewrite adopt_opt_inherited. apply inherited_idem.
  - subst anc. cbn [adopt_opt]. split; [|split].
    + intro p. rewrite (context_bare local prefix l). cbn [nearest get_attr bare e_attributes]. fold m.
      unfold get_attr. cbn [bare e_attributes]. now destruct (aget _ m).
    + unfold parsed_ns, get_attr. cbn [bare e_xmlns e_attributes e_prefix nearest].
      destruct prefix as [p|]; cbn [explicit_ns new_xmlns].
      * destruct (aget (lit "xmlns:" ++ p) m) as [v|] eqn:Em; [easy|].
        change (sXmlnsC ++ p) with (lit "xmlns:" ++ p). exact Em.
      * change sXmlns with (lit "xmlns"). now destruct (aget (lit "xmlns") m).
    + cbn [bare e_prefix]. intros p ->. specialize (Hp eq_refl p eq_refl). unfold get_attr. cbn [bare e_attributes].
      intro G. now apply aget_none in G.
Qed.

Inductive rt_scoped : list elem -> rtree -> Prop :=
| rsc_elem anc e ks : scope_ok e anc -> (forall k, In k ks -> rt_scoped (e :: anc) k) -> rt_scoped anc (RT (NElem e) ks)
| rsc_leaf anc n ks : (forall e, n <> NElem e) -> rt_scoped anc (RT n ks).
Fixpoint frames_scoped (l : list (elem * list rtree)) : Prop :=
  match l with
  | [] => True
  | (e, ks) :: l' => scope_ok e (map fst l') /\ (forall k, In k ks -> rt_scoped (e :: map fst l') k) /\ frames_scoped l'
  end.
Definition m_scoped (m : machine) : Prop :=
  match m with
  | MNew => True
  | MOpen e ks outer => frames_scoped ((e, ks) :: outer)
  | MDone e ks => frames_scoped [(e, ks)]
  end.
Lemma frames_snoc e ks k outer : frames_scoped ((e, ks) :: outer) -> rt_scoped (e :: map fst outer) k ->
  frames_scoped ((e, ks ++ [k]) :: outer).
Proof.
  intros (H1 & H2 & H3) Hk. split; [easy|]. split; [|easy]. intros k' Hk'. apply in_app_or in Hk'.
  destruct Hk' as [Hk'|[<-|[]]]; [now apply H2|easy].
Qed.
Lemma inside_scoped m toks m' : inside m toks m' -> Forall (fun x => delimited (snd x)) toks -> m_scoped m -> m_scoped m'.
Proof.
  induction 1 as [m|e ks outer txt t toks m1 m2 m' X G F IH]; intros D Sc; [easy|].
  apply Forall_cons_iff in D. destruct D as [D1 D2]. cbn [snd] in D1. apply IH; [easy|]. clear IH F D2.
  assert (Sc1 : m_scoped m1).
  { destruct X as [X|op m1 X E]; [easy|]. inversion X; subst. cbn in E. injection E as <-.
    apply frames_snoc; [easy|]. now apply rsc_leaf. }
  destruct (text_step_open _ _ _ _ _ X) as [ks1 ->]. clear X Sc.
  destruct G as [op m2 H D]. apply tag_op_effect in H; [|easy]. cbn [m_top] in H.
  destruct H as [n B N1 N2 _ _|b e' O Z E|b e' O Z E|a C Ht].
  - cbn in D. injection D as <-. apply frames_snoc; [easy|now apply rsc_leaf].
  - cbn in D. injection D as <-. apply frames_snoc; [easy|]. apply rsc_elem; [|easy].
    apply (element_of_scope _ _ _ _ E). exists (map fst outer). split; [easy|apply Sc1].
  - cbn in D. injection D as <-. split; [|now split].
    apply (element_of_scope _ _ _ _ E). exists (map fst outer). split; [easy|apply Sc1].
  - destruct outer as [|[a1 k1] outer]; cbn in D; injection D as <-; [easy|].
    destruct Sc1 as (S1 & S2 & S3). apply frames_snoc; [easy|]. now apply rsc_elem.
Qed.

(** Elements that differ only in their children. *)
Definition same_head (e e' : elem) : Prop := set_children e [] = set_children e' [].
Lemma same_head_fields e e' : same_head e e' -> e_attributes e = e_attributes e' /\ e_prefix e = e_prefix e' /\ e_xmlns e = e_xmlns e'.
Proof. destruct e, e'. cbn. unfold same_head. cbn. intro H. injection H as -> -> -> -> ->. easy. Qed.
Lemma nearest_heads k l l' : Forall2 same_head l l' -> nearest k l = nearest k l'.
Proof.
  induction 1 as [|e e' l l' H F IH]; [easy|]. cbn [nearest]. unfold get_attr.
  destruct (same_head_fields _ _ H) as (-> & _). now rewrite IH.
Qed.
Lemma parsed_ns_heads e e' anc anc' : same_head e e' -> Forall2 same_head anc anc' -> parsed_ns e anc = parsed_ns e' anc'.
Proof.
  intros H F. unfold parsed_ns, get_attr. destruct (same_head_fields _ _ H) as (-> & -> & _).
  destruct (e_prefix e') as [p|]; [now rewrite !(nearest_heads _ _ _ F)|].
  destruct F as [|q q' l l' Hq F]; [easy|]. now destruct (same_head_fields _ _ Hq) as (_ & -> & ->).
Qed.
Lemma build_head e ns : e_children e = [] -> same_head (build e ns) e.
Proof. intro H. destruct (build_shape e ns H) as (l & -> & _). reflexivity. Qed.
Lemma inherited_built q e ns : e_children e = [] -> inherited q (NElem e) = NElem e ->
  inherited q (NElem (build e ns)) = NElem (build e ns).
Proof.
  intros Hc H. destruct (build_shape e ns Hc) as (l & -> & _).
  assert (K : forall x y, inherited q (NElem x) = NElem y -> inherited q (NElem (set_children x l)) = NElem (set_children y l)).
  { intros x y E. unfold inherited, apply_xmlns_context in *. injection E as <-. f_equal.
    unfold set_namespace_context, default_namespace. destruct x as [nm ch at_ [v|] [p|] ctx]; cbn; try reflexivity.
    now destruct (match e_prefix q with None => e_xmlns q | Some _ => None end). }
  now apply K.
Qed.

Lemma chain_scoped e ks : head_ok e -> (forall k, In k ks -> rt_valid k) -> rt_scoped [] (RT (NElem e) ks) ->
  forall l, chain (build e (map assemble ks)) l ->
  exists e' ks' anc' x anc, l = x :: anc /\ x = build e' (map assemble ks') /\ Forall2 same_head anc anc' /\
    head_ok e' /\ (forall k, In k ks' -> rt_valid k) /\ rt_scoped anc' (RT (NElem e') ks').
Proof.
  intros Hh Hv Hs l Hc. induction Hc as [|c p l Hc IH Hi].
  - exists e, ks, [], (build e (map assemble ks)), []. now repeat (split; [easy || constructor|]).
  - destruct IH as (e' & ks' & anc' & x & anc & El & -> & F & Hh' & Hv' & Hs'). injection El as -> <-.
    destruct (build_children _ _ _ (proj2 Hh') Hi) as [[s Es]|(n0 & Hn & Nt & En)]; [discriminate|].
    apply in_map_iff in Hn. destruct Hn as ([v ks2] & <- & Hk).
    assert (exists e2, v = NElem e2) as [e2 ->].
    { destruct v as [e2|s|s|s]; try discriminate. now exists e2. }
    inversion Hs' as [? ? ? Sc' Sk'|? ? ? N]; subst; [|now destruct (N e')].
    specialize (Sk' _ Hk). inversion Sk' as [? ? ? Sc2 Sk2|? ? ? N]; subst; [|now destruct (N e2)].
    pose proof (Hv' _ Hk) as V2. inversion V2 as [? ? Hh2 Hv2|? N]; subst; [|now destruct (N e2)].
    exists e2, ks2, (e' :: anc'), c, (build e' (map assemble ks') :: l).
    split; [easy|]. cbn [assemble] in En. destruct Sc2 as (Sc2 & Sx2 & Si2). rewrite inherited_built in En by (easy || apply Hh2).
    injection En as ->. split; [easy|]. split; [constructor; [apply build_head, Hh'|easy]|].
    split; [easy|]. split; [easy|]. exact Sk'.
Qed.

Theorem accepts_namespaces s d pr el : accepts s d -> one_root s pr el ->
  forall e anc, chain (d_root d) (e :: anc) -> e_xmlns e = parsed_ns e anc /\
    (anc = [] -> forall p, e_prefix e = Some p -> get_attr e (lit "xmlns:" ++ p) <> None).
Proof.
  intros A O e anc Hc. destruct (accepts_one_root _ _ _ _ A O) as (decl & dtds & txt & root & body & b & r & ks & -> & _ & W & Op & St & E & -> & H & D).
  cbn [d_root] in Hc. pose proof (element_of_scope None b r [] E eq_refl) as Sc.
  apply element_of_valid in E.
  assert (Fr : m_scoped (MDone r ks) /\ m_valid (MDone r ks)).
  { destruct H as [(_ & _ & ->)|(_ & I)]; [split; [split; [exact Sc|now split]|now split]|].
    split; [apply (inside_scoped _ _ _ I D)|apply (inside_valid _ _ _ I D)]; [split; [exact Sc|now split]|].
    split; [now split|constructor]. }
  destruct Fr as [(F1 & F2 & _) [V1 V2]].
  destruct (chain_scoped r ks V1 V2 ltac:(now apply rsc_elem) _ Hc) as (e' & ks' & anc' & x & anc0 & El & Ex & Fh & Hh & Hv & Hs).
  injection El as <- <-. inversion Hs as [? ? ? Sc' Sk'|? ? ? N]; subst; [|now destruct (N e')].
  destruct Sc' as (_ & Sx & Si). pose proof (build_head e' (map assemble ks') (proj2 Hh)) as Hd.
  destruct (same_head_fields _ _ Hd) as (Ha & Hp & Hx). rewrite Hx, Sx. split; [symmetry; now apply parsed_ns_heads|].
  intros ->. inversion Fh; subst. unfold get_attr. rewrite Ha, Hp. exact Si.
Qed.

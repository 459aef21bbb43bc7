(** Boolean checks for the trees that can be written as XML. *)
From Coq Require Import List NArith Arith Bool Ascii String Lia.
From Verif Require Import Base BaseFacts Escape Dom Spec SpecDom SerFacts SpecLex SpecParse DocCheck ApiFacts SpecXml XmlFacts XmlCheck.
Import ListNotations.

(** * Trees that can be written as XML, checked *)

Definition attr_okb (sc : scope) (l : list (str * str)) (kv : str * str) : bool :=
  let (k, v) := kv in
  match qname_of k with
  | Some (Some q, n) =>
      if str_eqb q (lit "xmlns")
      then nonempty v && negb (str_eqb v xmlns_namespace) && negb (str_eqb n (lit "xmlns")) && Bool.eqb (str_eqb n (lit "xml")) (str_eqb v xml_namespace)
      else match sc (Some q) with None => false | Some _ => true end &&
           forallb (fun kv' => match qname_of (fst kv') with
                               | Some (Some q', n') => str_eqb q' (lit "xmlns") || negb (str_eqb n' n) || str_eqb (fst kv') k || negb (ostr_eqb (sc (Some q')) (sc (Some q)))
                               | _ => true
                               end) l
  | Some (None, n) => negb (str_eqb n (lit "xmlns")) || negb (str_eqb v xml_namespace) && negb (str_eqb v xmlns_namespace)
  | None => false
  end && allb charb v && negb (inb 9%N v) && negb (inb 10%N v) && negb (inb 13%N v).
Lemma xmlns_qname p q n : qname (lit "xmlns:" ++ p) q n -> q = Some (lit "xmlns") /\ n = p.
Proof.
  intro Q. remember (lit "xmlns:" ++ p) as k eqn:Ek. destruct Q as [n [_ N]|p0 n [_ Np] _].
  - exfalso. apply N. subst n. apply in_or_app. left. cbn. tauto.
  - change (lit "xmlns:" ++ p) with (lit "xmlns" ++ lit ":" ++ p) in Ek.
    apply app_colon in Ek; [|easy|cbn; intro I; repeat (destruct I as [I|I]; [discriminate|]); easy]. now destruct Ek as [-> ->].
Qed.
Lemma attrs_okb_ok sc l : forallb (attr_okb sc l) l = true ->
  (forall k v, In (k, v) l -> (exists p n, qname k p n) /\ Forall xml_char v /\ (forall c, In c [9; 10; 13]%N -> ~ In c v) /\
     (forall p, k = lit "xmlns:" ++ p -> v <> [])) /\ names_ok sc l.
Proof.
  intro H. rewrite forallb_forall in H.
  assert (G : forall k v, In (k, v) l -> exists q n, qname_of k = Some (q, n) /\ qname k q n).
  { intros k v I. apply H in I. unfold attr_okb in I. destruct (qname_of k) as [[q n]|] eqn:E; [|discriminate]. exists q, n. split; [easy|now apply qname_of_ok]. }
  assert (R : forall k v q n, In (k, v) l -> qname k q n -> qname_of k = Some (q, n)).
  { intros k v q n I Q. destruct (G k v I) as (q' & n' & E & Q'). destruct (qname_fun _ _ _ _ _ Q Q') as [-> ->]. exact E. }
  split.
  - intros k v I. destruct (G k v I) as (q & n & E & Q). pose proof (H _ I) as B. unfold attr_okb in B. rewrite !andb_true_iff, !negb_true_iff in B.
    destruct B as [[[[B B1] B2] B3] B4]. split; [eauto|]. split; [apply (allb_ok charb); [apply charb_ok|easy]|]. split.
    + intros c Hc. cbn in Hc. destruct Hc as [<-|[<-|[<-|[]]]]; now apply inb_ok.
    + intros p ->. rewrite E in B. apply xmlns_qname in Q. destruct Q as [-> ->]. rewrite str_eqb_refl, !andb_true_iff in B. now apply nonempty_ok.
  - split; [|split; [|split]].
    + intros k v q n I Q Nq S. pose proof (H _ I) as B. unfold attr_okb in B. rewrite (R _ _ _ _ I Q), S in B.
      rewrite <- str_eqb_neq in Nq. rewrite Nq in B. discriminate.
    + intros k v q k' v' q' n I I' Q Q' Nq Nq' S. pose proof (H _ I) as B. unfold attr_okb in B. rewrite (R _ _ _ _ I Q) in B.
      rewrite <- str_eqb_neq in Nq, Nq'. rewrite Nq, !andb_true_iff, forallb_forall in B. destruct B as [[[[[_ B] _] _] _] _]. specialize (B _ I'). cbn [fst] in B.
      rewrite (R _ _ _ _ I' Q'), Nq', str_eqb_refl, S in B. cbn [negb orb] in B. rewrite (proj2 (ostr_eqb_eq _ _) eq_refl) in B. rewrite orb_false_r in B.
      apply str_eqb_eq in B. now symmetry.
    + intros p v I. destruct (G _ _ I) as (q & n & E & Q). pose proof (H _ I) as B. unfold attr_okb in B. rewrite E in B. apply xmlns_qname in Q. destruct Q as [-> ->].
      rewrite str_eqb_refl, !andb_true_iff, !negb_true_iff in B. destruct B as [[[[(((_ & B1) & B2) & B3) _] _] _] _].
      rewrite str_eqb_neq in B1, B2. apply eqb_prop in B3. split; [|easy]. rewrite <- !str_eqb_eq, B3. easy.
    + intros v I. pose proof (H _ I) as B. unfold attr_okb in B. assert (E : qname_of (lit "xmlns") = Some (None, lit "xmlns")) by (vm_compute; reflexivity).
      rewrite E, str_eqb_refl in B. cbn [negb orb] in B. rewrite !andb_true_iff, !negb_true_iff, !str_eqb_neq in B. tauto.
Qed.
Fixpoint no_adjacentb (l : list node) : bool :=
  match l with
  | NText _ :: (NText _ :: _) => false
  | _ :: l' => no_adjacentb l'
  | [] => true
  end.
Lemma no_adjacentb_ok l : no_adjacentb l = true -> no_adjacent_text l.
Proof.
  induction l as [|n l IH]; intros H a s t b E; [now destruct a|]. destruct a as [|x a].
  - cbn [app] in E. injection E as -> ->. discriminate.
  - cbn [app] in E. injection E as -> E. apply (IH ltac:(destruct x, l as [|[] ?]; easy) a s t b E).
Qed.
Fixpoint xml_elemb (sc : scope) (e : elem) {struct e} : bool :=
  match e with
  | mkElem nm ch at_ x p ctx =>
      match qname_of (qualified e) with Some (p', n') => ostr_eqb p p' && str_eqb nm n' | None => false end &&
      ostr_eqb x (declared e sc p) && match p, x with Some _, None => false | _, _ => true end &&
      distinctb (akeys at_) && distinctb (akeys ctx) && forallb (attr_okb (declared e sc) at_) at_ && no_adjacentb ch &&
      (fix go (l : list node) : bool :=
         match l with
         | [] => true
         | n :: r =>
             match n with
             | NElem c => xml_elemb (declared e sc) c
             | NText t => allb charb t && negb (inb 13%N t) && negb (spacesb t)
             | NComment c => commentb' c && negb (inb 13%N c)
             | NCData c => cdatab' c && negb (inb 13%N c)
             end && go r
         end) ch
  end.
Definition kidb (sc : scope) (n : node) : bool :=
  match n with
  | NElem c => xml_elemb sc c
  | NText t => allb charb t && negb (inb 13%N t) && negb (spacesb t)
  | NComment c => commentb' c && negb (inb 13%N c)
  | NCData c => cdatab' c && negb (inb 13%N c)
  end.
Lemma spacesb_iff s : spaces s -> spacesb s = true.
Proof. intro H. unfold spacesb, allb. apply forallb_forall. intros c I. unfold spaces in H. rewrite Forall_forall in H. now apply in_inb, H. Qed.
Lemma xml_elemb_ok : forall e sc, xml_elemb sc e = true -> xml_elem sc e /\ elem_ok e.
Proof.
  induction e as [e IH] using DomFacts.elem_ind'. intros sc H.
  assert (G : forall l, (fix go (l : list node) : bool :=
         match l with
         | [] => true
         | n :: r =>
             match n with
             | NElem c => xml_elemb (declared e sc) c
             | NText t => allb charb t && negb (inb 13%N t) && negb (spacesb t)
             | NComment c => commentb' c && negb (inb 13%N c)
             | NCData c => cdatab' c && negb (inb 13%N c)
             end && go r
         end) l = forallb (kidb (declared e sc)) l) by (induction l as [|n l IHl]; [easy|]; cbn [forallb]; now rewrite <- IHl).
  destruct e as [nm ch at_ x p ctx]. cbn [xml_elemb] in H. rewrite G in H. rewrite !andb_true_iff in H.
  destruct H as (((((((H1 & H2) & H3) & H4) & H5) & H6) & H7) & H8). rewrite forallb_forall in H8.
  apply attrs_okb_ok in H6. destruct H6 as [A NO].
  assert (Hc : forall c, In (NElem c) ch -> xml_elem (declared (mkElem nm ch at_ x p ctx) sc) c /\ elem_ok c).
  { intros c Hi. apply IH; [easy|]. now apply H8 in Hi. }
  split.
  - constructor; cbn [e_prefix e_name e_attributes e_children e_xmlns].
    + destruct (qname_of _) as [[p' n']|] eqn:E; [|discriminate]. apply andb_true_iff in H1. destruct H1 as [P N]. apply ostr_eqb_eq in P. apply str_eqb_eq in N. subst p' n'.
      now apply qname_of_ok.
    + now apply ostr_eqb_eq in H2.
    + intros Np E. subst x. destruct p; [discriminate|easy].
    + exact A.
    + exact NO.
    + now apply no_adjacentb_ok.
    + intros t Hi. apply H8 in Hi. cbn [kidb] in Hi. rewrite !andb_true_iff, !negb_true_iff in Hi. destruct Hi as [[T1 T2] T3].
      split; [apply (allb_ok charb); [apply charb_ok|easy]|]. split; [now apply inb_ok|]. intro S. apply spacesb_iff in S. congruence.
    + intros c Hi. apply H8 in Hi. cbn [kidb] in Hi. rewrite !andb_true_iff, !negb_true_iff in Hi. destruct Hi as [T1 T2]. split; [now apply commentb'_ok|now apply inb_ok].
    + intros c Hi. apply H8 in Hi. cbn [kidb] in Hi. rewrite !andb_true_iff, !negb_true_iff in Hi. destruct Hi as [T1 T2]. split; [now apply cdatab'_ok|now apply inb_ok].
    + intros c Hi. now apply Hc.
  - constructor; cbn [e_attributes e_context e_children]; [now apply distinctb_ok|now apply distinctb_ok|]. intros c Hi. now apply Hc.
Qed.

(** Proofs for SpecEntity.v: the ampersands that a document says, with its references
    as text and with them replaced. *)
From Coq Require Import List NArith Arith Bool Ascii String Lia.
From Verif Require Import Base BaseFacts Escape Dom Parse Spec EscapeFacts SpecDom DomFacts ApiFacts SpecLex SpecParse SpecXml SpecConf SpecEntity EntText.
Import ListNotations.

(** * Counting *)

Definition amps (s : str) : nat := count_occ N.eq_dec s 38%N.
Definition pamps (p : piece) : nat := amps (said p).
Definition lamps (l : list piece) : nat := list_sum (map pamps l).
Lemma amps_app a b : amps (a ++ b) = amps a + amps b.
Proof. apply count_occ_app. Qed.
Lemma lamps_app a b : lamps (a ++ b) = lamps a + lamps b.
Proof. unfold lamps. now rewrite map_app, list_sum_app. Qed.
Lemma lamps_cons p l : lamps (p :: l) = pamps p + lamps l.
Proof. easy. Qed.
Lemma lamps_line_ends l : lamps (line_ends l) = lamps l.
Proof.
  induction l as [|p l IH]; [easy|]. cbn [line_ends]. destruct (is_chr 13 p) eqn:E; [|now rewrite !lamps_cons, IH].
  destruct p as [c| | |]; try discriminate. cbn in E. apply N.eqb_eq in E. subst c. rewrite (lamps_cons (Chr 13%N)).
  destruct l as [|q l]; [easy|]. destruct (is_chr 10 q); [now rewrite IH|]. now rewrite lamps_cons, IH.
Qed.
Lemma amps_flat (f : piece -> str) l : (forall p, amps (f p) = pamps p) -> amps (flat_map f l) = lamps l.
Proof. intro H. induction l as [|p l IH]; [easy|]. cbn [flat_map]. now rewrite amps_app, IH, H. Qed.
Lemma amps_text l : amps (text_said l) = lamps l.
Proof. unfold text_said. now rewrite amps_flat, lamps_line_ends. Qed.
Lemma ws_not_amp c : existsb (N.eqb c) [32; 9; 13; 10]%N = true -> c <> 38%N.
Proof. intros E ->. discriminate. Qed.
Lemma amps_char p : amps (value_char p) = pamps p.
Proof.
  destruct p as [c| | |]; try easy. unfold value_char, pamps, said. destruct (existsb _ _) eqn:E; [|easy].
  apply ws_not_amp in E. unfold amps. cbn. destruct (N.eq_dec c 38); [easy|reflexivity].
Qed.
Lemma amps_value l : amps (value_said l) = lamps l.
Proof. unfold value_said. rewrite amps_flat, lamps_line_ends; [easy|apply amps_char]. Qed.
Lemma space_no_amp p : is_space p = true -> pamps p = 0.
Proof. unfold is_space. intro E. apply str_eqb_eq in E. now rewrite <- amps_char, E. Qed.
Lemma lamps_tokens l : lamps (tokens l) <= lamps l.
Proof.
  unfold tokens. transitivity (lamps (drop_spaces l)).
  - generalize (drop_spaces l). clear l. induction l as [|p l IH]; [easy|]. cbn [squeeze]. rewrite lamps_cons. destruct (is_space p); [|rewrite lamps_cons; lia].
    destruct l as [|q l]; [cbn; lia|]. destruct (is_space q); [lia|]. rewrite lamps_cons. unfold pamps at 1. cbn [said]. change (amps [32%N]) with 0. lia.
  - induction l as [|p l IH]; [easy|]. cbn [drop_spaces]. destruct (is_space p); [rewrite lamps_cons; lia|easy].
Qed.

(** * Completed elements *)

Definition mamps (m : markup) : nat := lamps (markup_pieces m).
Definition camps (b : content) : nat := lamps (content_pieces b).
Definition aamps (l : list attribute) : nat := lamps (flat_map at_value l).
Lemma aamps_app a b : aamps (a ++ b) = aamps a + aamps b.
Proof. unfold aamps. now rewrite flat_map_app, lamps_app. Qed.
Lemma aamps_cons a l : aamps (a :: l) = lamps (at_value a) + aamps l.
Proof. unfold aamps. cbn [flat_map]. apply lamps_app. Qed.
Lemma normalized_amps D nm l : aamps (map (normalized D nm) l) <= aamps l.
Proof.
  induction l as [|a l IH]; [easy|]. cbn [map]. rewrite !aamps_cons. unfold normalized at 1.
  destruct (attdef_of D nm (at_name a)) as [d|]; [|lia]. destruct (tokenized (ad_type d)); [|lia]. cbn [at_value]. pose proof (lamps_tokens (at_value a)). lia.
Qed.
Definition quiet (D : list (str * attdef)) : Prop :=
  forall nm a f q v, In (nm, a) D -> ad_default a = DfValue f q v -> ~ In 38%N (value_said v).
Lemma binding_in l a : In a (binding l) -> In a l.
Proof.
  revert a. induction l as [|b l IH]; intros a; [easy|]. cbn [binding]. intros [->|I]; [now left|]. apply filter_In in I. right. now apply IH.
Qed.
Lemma defaults_amps D nm l : quiet D -> aamps (defaults D nm l) = 0.
Proof.
  intro Q. unfold defaults. assert (K : forall B, (forall a, In a B -> In a D) -> aamps (flat_map (fun a =>
    match ad_default (snd a) with
    | DfValue _ q v => if str_eqb (fst a) nm && negb (existsb (fun b => str_eqb (at_name b) (ad_name (snd a))) l) then [Attribute (lit " ") (ad_name (snd a)) [] [] q v] else []
    | _ => []
    end) B) = 0); [|apply K; intros a; apply binding_in].
  induction B as [|a B IH]; intro H; [easy|]. cbn [flat_map]. rewrite aamps_app, IH by (intros b I; apply H; now right).
  destruct a as [nm' a]. cbn [fst snd]. specialize (Q nm' a). destruct (ad_default a) as [| |f q v]; try easy.
  destruct (_ && _); [|easy]. rewrite aamps_cons. cbn [at_value]. specialize (Q f q v (H _ (or_introl eq_refl)) eq_refl).
  rewrite <- amps_value. unfold amps. rewrite (proj1 (count_occ_not_In N.eq_dec _ _)); [easy|exact Q].
Qed.
Lemma complete_amps D nm l : quiet D -> aamps (complete_attributes D nm l) <= aamps l.
Proof.
  intro Q. unfold complete_attributes. pose proof (normalized_amps D nm (l ++ defaults D nm l)) as H. rewrite aamps_app, (defaults_amps D nm l Q) in H. lia.
Qed.
Lemma completed_amps D : quiet D -> (forall m, mamps (completed D m) <= mamps m) /\ (forall b, camps (completed_in D b) <= camps b).
Proof.
  intro Q. apply markup_ind2; try easy.
  - intros nm attrs w. now apply complete_amps.
  - intros nm attrs w b IH w'. unfold mamps, camps in *. cbn [completed markup_pieces]. rewrite !lamps_app.
    pose proof (complete_amps D nm attrs Q) as H. unfold aamps in H. lia.
  - intros t m IHm b IHb. unfold mamps, camps in *. cbn [completed_in content_pieces]. rewrite !lamps_app. lia.
Qed.

(** * Trees *)

Definition mapamps (m : amap) : nat := list_sum (map (fun kv => amps (snd kv)) m).
Fixpoint eamps (e : elem) : nat :=
  match e with
  | mkElem _ ch at_ _ _ _ =>
      mapamps at_ + (fix go (l : list node) := match l with
                     | [] => 0
                     | NElem c :: l' => eamps c + go l'
                     | NText s :: l' => amps s + go l'
                     | _ :: l' => go l'
                     end) ch
  end.
Fixpoint namps (l : list node) : nat :=
  match l with
  | [] => 0
  | NElem c :: l' => eamps c + namps l'
  | NText s :: l' => amps s + namps l'
  | _ :: l' => namps l'
  end.
Lemma eamps_eq e : eamps e = mapamps (e_attributes e) + namps (e_children e).
Proof.
  destruct e as [nm ch at_ ns px cx]. cbn [eamps e_attributes e_children]. now f_equal.
Qed.
Lemma namps_app a b : namps (a ++ b) = namps a + namps b.
Proof. induction a as [|[c|s|s|s] a IH]; cbn [app namps]; try easy; rewrite IH; lia. Qed.
Lemma text_says_amps t : namps (text_says t) = lamps t.
Proof.
  unfold text_says. rewrite <- amps_text. destruct (forallb _ _) eqn:E; [|cbn [namps]; lia]. cbn [namps]. symmetry. unfold amps. apply count_occ_not_In.
  intro I. rewrite forallb_forall in E. now apply E, ws_not_amp in I.
Qed.
Lemma sum_le {A} (f : A -> nat) l : forall l', NoDup l -> incl l l' -> list_sum (map f l) <= list_sum (map f l').
Proof.
  induction l as [|a l IH]; intros l' N I; [cbn; lia|]. inversion N as [|? ? Na Nl]; subst.
  destruct (in_split a l' (I a (or_introl eq_refl))) as (u & v & ->). specialize (IH (u ++ v) Nl).
  assert (K : incl l (u ++ v)).
  { intros b Hb. assert (In b (u ++ a :: v)) as H by (apply I; now right). apply in_app_or in H. apply in_or_app. destruct H as [H|[->|H]]; tauto. }
  specialize (IH K). rewrite !map_app, !list_sum_app in *. cbn [map list_sum fold_right] in *. unfold list_sum in *. lia.
Qed.
Lemma written_amps l : list_sum (map (fun kv => amps (snd kv)) (written_attributes l)) = aamps l.
Proof. induction l as [|a l IH]; [easy|]. rewrite aamps_cons, <- IH, <- amps_value. reflexivity. Qed.
Lemma fst_nodup {A B} (l : list (A * B)) : NoDup (map fst l) -> NoDup l.
Proof. apply NoDup_map_inv. Qed.
Lemma tag_less sc nm attrs e : tag_says sc nm attrs e -> map_ok (e_attributes e) -> mapamps (e_attributes e) <= aamps attrs.
Proof.
  intros (_ & _ & H) M. rewrite <- written_amps. apply sum_le; [now apply fst_nodup|]. intros [k v] I. apply (in_aget _ _ _ M) in I. apply H in I.
  destruct I as (a & I & <- & ->). unfold written_attributes. now apply (in_map (fun a => (at_name a, value_said (at_value a)))).
Qed.
Lemma tag_more sc nm attrs e : tag_says sc nm attrs e -> NoDup (map at_name attrs) -> aamps attrs <= mapamps (e_attributes e).
Proof.
  intros (_ & _ & H) N. rewrite <- written_amps. apply sum_le.
  - apply fst_nodup. unfold written_attributes. now rewrite map_map.
  - intros [k v] I. unfold written_attributes in I. apply in_map_iff in I. destruct I as (a & E & I). injection E as <- <-. apply aget_in, H. now exists a.
Qed.
Lemma says_less :
  (forall m sc l, says sc m l -> Forall node_valid l -> namps l <= mamps m) /\
  (forall b sc l, says_in sc b l -> Forall node_valid l -> namps l <= camps b).
Proof.
  apply markup_ind2.
  - intros nm attrs w sc l S V. inversion S; subst. inversion V as [|? ? Ve _]; subst. apply elem_valid_inv in Ve. destruct Ve as (_ & _ & M & _).
    cbn [namps]. rewrite eamps_eq. match goal with H : e_children _ = [] |- _ => rewrite H end. cbn [namps].
    match goal with H : tag_says _ _ _ _ |- _ => apply tag_less in H; [|exact M] end. unfold mamps. cbn [markup_pieces]. unfold aamps in *. lia.
  - intros nm attrs w b IH w' sc l S V. inversion S; subst. inversion V as [|? ? Ve _]; subst. apply elem_valid_inv in Ve. destruct Ve as (_ & _ & M & _ & C).
    cbn [namps]. rewrite eamps_eq. match goal with H : says_in _ _ _ |- _ => apply IH in H; [|now apply Forall_forall] end.
    match goal with H : tag_says _ _ _ _ |- _ => apply tag_less in H; [|exact M] end. unfold mamps, camps, aamps in *. cbn [markup_pieces]. rewrite lamps_app. lia.
  - intros c sc l S V. inversion S; subst. cbn. lia.
  - intros c sc l S V. inversion S; subst. cbn. lia.
  - intros p sc l S V. inversion S; subst. cbn. lia.
  - intros t sc l S V. inversion S; subst. rewrite text_says_amps. easy.
  - intros t m IHm b IHb sc l S V. inversion S; subst. rewrite !Forall_app in V. destruct V as (_ & V1 & V2). rewrite !namps_app, text_says_amps.
    match goal with H : says _ _ _ |- _ => apply IHm in H; [|exact V1] end. match goal with H : says_in _ _ _ |- _ => apply IHb in H; [|exact V2] end.
    unfold camps, mamps in *. cbn [content_pieces]. rewrite !lamps_app. lia.
Qed.
Lemma says_more :
  (forall m sc sc' l, says sc m l -> markup_ok sc' m -> mamps m <= namps l) /\
  (forall b sc sc' l, says_in sc b l -> content_ok sc' b -> camps b <= namps l).
Proof.
  apply markup_ind2.
  - intros nm attrs w sc sc' l S (_ & (_ & N & _) & _). inversion S; subst. cbn [namps]. rewrite eamps_eq.
    match goal with H : tag_says _ _ _ _ |- _ => apply tag_more in H; [|exact N] end. unfold mamps. cbn [markup_pieces]. unfold aamps in *. lia.
  - intros nm attrs w b IH w' sc sc' l S ((_ & (_ & N & _) & _) & O & _). inversion S; subst. cbn [namps]. rewrite eamps_eq.
    match goal with H : says_in _ _ _ |- _ => apply (IH _ _ _ H) in O end.
    match goal with H : tag_says _ _ _ _ |- _ => apply tag_more in H; [|exact N] end. unfold mamps, camps, aamps in *. cbn [markup_pieces]. rewrite lamps_app. lia.
  - intros c sc sc' l S O. inversion S; subst. cbn. lia.
  - intros c sc sc' l S O. inversion S; subst. cbn. lia.
  - intros p sc sc' l S O. inversion S; subst. cbn. lia.
  - intros t sc sc' l S O. inversion S; subst. now rewrite text_says_amps.
  - intros t m IHm b IHb sc sc' l S (_ & Om & Ob). inversion S; subst. rewrite !namps_app, text_says_amps.
    match goal with H : says _ _ _ |- _ => apply (IHm _ _ _ H) in Om end. match goal with H : says_in _ _ _ |- _ => apply (IHb _ _ _ H) in Ob end.
    unfold camps, mamps in *. cbn [content_pieces]. rewrite !lamps_app. lia.
Qed.

(** * References as text *)

Definition owns (l : list piece) : nat := List.length (filter own l).
Lemma owns_app a b : owns (a ++ b) = owns a + owns b.
Proof. unfold owns. now rewrite filter_app, app_length. Qed.
Lemma own_said p : own p = true -> pamps p = 0.
Proof.
  destruct p as [c|nm|ds|ds]; try discriminate. cbn [own]. intro O. unfold pamps. cbn [said refers].
  destruct (find _ predefined) as [e|] eqn:F; [|easy]. apply find_some in F. apply negb_true_iff in O. apply not_true_iff_false in O.
  exfalso. apply O. apply existsb_exists. now exists e.
Qed.
Lemma name_no_amp s : is_name s -> ~ In 38%N s.
Proof.
  intros (c & r & -> & H & Hr) I.
  assert (K : name_next 38%N). { destruct I as [->|I]; [now left|]. rewrite Forall_forall in Hr. now apply Hr. }
  unfold name_next, name_first, in_ranges in K. rewrite !Exists_cons, !Exists_nil in K. cbn [fst snd] in K. lia.
Qed.
Lemma amps_none s : ~ In 38%N s -> amps s = 0.
Proof. intro H. unfold amps. now apply count_occ_not_In. Qed.
Lemma chr_amps s : lamps (map Chr s) = amps s.
Proof. induction s as [|c s IH]; [easy|]. cbn [map]. rewrite lamps_cons, IH. change (c :: s) with ([c] ++ s). now rewrite amps_app. Qed.
Lemma literal_piece_amps p : (forall nm, p = Ent nm -> is_ncname nm) -> lamps (literal_piece p) = pamps p + owns [p].
Proof.
  intro N. unfold literal_piece, owns. cbn [filter]. destruct (own p) eqn:O; [|unfold lamps; cbn; lia].
  rewrite (own_said _ O). cbn [List.length]. destruct p as [c|nm|ds|ds]; try discriminate. specialize (N nm eq_refl). rewrite lamps_cons, chr_amps.
  change (pamps (Ent (lit "amp"))) with 1. change (tl (piece_text (Ent nm))) with (nm ++ lit ";"). rewrite amps_app, (amps_none nm); [easy|]. apply name_no_amp, N.
Qed.
Lemma literal_amps l : named l -> lamps (literal_pieces l) = lamps l + owns l.
Proof.
  induction l as [|p l IH]; intro N; [easy|]. cbn [literal_pieces flat_map]. rewrite lamps_app, literal_piece_amps, lamps_cons.
  - change (p :: l) with ([p] ++ l). rewrite owns_app. unfold literal_pieces in IH. rewrite IH; [lia|]. intros nm I. apply N. now right.
  - intros nm ->. apply N. now left.
Qed.
Lemma flat_literal l : flat_map at_value (map literal_attribute l) = literal_pieces (flat_map at_value l).
Proof. induction l as [|a l IH]; [easy|]. cbn [map flat_map]. rewrite IH. unfold literal_pieces. now rewrite flat_map_app. Qed.
Lemma literal_pieces_of : (forall m, markup_pieces (literal_markup m) = literal_pieces (markup_pieces m)) /\ (forall b, content_pieces (literal_content b) = literal_pieces (content_pieces b)).
Proof.
  apply markup_ind2; try easy.
  - intros nm attrs w. apply flat_literal.
  - intros nm attrs w b IH w'. cbn [literal_markup markup_pieces]. rewrite flat_literal, IH. unfold literal_pieces. now rewrite flat_map_app.
  - intros t m IHm b IHb. cbn [literal_content content_pieces]. rewrite IHm, IHb. unfold literal_pieces. now rewrite !flat_map_app.
Qed.
Lemma owns_in l p : In p l -> own p = true -> 1 <= owns l.
Proof. intros I O. assert (In p (filter own l)) as H by now apply filter_In. unfold owns. destruct (filter own l); [easy|cbn; lia]. Qed.

(** * References replaced *)

Lemma join_amps b b' : camps (join_content b b') = camps b + camps b'.
Proof.
  unfold camps. induction b as [t|t m b IH] in b' |- *.
  - destruct b' as [t'|t' m' b']; cbn [join_content content_pieces]; now rewrite !lamps_app, ?Nat.add_assoc.
  - cbn [join_content content_pieces]. rewrite !lamps_app, IH. lia.
Qed.
Lemma piece_substring s p l : In p l -> substring s (piece_text p) -> substring s (pieces_text l).
Proof.
  intros I (a & b & E). destruct (in_split p l I) as (u & v & ->). exists (pieces_text u ++ a), (b ++ pieces_text v).
  unfold pieces_text. rewrite flat_map_app. cbn [flat_map]. rewrite E. now rewrite <- !app_assoc.
Qed.
Lemma sub_app s a b : substring s a \/ substring s b -> substring s (a ++ b).
Proof.
  intros [(u & v & ->)|(u & v & ->)].
  - exists u, (v ++ b). now rewrite <- !app_assoc.
  - exists (a ++ u), v. now rewrite <- !app_assoc.
Qed.
Lemma attrs_substring s l p : In p (flat_map at_value l) -> substring s (piece_text p) -> substring s (flat_map attribute_text l).
Proof.
  intros I S. induction l as [|a l IH]; [easy|]. cbn [flat_map] in *. apply sub_app. apply in_app_or in I. destruct I as [I|I]; [left|right; now apply IH].
  unfold attribute_text. do 6 (apply sub_app; right). apply sub_app. left. now apply piece_substring with p.
Qed.
Lemma pieces_in : 
  (forall m s p, In p (markup_pieces m) -> substring s (piece_text p) -> substring s (markup_text m)) /\
  (forall b s p, In p (content_pieces b) -> substring s (piece_text p) -> substring s (content_text b)).
Proof.
  apply markup_ind2; try easy.
  - intros nm attrs w s p I S. cbn [markup_pieces markup_text] in *. do 2 (apply sub_app; right). apply sub_app. left. now apply attrs_substring with p.
  - intros nm attrs w b IH w' s p I S. cbn [markup_pieces markup_text] in *. do 2 (apply sub_app; right). apply in_app_or in I. destruct I as [I|I].
    + apply sub_app. left. now apply attrs_substring with p.
    + do 3 (apply sub_app; right). apply sub_app. left. now apply IH with p.
  - intros t s p I S. now apply piece_substring with p.
  - intros t m IHm b IHb s p I S. cbn [content_pieces content_text] in *. apply in_app_or in I. destruct I as [I|I]; [|apply in_app_or in I; destruct I as [I|I]].
    + apply sub_app. left. now apply piece_substring with p.
    + apply sub_app. right. apply sub_app. left. now apply IHm with p.
    + apply sub_app. right. apply sub_app. right. now apply IHb with p.
Qed.
(** A text that says no ampersand. *)
Definition silent (R : str) : Prop := ~ substring (lit "&amp;") R /\ ~ substring (lit "&#") R.
Lemma chr_literal l c : In (Chr c) l -> In (Chr c) (literal_pieces l).
Proof. intro I. unfold literal_pieces. apply in_flat_map. exists (Chr c). split; [easy|now left]. Qed.
Lemma silent_piece p : p <> Chr 38%N -> silent (piece_text p) -> pamps p = 0.
Proof.
  intros N [A H]. destruct p as [c|nm|ds|ds].
  - apply amps_none. intros [->|[]]. now apply N.
  - unfold pamps. cbn [said refers]. destruct (find _ predefined) as [e|] eqn:F; [|easy]. apply find_some in F. destruct F as [I E]. apply str_eqb_eq in E. subst nm.
    destruct I as [<-|[<-|[<-|[<-|[<-|[]]]]]]; try reflexivity. exfalso. apply A. exists [], []. reflexivity.
  - exfalso. apply H. exists [], (ds ++ lit ";"). reflexivity.
  - exfalso. apply H. exists [], (lit "x" ++ ds ++ lit ";"). reflexivity.
Qed.
Lemma lamps_zero l : (forall p, In p l -> pamps p = 0) -> lamps l = 0.
Proof. induction l as [|p l IH]; intro H; [easy|]. rewrite lamps_cons, (H p), IH; [easy| |now left]. intros q I. apply H. now right. Qed.
Lemma silent_sub s R : silent R -> (forall t, substring t s -> substring t R) -> silent s.
Proof. intros [A B] H. split; intro S; [apply A|apply B]; now apply H. Qed.
Lemma no_chr_amp :
  (forall m sc, markup_ok sc (literal_markup m) -> ~ In (Chr 38%N) (markup_pieces m)) /\
  (forall b sc, content_ok sc (literal_content b) -> ~ In (Chr 38%N) (content_pieces b)).
Proof.
  assert (A : forall attrs, Forall attribute_ok (map literal_attribute attrs) -> ~ In (Chr 38%N) (flat_map at_value attrs)).
  { intros attrs F I. apply in_flat_map in I. destruct I as (a & Ia & I). rewrite Forall_forall in F. destruct (F (literal_attribute a) (in_map _ _ _ Ia)) as (_ & _ & _ & _ & _ & _ & V).
    unfold value_ok in V. rewrite Forall_forall in V. apply chr_literal in I. destruct (V _ I) as [_ V']. destruct (V' _ eq_refl) as [_ V'']. apply V''. cbn. tauto. }
  assert (T : forall t, chardata_ok (literal_pieces t) -> ~ In (Chr 38%N) t).
  { intros t [V _] I. rewrite Forall_forall in V. apply chr_literal in I. destruct (V _ I) as [_ V']. destruct (V' _ eq_refl) as [_ V'']. apply V''. cbn. tauto. }
  apply markup_ind2; try (now intros; intros []).
  - intros nm attrs w sc (_ & (F & _) & _). now apply A.
  - intros nm attrs w b IH w' sc ((_ & (F & _) & _) & O & _) I. apply in_app_or in I. destruct I as [I|I]; [now apply (A attrs)|now apply (IH _ O)].
  - intros t sc O. now apply T.
  - intros t m IHm b IHb sc (O & Om & Ob) I. apply in_app_or in I. destruct I as [I|I]; [now apply (T t)|]. apply in_app_or in I. destruct I as [I|I]; [now apply (IHm _ Om)|now apply (IHb _ Ob)].
Qed.
Section Expand.
  Variable E : list (str * str).
  Hypothesis Q : forall nm R, In (nm, R) E -> silent R.
  Lemma replaced_silent nm R : replaced_by E nm = Some R -> silent R.
  Proof.
    unfold replaced_by. destruct (find _ E) as [[k v]|] eqn:F; [|discriminate]. intro H. injection H as <-. apply find_some in F. now apply (Q k).
  Qed.
  Lemma value_amps l l' : expands_value E l l' -> lamps l' <= lamps l.
  Proof.
    induction 1 as [|p l l' O X IH|nm R r r' l l' O B -> V N X1 IH1 X2 IH2]; [easy|rewrite !lamps_cons; lia|].
    apply replaced_silent in B. rewrite lamps_app, lamps_cons. enough (lamps r = 0) by lia. apply lamps_zero. intros p I. apply silent_piece.
    - intros ->. apply chr_literal in I. unfold value_ok in V. rewrite Forall_forall in V. destruct (V _ I) as [_ V']. destruct (V' _ eq_refl) as [_ V'']. apply V''. cbn. tauto.
    - apply (silent_sub _ _ B). intros t S. now apply piece_substring with p.
  Qed.
  Lemma attribute_amps a a' : Forall2 (expands_attribute E) a a' -> aamps a' <= aamps a.
  Proof. induction 1 as [|x y l l' [V _] _ IH]; [easy|]. rewrite !aamps_cons. apply value_amps in V. lia. Qed.
  Lemma expands_amps :
    (forall l c, expands_text E l c -> camps c <= lamps l) /\
    (forall b c, expands_content E b c -> camps c <= camps b) /\
    (forall m m', expands_markup E m m' -> mamps m' <= mamps m).
  Proof.
    apply expands_ind2; try easy.
    - intros p l c O X IH. rewrite join_amps, lamps_cons. unfold camps at 1. cbn [content_pieces]. rewrite lamps_cons. unfold lamps at 1. cbn. lia.
    - intros nm R r r' l c O B -> V N X1 IH1 X2 IH2. apply replaced_silent in B. rewrite join_amps, lamps_cons. enough (camps r = 0) by lia.
      apply lamps_zero. intros p I. apply silent_piece; [intros ->; now apply (proj2 no_chr_amp _ _ V)|].
      apply (silent_sub _ _ B). intros t S. now apply (proj2 pieces_in r t p).
    - intros t m b c m' c' X1 IH1 X2 IH2 X3 IH3. rewrite join_amps. unfold camps, mamps in *. cbn [content_pieces app]. rewrite !lamps_app. lia.
    - intros nm attrs attrs' w F. apply attribute_amps in F. exact F.
    - intros nm attrs attrs' w b b' w' F X IH. apply attribute_amps in F. unfold camps, mamps, aamps in *. cbn [markup_pieces]. rewrite !lamps_app. lia.
  Qed.
End Expand.

(** * Documents *)

Theorem entities_differ x y d : named (markup_pieces (xd_root x)) -> markup_ok all_declared (literal_markup (xd_root x)) -> whole_root (literal x) = xd_root (literal x) ->
  (exists p, In p (markup_pieces (xd_root x)) /\ own p = true) -> no_ampersand (xd_prolog x) -> expands x y -> elem_valid (d_root d) ->
  xml_says (literal x) d -> xml_says y d -> False.
Proof.
  intros N O W (p & I & Op) [Qe Qa] [X Ey] V (_ & _ & S) (_ & _ & S').
  rewrite W in S. cbn [literal xd_root] in S. apply (proj1 says_more _ _ _ _ S) in O. unfold mamps in O. rewrite (proj1 literal_pieces_of), (literal_amps _ N) in O.
  apply owns_in in I; [|exact Op]. apply (proj1 says_less) in S'; [|constructor; [exact V|constructor]].
  unfold whole_root in S'. replace (xd_prolog y) with (xd_prolog x) in S' by now rewrite Ey.
  pose proof (proj1 (completed_amps (attdefs (xd_prolog x)) Qa) (xd_root y)) as C.
  pose proof (proj2 (proj2 (expands_amps (entities (xd_prolog x)) Qe)) _ _ X) as D. unfold mamps in *. cbn [namps] in *. lia.
Qed.

(** * Without references *)

Lemma flat_none (l : list attribute) : (forall p, In p (flat_map at_value l) -> own p = false) -> map literal_attribute l = l.
Proof.
  induction l as [|a l IH]; intro H; [easy|]. cbn [map flat_map] in *. rewrite IH by (intros p I; apply H, in_or_app; now right).
  f_equal. unfold literal_attribute. rewrite no_own by (intros p I; apply H, in_or_app; now left). now destruct a.
Qed.
Lemma literal_markup_none :
  (forall m, (forall p, In p (markup_pieces m) -> own p = false) -> literal_markup m = m) /\
  (forall b, (forall p, In p (content_pieces b) -> own p = false) -> literal_content b = b).
Proof.
  apply markup_ind2; try easy.
  - intros nm attrs w H. cbn [literal_markup]. now rewrite flat_none.
  - intros nm attrs w b IH w' H. cbn [literal_markup markup_pieces] in *. rewrite flat_none, IH; [easy| |]; intros p I; apply H, in_or_app; tauto.
  - intros t H. cbn [literal_content content_pieces] in *. now rewrite no_own.
  - intros t m IHm b IHb H. cbn [literal_content content_pieces] in *. rewrite no_own, IHm, IHb; [easy|..]; intros p I; apply H; rewrite !in_app_iff; tauto.
Qed.
Lemma literal_none x : (forall p, In p (markup_pieces (xd_root x)) -> own p = false) -> literal x = x.
Proof. intro H. unfold literal. rewrite (proj1 literal_markup_none) by exact H. now destruct x. Qed.
Lemma value_none E l l' : (forall p, In p l -> own p = false) -> expands_value E l l' <-> l' = l.
Proof.
  intro H. split.
  - intro X. revert H. induction X as [|p l l' O X IH|nm R r r' l l' O B V N K X1 IH1 X2 IH2]; intro H; [easy| |].
    + f_equal. apply IH. intros q I. apply H. now right.
    + rewrite (H _ (or_introl eq_refl)) in O. discriminate.
  - intros ->. induction l as [|p l IH]; [constructor|]. constructor; [apply H; now left|]. apply IH. intros q I. apply H. now right.
Qed.
Lemma attributes_none E l l' : (forall p, In p (flat_map at_value l) -> own p = false) -> Forall2 (expands_attribute E) l l' <-> l' = l.
Proof.
  revert l'. induction l as [|a l IH]; intros l' H.
  - split; [now inversion 1|intros ->; constructor].
  - cbn [flat_map] in H. assert (Ha : forall p, In p (at_value a) -> own p = false) by (intros p I; apply H, in_or_app; now left).
    assert (Hl : forall p, In p (flat_map at_value l) -> own p = false) by (intros p I; apply H, in_or_app; now right). split.
    + inversion 1 as [|? y ? l2 [V Ea] F]; subst. apply (value_none _ _ _ Ha) in V. apply (IH _ Hl) in F. subst. rewrite V in Ea. destruct a; cbn in *. now rewrite Ea.
    + intros ->. constructor; [|now apply IH]. split; [now apply value_none|now destruct a].
Qed.
Lemma text_none E l c : (forall p, In p l -> own p = false) -> expands_text E l c <-> c = CText l.
Proof.
  revert c. induction l as [|p l IH]; intros c H.
  - split; [now inversion 1|intros ->; constructor].
  - assert (Hl : forall q, In q l -> own q = false) by (intros q I; apply H; now right). split.
    + inversion 1 as [|? ? c' O X|? ? ? ? ? ? O]; subst.
      * apply (IH _ Hl) in X. now subst.
      * rewrite (H _ (or_introl eq_refl)) in O. discriminate.
    + intros ->. change (CText (p :: l)) with (join_content (CText [p]) (CText l)). constructor; [apply H; now left|now apply IH].
Qed.
Lemma expands_none E :
  (forall m, (forall p, In p (markup_pieces m) -> own p = false) -> forall m', expands_markup E m m' <-> m' = m) /\
  (forall b, (forall p, In p (content_pieces b) -> own p = false) -> forall c, expands_content E b c <-> c = b).
Proof.
  apply markup_ind2.
  - intros nm attrs w H m'. split.
    + inversion 1; subst. f_equal. now apply (attributes_none E).
    + intros ->. constructor. now apply attributes_none.
  - intros nm attrs w b IH w' H m'. cbn [markup_pieces] in H. assert (Ha : forall p, In p (flat_map at_value attrs) -> own p = false) by (intros p I; apply H, in_or_app; now left).
    assert (Hb : forall p, In p (content_pieces b) -> own p = false) by (intros p I; apply H, in_or_app; now right). split.
    + inversion 1; subst. f_equal; [now apply (attributes_none E)|now apply (IH Hb)].
    + intros ->. constructor; [now apply attributes_none|now apply IH].
  - intros c _ m'. split; [now inversion 1|intros ->; constructor].
  - intros c _ m'. split; [now inversion 1|intros ->; constructor].
  - intros c _ m'. split; [now inversion 1|intros ->; constructor].
  - intros t H c. split.
    + inversion 1; subst. now apply (text_none E).
    + intros ->. constructor. now apply text_none.
  - intros t m IHm b IHb H c. cbn [content_pieces] in H.
    assert (Ht : forall p, In p t -> own p = false) by (intros p I; apply H; rewrite !in_app_iff; tauto).
    assert (Hm : forall p, In p (markup_pieces m) -> own p = false) by (intros p I; apply H; rewrite !in_app_iff; tauto).
    assert (Hb : forall p, In p (content_pieces b) -> own p = false) by (intros p I; apply H; rewrite !in_app_iff; tauto). split.
    + inversion 1 as [|? ? ? c1 m1 c2 X1 X2 X3]; subst. apply (text_none _ _ _ Ht) in X1. apply (IHm Hm) in X2. apply (IHb Hb) in X3. subst. cbn [join_content]. now rewrite app_nil_r.
    + intros ->. replace (CMore t m b) with (join_content (CText t) (CMore [] m b)) at 2 by (cbn [join_content]; now rewrite app_nil_r).
      constructor; [now apply text_none|now apply IHm|now apply IHb].
Qed.
Lemma says_none x : (forall p, In p (markup_pieces (xd_root x)) -> own p = false) -> forall d, entity_says x d <-> xml_says x d.
Proof.
  intros H d. split.
  - intros (y & [X Ey] & S). apply (proj1 (expands_none _) _ H) in X. rewrite X in Ey. replace y with x in S; [exact S|]. rewrite Ey. now destruct x.
  - intro S. exists x. split; [|exact S]. split; [now apply (proj1 (expands_none _))|now destruct x].
Qed.

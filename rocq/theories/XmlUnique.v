(** An XML text has one parse tree. *)
From Coq Require Import List NArith Arith Bool Ascii String Lia.
From Verif Require Import Base BaseFacts Dom Spec SpecDom SpecLex SpecParse SpecXml XmlFacts.
Import ListNotations.

(** * Splitting *)

Definition stops (P : char -> Prop) (r : str) : Prop := match r with [] => True | c :: _ => ~ P c end.
Lemma split_class (P : char -> Prop) : forall a b r r', Forall P a -> Forall P b -> stops P r -> stops P r' -> a ++ r = b ++ r' -> a = b /\ r = r'.
Proof.
  induction a as [|c a IH]; intros [|d b] r r' Ha Hb Hr Hr' E; cbn [app] in E.
  - easy.
  - exfalso. subst r. inversion Hb; subst. now apply Hr.
  - exfalso. subst r'. inversion Ha; subst. now apply Hr'.
  - injection E as <- E. inversion Ha; subst. inversion Hb; subst. destruct (IH b r r') as [-> ->]; easy.
Qed.
Lemma first_quote (q : char) : forall (a b r r' : str), ~ In q a -> ~ In q b -> a ++ q :: r = b ++ q :: r' -> a = b /\ r = r'.
Proof.
  intros a b r r' Ha Hb E. destruct (split_class (fun c => c <> q) a b (q :: r) (q :: r')) as [-> H]; [| | | |exact E|].
  - apply Forall_forall. intros c I ->. now apply Ha.
  - apply Forall_forall. intros c I ->. now apply Hb.
  - cbn. tauto.
  - cbn. tauto.
  - now injection H as ->.
Qed.
Definition name_stop (c : char) : Prop := In c [32; 9; 13; 10; 47; 62; 61; 63; 91; 41; 124; 44; 42; 43; 40; 35; 60; 37; 59]%N.
Lemma stop_not_next c : name_stop c -> ~ name_next c.
Proof.
  intros S [H|H]; unfold name_first, in_ranges in H; apply Exists_exists in H; destruct H as ([a b] & I & L); cbn in L;
  unfold name_stop in S; cbn in S, I;
  repeat (destruct S as [<-|S]; [repeat (destruct I as [I|I]; [injection I as <- <-; lia|]); contradiction|]); contradiction.
Qed.
Lemma first_next s : is_name s -> Forall name_next s.
Proof. intros (c & r & -> & H & R). constructor; [now left|easy]. Qed.
Lemma name_split (a b : str) c d (r r' : str) : is_name a -> is_name b -> name_stop c -> name_stop d -> a ++ c :: r = b ++ d :: r' -> a = b /\ c :: r = d :: r'.
Proof.
  intros Ha Hb Hc Hd E. apply (split_class name_next) in E; [easy|now apply first_next|now apply first_next|now apply stop_not_next|now apply stop_not_next].
Qed.
Lemma spaces_split (a b r r' : str) : spaces a -> spaces b -> stops xml_space r -> stops xml_space r' -> a ++ r = b ++ r' -> a = b /\ r = r'.
Proof. intros Ha Hb Hr Hr' E. now apply (split_class xml_space) in E. Qed.
Lemma space_stop c : xml_space c -> name_stop c.
Proof. unfold xml_space, name_stop. cbn. tauto. Qed.
Lemma first_not_space c : name_first c -> ~ xml_space c.
Proof. intros H S. apply (stop_not_next c); [now apply space_stop|now left]. Qed.
Lemma qname_first nm p n : qname nm p n -> exists c r, nm = c :: r /\ name_first c.
Proof. intro H. apply qname_name in H. destruct H as (c & r & E & H & _). eauto. Qed.

(** * Weaker than well-formed *)

Definition shaped (bad : list char) (p : piece) : Prop :=
  match p with
  | Chr c => ~ In c bad
  | Ent nm => ~ In 59%N nm /\ ~ begins (lit "#") nm
  | Dec ds => ~ In 59%N ds /\ ~ begins (lit "x") ds
  | Hex ds => ~ In 59%N ds
  end.
Lemma digits_in base dig ds n x : number base dig 0 ds = Some n -> dig x = None -> ~ In x ds.
Proof. intros H D I. apply number_digits in H. rewrite Forall_forall in H. now apply (H x). Qed.
Lemma ok_shaped bad p : reference_ok p -> (forall c, p = Chr c -> ~ In c bad) -> shaped bad p.
Proof.
  intros R C. destruct p as [c|nm|ds|ds]; cbn [shaped].
  - now apply C.
  - destruct R as (c & R & _). apply refers_ent in R. cbn in R.
    destruct R as [R|[R|[R|[R|[R|[]]]]]]; injection R as <- <-; (split; [intro I; cbn in I; repeat (destruct I as [I|I]; [discriminate|]); easy|intros (z & Z); discriminate]).
  - destruct R as (c & R & _). destruct ds as [|d ds]; [discriminate|]. cbn [refers] in R.
    split; [eapply digits_in; [exact R|reflexivity]|]. intros (z & Z). cbn in Z. injection Z as -> ->. cbn in R. discriminate.
  - destruct R as (c & R & _). destruct ds as [|d ds]; [discriminate|]. cbn [refers] in R. eapply digits_in; [exact R|reflexivity].
Qed.
Lemma pieces_unique bad q : In q bad -> In 38%N bad -> q <> 38%N -> forall t t' r r', Forall (shaped bad) t -> Forall (shaped bad) t' ->
  pieces_text t ++ q :: r = pieces_text t' ++ q :: r' -> t = t' /\ r = r'.
Proof.
  intros Q A N. induction t as [|p t IH]; intros [|p' t'] r r' Ht Ht' E.
  - cbn in E. now injection E as ->.
  - exfalso. inversion Ht' as [|? ? H1 H2]; subst. cbn [pieces_text flat_map app] in E.
    destruct p'; cbn in E; injection E as E; subst; try easy; congruence.
  - exfalso. inversion Ht as [|? ? H1 H2]; subst. cbn [pieces_text flat_map app] in E.
    destruct p; cbn in E; injection E as E; subst; try easy; congruence.
  - inversion Ht as [|? ? H1 H2]; subst. inversion Ht' as [|? ? H3 H4]; subst.
    change (pieces_text (p :: t)) with (piece_text p ++ pieces_text t) in E.
    change (pieces_text (p' :: t')) with (piece_text p' ++ pieces_text t') in E. rewrite <- !app_assoc in E.
    assert (S : p = p' /\ pieces_text t ++ q :: r = pieces_text t' ++ q :: r').
    { destruct p as [c|nm|ds|ds], p' as [c'|nm'|ds'|ds']; cbn [shaped] in H1, H3; unfold piece_text in E; rewrite <- ?app_assoc in E;
      change (lit "&") with [38%N] in E; change (lit "&#") with [38; 35]%N in E; change (lit "&#x") with [38; 35; 120]%N in E;
      change (lit ";") with [59%N] in E; cbn [app] in E.
      - now injection E as -> E.
      - injection E as -> E. now destruct H1.
      - injection E as -> E. now destruct H1.
      - injection E as -> E. now destruct H1.
      - injection E as <- E. now destruct H3.
      - injection E as E. destruct H1 as [H1 _], H3 as [H3 _]. destruct (first_quote 59%N _ _ _ _ H1 H3 E) as [-> E']. now split.
      - exfalso. injection E as E. destruct nm as [|c nm]; [discriminate|]. injection E as -> E. apply (proj2 H1). now exists nm.
      - exfalso. injection E as E. destruct nm as [|c nm]; [discriminate|]. injection E as -> E. apply (proj2 H1). now exists nm.
      - injection E as <- E. now destruct H3.
      - exfalso. injection E as E. destruct nm' as [|c nm']; [discriminate|]. injection E as <- E. apply (proj2 H3). now exists nm'.
      - injection E as E. destruct H1 as [H1 _], H3 as [H3 _]. destruct (first_quote 59%N _ _ _ _ H1 H3 E) as [-> E']. now split.
      - exfalso. injection E as E. destruct ds as [|c ds]; [discriminate|]. injection E as -> E. apply (proj2 H1). now exists ds.
      - injection E as <- E. now destruct H3.
      - exfalso. injection E as E. destruct nm' as [|c nm']; [discriminate|]. injection E as <- E. apply (proj2 H3). now exists nm'.
      - exfalso. injection E as E. destruct ds' as [|c ds']; [discriminate|]. injection E as <- E. apply (proj2 H3). now exists ds'.
      - injection E as E. destruct (first_quote 59%N _ _ _ _ H1 H3 E) as [-> E']. now split. }
    destruct S as [-> S]. destruct (IH t' r r' H2 H4 S) as [-> ->]. easy.
Qed.

Definition attr_shaped (a : attribute) : Prop :=
  at_space a <> [] /\ spaces (at_space a) /\ is_name (at_name a) /\ spaces (at_eq1 a) /\ spaces (at_eq2 a) /\
  quote_ok (at_quote a) /\ Forall (shaped [60; 38; at_quote a]%N) (at_value a).
Definition comment_shaped (c : str) : Prop := ~ substring (lit "--") c /\ ~ ends (lit "-") c.
Definition pi_shaped (p : pi) : Prop :=
  is_name (pi_target p) /\ (pi_data p = [] \/ exists c r, pi_data p = c :: r /\ xml_space c) /\ ~ substring (lit "?>") (pi_data p).
Definition tag_shaped (nm : str) (attrs : list attribute) (w : str) : Prop := is_name nm /\ Forall attr_shaped attrs /\ spaces w.
Fixpoint markup_shaped (m : markup) : Prop :=
  match m with
  | MEmpty nm attrs w => tag_shaped nm attrs w
  | MElem nm attrs w b w' => tag_shaped nm attrs w /\ content_shaped b /\ spaces w'
  | MComment c => comment_shaped c
  | MCData c => ~ substring (lit "]]>") c
  | MPI p => pi_shaped p
  end
with content_shaped (b : content) : Prop :=
  match b with
  | CText t => Forall (shaped [60; 38]%N) t
  | CMore t m b => Forall (shaped [60; 38]%N) t /\ markup_shaped m /\ content_shaped b
  end.
Lemma pieces_shaped bad t : Forall (fun p => reference_ok p /\ forall c, p = Chr c -> xml_char c /\ ~ In c bad) t -> Forall (shaped bad) t.
Proof. intro H. eapply Forall_impl; [|exact H]. intros p (R & C). apply ok_shaped; [easy|]. intros c E. now apply C. Qed.
Lemma attr_ok_shaped a : attribute_ok a -> attr_shaped a.
Proof.
  intros (H1 & H2 & (p & n & H3) & H4 & H5 & H6 & H7). split; [easy|]. split; [easy|]. split; [now apply qname_name in H3|].
  split; [easy|]. split; [easy|]. split; [easy|]. now apply pieces_shaped.
Qed.
Lemma tag_ok_shaped sc nm l w : tag_ok sc nm l w -> tag_shaped nm l w.
Proof.
  intros ((p & n & Q & _) & (A & _) & W). split; [now apply qname_name in Q|]. split; [|easy]. eapply Forall_impl; [|exact A]. exact attr_ok_shaped.
Qed.
Lemma pi_ok_shaped p : pi_ok p -> pi_shaped p.
Proof. intros (A & _ & B & C). split; [easy|]. split; [|easy]. destruct B as [B|(c & r & B & S & _)]; [now left|right; eauto]. Qed.
Lemma ok_shapes : (forall m sc, markup_ok sc m -> markup_shaped m) /\ (forall b sc, content_ok sc b -> content_shaped b).
Proof.
  apply markup_ind2; cbn [markup_ok content_ok markup_shaped content_shaped].
  - intros nm l w sc H. now apply tag_ok_shaped in H.
  - intros nm l w b IH w' sc (A & B & C). split; [now apply tag_ok_shaped in A|]. split; [now apply (IH (declare l sc))|easy].
  - intros c sc (_ & H). exact H.
  - intros c sc (_ & H). exact H.
  - intros p sc H. now apply pi_ok_shaped.
  - intros t sc (H & _). now apply pieces_shaped.
  - intros t m IHm b IHb sc ((H & _) & A & B). split; [now apply pieces_shaped|]. split; [now apply (IHm sc)|now apply (IHb sc)].
Qed.

(** * Markup *)

Lemma quote_not_space q : quote_ok q -> ~ xml_space q.
Proof. intros [->| ->] S; unfold xml_space in S; cbn in S; repeat (destruct S as [S|S]; [discriminate|]); easy. Qed.
Lemma quote_not_amp q : quote_ok q -> q <> 38%N.
Proof. now intros [->| ->]. Qed.
Lemma not_space_61 : ~ xml_space 61%N.
Proof. intro S. unfold xml_space in S; cbn in S; repeat (destruct S as [S|S]; [discriminate|]); easy. Qed.
Lemma eq_starts e r : spaces e -> exists c r', e ++ 61%N :: r = c :: r' /\ name_stop c.
Proof.
  intro S. destruct e as [|c e]; [exists 61%N, r; split; [easy|cbn; tauto]|]. exists c, (e ++ 61%N :: r). split; [easy|]. inversion S; subst. now apply space_stop.
Qed.
Lemma attr_unique a a' r r' : attr_shaped a -> attr_shaped a' -> attribute_text a ++ r = attribute_text a' ++ r' -> a = a' /\ r = r'.
Proof.
  intros (N1 & S1 & K1 & P1 & R1 & Q1 & V1) (N2 & S2 & K2 & P2 & R2 & Q2 & V2) E.
  destruct a as [s k e1 e2 q v], a' as [s' k' e1' e2' q' v']. cbn [at_space at_name at_eq1 at_eq2 at_quote at_value] in *.
  unfold attribute_text in E. cbn [at_space at_name at_eq1 at_eq2 at_quote at_value] in E. rewrite <- !app_assoc in E. change (lit "=") with [61%N] in E. cbn [app] in E.
  apply spaces_split in E; [|easy|easy| |].
  2: { destruct K1 as (c & z & -> & F & _). cbn. now apply first_not_space. }
  2: { destruct K2 as (c & z & -> & F & _). cbn. now apply first_not_space. }
  destruct E as [-> E].
  destruct (eq_starts e1 (e2 ++ q :: pieces_text v ++ q :: r) P1) as (c & z & Ec & Sc).
  destruct (eq_starts e1' (e2' ++ q' :: pieces_text v' ++ q' :: r') P2) as (c' & z' & Ec' & Sc').
  assert (E2 : k ++ c :: z = k' ++ c' :: z') by (rewrite <- Ec, <- Ec'; exact E).
  destruct (name_split _ _ _ _ _ _ K1 K2 Sc Sc' E2) as [-> E']. rewrite <- Ec, <- Ec' in E'. clear E E2 Ec Ec'.
  apply spaces_split in E'; [|easy|easy|apply not_space_61|apply not_space_61]. destruct E' as [-> E]. injection E as E.
  apply spaces_split in E; [|easy|easy|now apply quote_not_space|now apply quote_not_space]. destruct E as [-> E]. injection E as -> E.
  apply (pieces_unique [60; 38; q']%N q') in E; [|cbn; tauto|cbn; tauto|now apply quote_not_amp|easy|easy]. now destruct E as [-> ->].
Qed.
(** What can follow a tag's attributes *)
Definition tag_end (r : str) : Prop := exists c z, r = c :: z /\ In c [47; 62]%N.
Lemma tag_end_stop r : tag_end r -> stops xml_space r.
Proof. intros (c & z & -> & I) S. cbn in I. unfold xml_space in S. cbn in S. destruct I as [<-|[<-|[]]]; repeat (destruct S as [S|S]; [discriminate|]); easy. Qed.
Lemma attrs_against a l w r w' r' : attr_shaped a -> spaces w' -> tag_end r' -> attribute_text a ++ flat_map attribute_text l ++ w ++ r = w' ++ r' -> False.
Proof.
  intros (N1 & S1 & K1 & _) W' T E. unfold attribute_text in E. rewrite <- !app_assoc in E.
  apply spaces_split in E; [|easy|easy| |now apply tag_end_stop].
  - destruct E as [_ E]. destruct K1 as (c & z & K & F & _). rewrite K in E. destruct T as (d & y & -> & I). cbn [app] in E. injection E as -> _.
    apply (stop_not_next d); [|now left]. unfold name_stop. cbn in *. tauto.
  - destruct K1 as (c & z & -> & F & _). cbn. now apply first_not_space.
Qed.
Lemma attrs_unique : forall l l' w w' r r', Forall attr_shaped l -> Forall attr_shaped l' -> spaces w -> spaces w' -> tag_end r -> tag_end r' ->
  flat_map attribute_text l ++ w ++ r = flat_map attribute_text l' ++ w' ++ r' -> l = l' /\ w = w' /\ r = r'.
Proof.
  induction l as [|a l IH]; intros [|a' l'] w w' r r' Hl Hl' Hw Hw' Hr Hr' E; cbn [flat_map app] in E.
  - apply spaces_split in E; [now destruct E|easy|easy|now apply tag_end_stop|now apply tag_end_stop].
  - exfalso. inversion Hl'; subst. rewrite <- app_assoc in E. symmetry in E. now apply attrs_against in E.
  - exfalso. inversion Hl; subst. rewrite <- app_assoc in E. now apply attrs_against in E.
  - inversion Hl; subst. inversion Hl'; subst. rewrite <- !app_assoc in E. apply attr_unique in E; [|easy|easy]. destruct E as [-> E].
    apply IH in E; [|easy..]. now destruct E as (-> & -> & ->).
Qed.
Lemma attrs_start l w r : Forall attr_shaped l -> spaces w -> tag_end r -> exists c z, flat_map attribute_text l ++ w ++ r = c :: z /\ name_stop c.
Proof.
  intros Hl Hw Hr. destruct l as [|a l].
  - cbn [flat_map app]. destruct w as [|c w].
    + destruct Hr as (c & z & -> & I). exists c, z. split; [easy|]. unfold name_stop. cbn in *. tauto.
    + exists c, (w ++ r). split; [easy|]. inversion Hw; subst. now apply space_stop.
  - inversion Hl as [|? ? (N & S & _) _]; subst. cbn [flat_map]. unfold attribute_text at 1. destruct (at_space a) as [|c s]; [easy|].
    eexists c, _. split; [reflexivity|]. inversion S; subst. now apply space_stop.
Qed.
Lemma tag_unique nm nm' l l' w w' r r' : tag_shaped nm l w -> tag_shaped nm' l' w' -> tag_end r -> tag_end r' ->
  nm ++ flat_map attribute_text l ++ w ++ r = nm' ++ flat_map attribute_text l' ++ w' ++ r' -> nm = nm' /\ l = l' /\ w = w' /\ r = r'.
Proof.
  intros (N1 & A1 & W1) (N2 & A2 & W2) T1 T2 E.
  destruct (attrs_start l w r A1 W1 T1) as (c & z & Ec & Sc). destruct (attrs_start l' w' r' A2 W2 T2) as (c' & z' & Ec' & Sc').
  rewrite Ec, Ec' in E. destruct (name_split _ _ _ _ _ _ N1 N2 Sc Sc' E) as [-> E']. rewrite <- Ec, <- Ec' in E'.
  apply attrs_unique in E'; [|easy..]. easy.
Qed.
Lemma suffix_split (a b x y : str) : a ++ x = b ++ y -> (exists z, b = a ++ z /\ x = z ++ y) \/ (exists z, a = b ++ z /\ y = z ++ x).
Proof.
  revert b. induction a as [|c a IH]; intros b E.
  - left. now exists b.
  - destruct b as [|d b].
    + right. exists (c :: a). split; [easy|]. now symmetry.
    + cbn [app] in E. injection E as <- E. destruct (IH b E) as [(z & -> & ->)|(z & -> & ->)]; [left|right]; now exists z.
Qed.
Lemma comment_unique c c' r r' : comment_shaped c -> comment_shaped c' -> c ++ lit "-->" ++ r = c' ++ lit "-->" ++ r' -> c = c' /\ r = r'.
Proof.
  assert (G : forall c z r r', comment_shaped (c ++ z) -> lit "-->" ++ r = z ++ lit "-->" ++ r' -> z = []).
  { clear. intros c z r r' (H1 & H2) E. destruct z as [|a [|b z]]; [easy| |]; cbn in E.
    - injection E as <- E. exfalso. apply H2. now exists c.
    - injection E as <- <- E. exfalso. apply H1. now exists c, z. }
  intros H H' E. apply suffix_split in E. destruct E as [(z & -> & E)|(z & -> & E)].
  - pose proof (G _ _ _ _ H' E). subst z. rewrite app_nil_r. split; [easy|]. now injection E.
  - pose proof (G _ _ _ _ H E). subst z. rewrite app_nil_r. split; [easy|]. now injection E.
Qed.
Lemma cdata_unique c c' r r' : ~ substring (lit "]]>") c -> ~ substring (lit "]]>") c' -> c ++ lit "]]>" ++ r = c' ++ lit "]]>" ++ r' -> c = c' /\ r = r'.
Proof.
  assert (G : forall c z r r', ~ substring (lit "]]>") (c ++ z) -> lit "]]>" ++ r = z ++ lit "]]>" ++ r' -> z = []).
  { clear. intros c z r r' H E. destruct z as [|x [|y [|u z]]]; [easy| | |]; cbn in E.
    - discriminate.
    - discriminate.
    - injection E as <- <- <- E. exfalso. apply H. now exists c, z. }
  intros H H' E. apply suffix_split in E. destruct E as [(z & -> & E)|(z & -> & E)].
  - pose proof (G _ _ _ _ H' E). subst z. rewrite app_nil_r. split; [easy|]. now injection E.
  - pose proof (G _ _ _ _ H E). subst z. rewrite app_nil_r. split; [easy|]. now injection E.
Qed.
Lemma data_unique c c' r r' : ~ substring (lit "?>") c -> ~ substring (lit "?>") c' -> c ++ lit "?>" ++ r = c' ++ lit "?>" ++ r' -> c = c' /\ r = r'.
Proof.
  assert (G : forall c z r r', ~ substring (lit "?>") (c ++ z) -> lit "?>" ++ r = z ++ lit "?>" ++ r' -> z = []).
  { clear. intros c z r r' H E. destruct z as [|x [|y z]]; [easy| |]; cbn in E.
    - discriminate.
    - injection E as <- <- E. exfalso. apply H. now exists c, z. }
  intros H H' E. apply suffix_split in E. destruct E as [(z & -> & E)|(z & -> & E)].
  - pose proof (G _ _ _ _ H' E). subst z. rewrite app_nil_r. split; [easy|]. now injection E.
  - pose proof (G _ _ _ _ H E). subst z. rewrite app_nil_r. split; [easy|]. now injection E.
Qed.
Lemma data_start d r : (d = [] \/ exists c z, d = c :: z /\ xml_space c) -> exists c z, d ++ lit "?>" ++ r = c :: z /\ name_stop c.
Proof.
  intros [->|(c & z & -> & S)].
  - eexists _, _. split; [reflexivity|]. cbn. tauto.
  - eexists _, _. split; [reflexivity|]. now apply space_stop.
Qed.
Lemma pi_unique p p' r r' : pi_shaped p -> pi_shaped p' -> pi_text p ++ r = pi_text p' ++ r' -> p = p' /\ r = r'.
Proof.
  intros (N & D & S) (N' & D' & S') E. destruct p as [t d], p' as [t' d']. cbn [pi_target pi_data] in *. unfold pi_text in E. cbn [pi_target pi_data] in E.
  rewrite <- !app_assoc in E. apply app_inv_head in E.
  destruct (data_start d r D) as (c & z & Ec & Sc). destruct (data_start d' r' D') as (c' & z' & Ec' & Sc'). rewrite Ec, Ec' in E.
  destruct (name_split _ _ _ _ _ _ N N' Sc Sc' E) as [-> E']. rewrite <- Ec, <- Ec' in E'. apply data_unique in E'; [|easy|easy]. now destruct E' as [-> ->].
Qed.
(** The second character of markup *)
Lemma second_element nm l w : tag_shaped nm l w -> exists c z, nm = c :: z /\ ~ In c [33; 63; 47]%N.
Proof.
  intros ((c & z & -> & F & _) & _). exists c, z. split; [easy|]. intro I. unfold name_first, in_ranges in F. apply Exists_exists in F. destruct F as ([a b] & J & L).
  cbn in I, J, L. repeat (destruct I as [<-|I]; [repeat (destruct J as [J|J]; [injection J as <- <-; lia|]); contradiction|]). contradiction.
Qed.
Lemma markup_second m : markup_shaped m -> exists c z, markup_text m = 60%N :: c :: z /\ c <> 47%N.
Proof.
  destruct m as [nm l w|nm l w b w'|c|c|p]; intro H; cbn [markup_shaped] in H.
  - destruct (second_element _ _ _ H) as (c & z & -> & I). eexists c, _. split; [reflexivity|]. intros ->. apply I. cbn. tauto.
  - destruct H as [H _]. destruct (second_element _ _ _ H) as (c & z & -> & I). eexists c, _. split; [reflexivity|]. intros ->. apply I. cbn. tauto.
  - eexists _, _. split; [reflexivity|easy].
  - eexists _, _. split; [reflexivity|easy].
  - eexists _, _. split; [reflexivity|easy].
Qed.
Definition same_after (m : markup) : Prop := markup_shaped m -> forall m' r r', markup_shaped m' -> markup_text m ++ r = markup_text m' ++ r' -> m = m' /\ r = r'.
Definition same_before (b : content) : Prop := content_shaped b -> forall b' r r', content_shaped b' ->
  content_text b ++ lit "</" ++ r = content_text b' ++ lit "</" ++ r' -> b = b' /\ r = r'.
Lemma tag_end_47 r : tag_end (47%N :: r).
Proof. exists 47%N, r. split; [easy|now left]. Qed.
Lemma tag_end_62 r : tag_end (62%N :: r).
Proof. exists 62%N, r. split; [easy|right; now left]. Qed.
Lemma special_element nm l w k r r' : tag_shaped nm l w -> In k [33; 63; 47]%N -> nm ++ r = k :: r' -> False.
Proof. intros H I E. destruct (second_element _ _ _ H) as (c & z & -> & N). injection E as -> _. now apply N. Qed.
Lemma markup_unique : (forall m, same_after m) /\ (forall b, same_before b).
Proof.
  apply markup_ind2; unfold same_after, same_before.
  - intros nm l w H m' r r' H' E. cbn [markup_shaped] in H. destruct m' as [nm' l' w'|nm' l' w' b' v'|c|c|p]; cbn [markup_shaped markup_text] in *; rewrite <- ?app_assoc in E.
    + apply app_inv_head in E. apply tag_unique in E; [|easy|easy|apply tag_end_47|apply tag_end_47]. destruct E as (-> & -> & -> & E). split; [easy|]. now injection E.
    + exfalso. apply app_inv_head in E. apply tag_unique in E; [|easy|easy|apply tag_end_47|apply tag_end_62]. destruct E as (_ & _ & _ & E). discriminate.
    + exfalso. unfold comment_text in E. rewrite <- !app_assoc in E. cbn [lit app] in E. injection E as E. apply (special_element _ _ _ _ _ _ H) in E; [easy|cbn; tauto].
    + exfalso. cbn [lit app] in E. injection E as E. apply (special_element _ _ _ _ _ _ H) in E; [easy|cbn; tauto].
    + exfalso. unfold pi_text in E. rewrite <- !app_assoc in E. cbn [lit app] in E. injection E as E. apply (special_element _ _ _ _ _ _ H) in E; [easy|cbn; tauto].
  - intros nm l w b IH v H m' r r' H' E. cbn [markup_shaped] in H. destruct H as (H & Hb & Hv).
    destruct m' as [nm' l' w'|nm' l' w' b' v'|c|c|p]; cbn [markup_shaped markup_text] in *; rewrite <- ?app_assoc in E.
    + exfalso. apply app_inv_head in E. apply tag_unique in E; [|easy|easy|apply tag_end_62|apply tag_end_47]. destruct E as (_ & _ & _ & E). discriminate.
    + destruct H' as (H' & Hb' & Hv'). apply app_inv_head in E. apply tag_unique in E; [|easy|easy|apply tag_end_62|apply tag_end_62].
      destruct E as (-> & -> & -> & E). apply app_inv_head in E. apply IH in E; [|easy|easy]. destruct E as [-> E]. apply app_inv_head in E.
      apply spaces_split in E; [|easy|easy|apply (tag_end_stop (62%N :: r)), tag_end_62|apply (tag_end_stop (62%N :: r')), tag_end_62].
      destruct E as [-> E]. split; [easy|]. now injection E.
    + exfalso. unfold comment_text in E. rewrite <- !app_assoc in E. cbn [lit app] in E. injection E as E. apply (special_element _ _ _ _ _ _ H) in E; [easy|cbn; tauto].
    + exfalso. cbn [lit app] in E. injection E as E. apply (special_element _ _ _ _ _ _ H) in E; [easy|cbn; tauto].
    + exfalso. unfold pi_text in E. rewrite <- !app_assoc in E. cbn [lit app] in E. injection E as E. apply (special_element _ _ _ _ _ _ H) in E; [easy|cbn; tauto].
  - intros c H m' r r' H' E. cbn [markup_shaped] in H. destruct m' as [nm' l' w'|nm' l' w' b' v'|c'|c'|p]; cbn [markup_shaped markup_text] in *; rewrite <- ?app_assoc in E.
    + exfalso. unfold comment_text in E. rewrite <- !app_assoc in E. cbn [lit app] in E. injection E as E. symmetry in E. apply (special_element _ _ _ _ _ _ H') in E; [easy|cbn; tauto].
    + exfalso. destruct H' as [H' _]. unfold comment_text in E. rewrite <- !app_assoc in E. cbn [lit app] in E. injection E as E. symmetry in E. apply (special_element _ _ _ _ _ _ H') in E; [easy|cbn; tauto].
    + unfold comment_text in E. rewrite <- !app_assoc in E. apply app_inv_head in E. apply comment_unique in E; [|easy|easy]. now destruct E as [-> ->].
    + exfalso. unfold comment_text in E. discriminate.
    + exfalso. unfold comment_text, pi_text in E. discriminate.
  - intros c H m' r r' H' E. cbn [markup_shaped] in H. destruct m' as [nm' l' w'|nm' l' w' b' v'|c'|c'|p]; cbn [markup_shaped markup_text] in *; rewrite <- ?app_assoc in E.
    + exfalso. cbn [lit app] in E. injection E as E. symmetry in E. apply (special_element _ _ _ _ _ _ H') in E; [easy|cbn; tauto].
    + exfalso. destruct H' as [H' _]. cbn [lit app] in E. injection E as E. symmetry in E. apply (special_element _ _ _ _ _ _ H') in E; [easy|cbn; tauto].
    + exfalso. unfold comment_text in E. discriminate.
    + apply app_inv_head in E. apply cdata_unique in E; [|easy|easy]. now destruct E as [-> ->].
    + exfalso. unfold pi_text in E. discriminate.
  - intros p H m' r r' H' E. cbn [markup_shaped] in H. destruct m' as [nm' l' w'|nm' l' w' b' v'|c'|c'|p']; cbn [markup_shaped markup_text] in *; rewrite <- ?app_assoc in E.
    + exfalso. unfold pi_text in E. rewrite <- !app_assoc in E. cbn [lit app] in E. injection E as E. symmetry in E. apply (special_element _ _ _ _ _ _ H') in E; [easy|cbn; tauto].
    + exfalso. destruct H' as [H' _]. unfold pi_text in E. rewrite <- !app_assoc in E. cbn [lit app] in E. injection E as E. symmetry in E. apply (special_element _ _ _ _ _ _ H') in E; [easy|cbn; tauto].
    + exfalso. unfold comment_text, pi_text in E. discriminate.
    + exfalso. unfold pi_text in E. discriminate.
    + apply pi_unique in E; [|easy|easy]. now destruct E as [-> ->].
  - intros t H b' r r' H' E. cbn [content_shaped] in H. destruct b' as [t'|t' m' b']; cbn [content_shaped content_text] in *; rewrite <- ?app_assoc in E.
    + apply (pieces_unique [60; 38]%N 60%N) in E; [|cbn; tauto|cbn; tauto|easy|easy|easy]. destruct E as [-> E]. split; [easy|]. now injection E.
    + exfalso. destruct H' as (H' & Hm & _). destruct (markup_second m' Hm) as (c & z & Em & Nc). rewrite Em in E. cbn [lit app] in E.
      apply (pieces_unique [60; 38]%N 60%N) in E; [|cbn; tauto|cbn; tauto|easy|easy|easy]. destruct E as [_ E]. injection E as E _. now apply Nc.
  - intros t m IHm b IHb H b' r r' H' E. cbn [content_shaped] in H. destruct H as (H & Hm & Hb). destruct (markup_second m Hm) as (c & z & Em & Nc).
    destruct b' as [t'|t' m' b']; cbn [content_shaped content_text] in *; rewrite <- ?app_assoc in E.
    + exfalso. rewrite Em in E. cbn [lit app] in E.
      apply (pieces_unique [60; 38]%N 60%N) in E; [|cbn; tauto|cbn; tauto|easy|easy|easy]. destruct E as [_ E]. injection E as E _. now apply Nc.
    + destruct H' as (H' & Hm' & Hb'). destruct (markup_second m' Hm') as (c' & z' & Em' & Nc'). pose proof E as E0. rewrite Em, Em' in E. cbn [app] in E.
      apply (pieces_unique [60; 38]%N 60%N) in E; [|cbn; tauto|cbn; tauto|easy|easy|easy]. destruct E as [-> _]. apply app_inv_head in E0.
      apply IHm in E0; [|easy|easy]. destruct E0 as [-> E0]. apply IHb in E0; [|easy|easy]. now destruct E0 as [-> ->].
Qed.

(** * Documents *)

(** * Document type declarations *)

Lemma not_space_dec c : existsb (N.eqb c) [32; 9; 13; 10]%N = false -> ~ xml_space c.
Proof. intros H S. rewrite <- not_true_iff_false in H. apply H. apply existsb_exists. exists c. split; [exact S|apply N.eqb_refl]. Qed.
Definition halts (r : str) : Prop := exists c z, r = c :: z /\ name_stop c.
Lemma halts_spaces w r : spaces w -> halts r -> halts (w ++ r).
Proof. intros W H. destruct w as [|c w]; [exact H|]. inversion W; subst. exists c, (w ++ r). split; [easy|now apply space_stop]. Qed.
Lemma halts_space w r : space_ok w -> halts (w ++ r).
Proof. intros [N W]. destruct w as [|c w]; [easy|]. inversion W; subst. exists c, (w ++ r). split; [easy|now apply space_stop]. Qed.
Lemma qname_is_name s : is_qname s -> is_name s.
Proof. intros (p & n & Q). now apply qname_name in Q. Qed.
Lemma name_halts a b r r' : is_qname a -> is_qname b -> halts r -> halts r' -> a ++ r = b ++ r' -> a = b /\ r = r'.
Proof.
  intros A B (c & z & -> & C) (d & y & -> & D). apply qname_is_name in A, B. now apply name_split.
Qed.
Lemma name_not a r c z : is_qname a -> name_stop c -> a ++ r = c :: z -> False.
Proof.
  intros A C E. apply qname_is_name in A. destruct A as (d & y & -> & F & _). injection E as -> _. apply (stop_not_next c C). now left.
Qed.
Lemma name_no_space a r : is_qname a -> stops xml_space (a ++ r).
Proof. intro A. apply qname_is_name in A. destruct A as (d & y & -> & F & _). now apply first_not_space. Qed.
Definition unsigned (r : str) : Prop := exists c z, r = c :: z /\ In c [32; 9; 13; 10; 44; 124; 41; 62]%N.
Lemma unsigned_halts r : unsigned r -> halts r.
Proof. intros (c & z & -> & I). exists c, z. split; [easy|]. unfold name_stop. cbn in *. tauto. Qed.
Lemma unsigned_spaces w r : spaces w -> unsigned r -> unsigned (w ++ r).
Proof. intros W H. destruct w as [|c w]; [exact H|]. inversion W as [|? ? S]; subst. exists c, (w ++ r). split; [easy|]. unfold xml_space in S. cbn in *. tauto. Qed.
Lemma unsigned_at c r : In c [44; 124; 41; 62]%N -> unsigned (c :: r).
Proof. intro I. exists c, r. split; [easy|]. cbn in *. tauto. Qed.
Lemma sign_halts s r : sign_ok s -> unsigned r -> halts (s ++ r).
Proof.
  intros S U. destruct S as [<-|[<-|[<-|[<-|[]]]]]; [now apply unsigned_halts| | |]; (eexists _, _; split; [reflexivity|unfold name_stop; cbn; tauto]).
Qed.
Lemma sign_split s s' r r' : sign_ok s -> sign_ok s' -> unsigned r -> unsigned r' -> s ++ r = s' ++ r' -> s = s' /\ r = r'.
Proof.
  intros S S' (c & z & -> & I) (c' & z' & -> & I') E.
  destruct S as [<-|[<-|[<-|[<-|[]]]]], S' as [<-|[<-|[<-|[<-|[]]]]]; cbn [lit app] in E;
    first [now split|injection E as -> E; subst; now split|
      exfalso; injection E as E _; subst; cbn in I, I'; repeat (destruct I as [I|I]; [discriminate I|]); repeat (destruct I' as [I'|I']; [discriminate I'|]); contradiction].
Qed.
Lemma cp_start c r : cp_ok c -> stops xml_space (cp_text c ++ r).
Proof.
  destruct c as [nm sign|sep w l sign]; cbn [cp_ok cp_text].
  - intros [N _]. rewrite <- app_assoc. now apply name_no_space.
  - intros _. now apply not_space_dec.
Qed.
Lemma cps_start s l r : cps_ok l -> stops xml_space (cps_text s l ++ r).
Proof. destruct l as [c w|c w w' l]; cbn [cps_ok cps_text]; intros [C _]; rewrite <- app_assoc; now apply cp_start. Qed.
Definition separator (s : char) : Prop := [s] = lit "," \/ [s] = lit "|".
Lemma separator_unsigned s r : separator s -> unsigned (s :: r).
Proof. intro S. apply unsigned_at. destruct S as [S|S]; injection S as ->; cbn; tauto. Qed.
Lemma separator_space s r : separator s -> stops xml_space (s :: r).
Proof. intro S. destruct S as [S|S]; injection S as ->; now apply not_space_dec. Qed.
Lemma cps_unique :
  (forall c, cp_ok c -> forall c' r r', cp_ok c' -> unsigned r -> unsigned r' -> cp_text c ++ r = cp_text c' ++ r' -> c = c' /\ r = r') /\
  (forall l, cps_ok l -> forall l' s s' r r', cps_ok l' -> separator s -> separator s' ->
     cps_text s l ++ lit ")" ++ r = cps_text s' l' ++ lit ")" ++ r' ->
     l = l' /\ r = r' /\ ((exists c w w' k, l = CpMore c w w' k) -> s = s')).
Proof.
  apply cp_ind2; cbn [cp_ok cps_ok cp_text cps_text].
  - intros nm sign [N S] c' r r' O' U U' E. destruct c' as [nm' sign'|sep' w' l' sign']; cbn [cp_ok cp_text] in *.
    + destruct O' as [N' S']. rewrite <- !app_assoc in E. apply name_halts in E; [|easy|easy|now apply sign_halts|now apply sign_halts].
      destruct E as [-> E]. apply sign_split in E; [|easy..]. now destruct E as [-> ->].
    + exfalso. rewrite <- !app_assoc in E. apply name_not in E; [easy|easy|unfold name_stop; cbn; tauto].
  - intros sep w l IH sign (W & L & S & K) c' r r' O' U U' E. destruct c' as [nm' sign'|sep' w' l' sign']; cbn [cp_ok cp_text] in *.
    + exfalso. destruct O' as [N' S']. symmetry in E. rewrite <- !app_assoc in E. apply name_not in E; [easy|easy|unfold name_stop; cbn; tauto].
    + destruct O' as (W' & L' & S' & K'). rewrite <- !app_assoc in E. apply app_inv_head in E.
      apply spaces_split in E; [|easy|easy|now apply cps_start|now apply cps_start]. destruct E as [-> E].
      apply IH in E; [|easy|easy|unfold separator; tauto|unfold separator; tauto]. destruct E as (-> & E & M).
      apply sign_split in E; [|easy..]. destruct E as [-> ->]. split; [|easy]. f_equal.
      destruct K as [K|[K X]]; [|now apply M]. destruct K' as [K'|[K' X']]; [|now apply M]. congruence.
  - intros c IH w [C W] l' s s' r r' O' Se Se' E. destruct l' as [c' w'|c' w' w'' l']; cbn [cps_ok cps_text] in *.
    + destruct O' as [C' W']. rewrite <- !app_assoc in E. apply IH in E; [|easy|easy|apply unsigned_spaces; [easy|apply unsigned_at; cbn; tauto]..].
      destruct E as [-> E]. apply spaces_split in E; [|easy|easy|now apply not_space_dec|now apply not_space_dec]. destruct E as [-> E].
      injection E as ->. split; [easy|]. split; [easy|]. intros (? & ? & ? & ? & X). discriminate X.
    + exfalso. destruct O' as (C' & W' & W'' & O'). rewrite <- !app_assoc in E.
      apply IH in E; [|easy|easy|apply unsigned_spaces; [easy|apply unsigned_at; cbn; tauto]|apply unsigned_spaces; [easy|now apply separator_unsigned]].
      destruct E as [-> E]. apply spaces_split in E; [|easy|easy|now apply not_space_dec|now apply separator_space]. destruct E as [_ E].
      injection E as E _. subst s'. destruct Se' as [X|X]; discriminate X.
  - intros c IHc w w' l IHl (C & W & W' & L) l' s s' r r' O' Se Se' E. destruct l' as [c' v|c' v v' l']; cbn [cps_ok cps_text] in *.
    + exfalso. destruct O' as (C' & V). rewrite <- !app_assoc in E.
      apply IHc in E; [|easy|easy|apply unsigned_spaces; [easy|now apply separator_unsigned]|apply unsigned_spaces; [easy|apply unsigned_at; cbn; tauto]].
      destruct E as [-> E]. apply spaces_split in E; [|easy|easy|now apply separator_space|now apply not_space_dec]. destruct E as [_ E].
      injection E as E _. subst s. destruct Se as [X|X]; discriminate X.
    + destruct O' as (C' & V & V' & O'). rewrite <- !app_assoc in E.
      apply IHc in E; [|easy|easy|apply unsigned_spaces; [easy|now apply separator_unsigned]..].
      destruct E as [-> E]. apply spaces_split in E; [|easy|easy|now apply separator_space|now apply separator_space]. destruct E as [-> E].
      injection E as <- E. apply spaces_split in E; [|easy|easy|now apply cps_start|now apply cps_start]. destruct E as [-> E].
      apply IHl in E; [|easy..]. destruct E as (-> & -> & _). easy.
Qed.
Definition alternative_ok (a : str * str * str) : Prop := spaces (fst (fst a)) /\ spaces (snd (fst a)) /\ is_qname (snd a).
Lemma alternative_eq a b n : alternative_text (a, b, n) = a ++ lit "|" ++ b ++ n.
Proof. easy. Qed.
Lemma alternatives_halt l w r : Forall alternative_ok l -> spaces w -> halts (flat_map alternative_text l ++ w ++ lit ")" ++ r).
Proof.
  intros L W. destruct L as [|[[a b] n] l (A & B & N) _].
  - cbn [flat_map app]. apply halts_spaces; [easy|]. eexists _, _. split; [reflexivity|unfold name_stop; cbn; tauto].
  - cbn [flat_map fst snd] in *. unfold alternative_text at 1. cbn [fst snd]. rewrite <- !app_assoc. apply halts_spaces; [easy|].
    eexists _, _. split; [reflexivity|unfold name_stop; cbn; tauto].
Qed.
Lemma alternatives_unique : forall l l' w w' r r', Forall alternative_ok l -> Forall alternative_ok l' -> spaces w -> spaces w' ->
  flat_map alternative_text l ++ w ++ lit ")" ++ r = flat_map alternative_text l' ++ w' ++ lit ")" ++ r' -> l = l' /\ w = w' /\ r = r'.
Proof.
  induction l as [|[[a b] n] l IH]; intros [|[[a' b'] n'] l'] w w' r r' L L' W W' E; cbn [flat_map app] in E; rewrite ?alternative_eq in E.
  - apply spaces_split in E; [|easy|easy|now apply not_space_dec|now apply not_space_dec]. destruct E as [-> E]. now injection E as ->.
  - exfalso. inversion L' as [|? ? (A & B & N) _]; subst. cbn [fst snd] in *. rewrite <- !app_assoc in E.
    apply spaces_split in E; [|easy|easy|now apply not_space_dec|now apply not_space_dec]. destruct E as [_ E]. discriminate E.
  - exfalso. inversion L as [|? ? (A & B & N) _]; subst. cbn [fst snd] in *. rewrite <- !app_assoc in E.
    apply spaces_split in E; [|easy|easy|now apply not_space_dec|now apply not_space_dec]. destruct E as [_ E]. discriminate E.
  - inversion L as [|? ? (A & B & N) L1]; subst. inversion L' as [|? ? (A' & B' & N') L1']; subst. cbn [fst snd] in *. rewrite <- !app_assoc in E.
    apply spaces_split in E; [|easy|easy|now apply not_space_dec|now apply not_space_dec]. destruct E as [-> E]. apply app_inv_head in E.
    apply spaces_split in E; [|easy|easy|now apply name_no_space|now apply name_no_space]. destruct E as [-> E].
    apply name_halts in E; [|easy|easy|now apply alternatives_halt|now apply alternatives_halt]. destruct E as [-> E].
    apply IH in E; [|easy..]. now destruct E as (-> & -> & ->).
Qed.
Lemma spec_unique c c' r r' : spec_ok c -> spec_ok c' -> unsigned r -> unsigned r' -> spec_text c ++ r = spec_text c' ++ r' -> c = c' /\ r = r'.
Proof.
  assert (X : forall w l w' star c r r', spec_ok (CsMixed w l w' star) -> spec_ok (CsChildren c) ->
    spec_text (CsMixed w l w' star) ++ r = spec_text (CsChildren c) ++ r' -> False).
  { clear. intros w l w' star c r r' (W & _) (C & sep & v & k & sign & ->) E. cbn [spec_text cp_text cp_ok] in *. destruct C as (V & K & _).
    rewrite <- !app_assoc in E. apply app_inv_head in E.
    apply spaces_split in E; [|easy|easy|now apply not_space_dec|now apply cps_start]. destruct E as [_ E]. symmetry in E.
    destruct k as [k u|k u u' q]; cbn [cps_ok cps_text] in *; destruct K as [K _]; rewrite <- !app_assoc in E;
      (destruct k as [nm s|? ? ? ?]; cbn [cp_text cp_ok] in *; [|discriminate E]; destruct K as [K _]; rewrite <- !app_assoc in E;
       apply name_not in E; [easy|easy|unfold name_stop; cbn; tauto]). }
  intros O O' U U' E. destruct c as [| |w l v star|c], c' as [| |w' l' v' star'|c'];
    try (now injection E as ->);
    try (exfalso; discriminate E);
    try (exfalso; destruct O as (_ & ? & ? & ? & ? & ->); discriminate E);
    try (exfalso; destruct O' as (_ & ? & ? & ? & ? & ->); discriminate E).
  - destruct O as (W & L & V & S), O' as (W' & L' & V' & S'). cbn [spec_text] in E. rewrite <- !app_assoc in E. apply app_inv_head in E.
    apply spaces_split in E; [|easy|easy|now apply not_space_dec|now apply not_space_dec]. destruct E as [-> E]. apply app_inv_head in E.
    apply alternatives_unique in E; [|easy..]. destruct E as (-> & -> & E).
    apply sign_split in E; [| | |easy|easy]; [now destruct E as [-> ->]| |].
    + destruct S as [->|[-> _]]; cbn; tauto.
    + destruct S' as [->|[-> _]]; cbn; tauto.
  - exfalso. now apply X in E.
  - exfalso. symmetry in E. now apply X in E.
  - apply (proj1 cps_unique) in E; [|now destruct O|now destruct O'|easy|easy]. now destruct E as [-> ->].
Qed.
Lemma spec_no_space c r : spec_ok c -> stops xml_space (spec_text c ++ r).
Proof.
  destruct c as [| |w l v star|c]; cbn [spec_text]; [intros _; now apply not_space_dec..|]. intros [C _]. now apply cp_start.
Qed.
Lemma quoted_unique q q' l l' r r' : quote_ok q -> quote_ok q' -> ~ In q l -> ~ In q' l' ->
  [q] ++ l ++ [q] ++ r = [q'] ++ l' ++ [q'] ++ r' -> q = q' /\ l = l' /\ r = r'.
Proof. intros Q Q' N N' E. injection E as <- E. apply first_quote in E; [|easy|easy]. now destruct E as [-> ->]. Qed.
Lemma external_unique e e' r r' : external_ok e -> external_ok e' -> external_text e ++ r = external_text e' ++ r' -> e = e' /\ r = r'.
Proof.
  destruct e as [w p v q s], e' as [w' p' v' q' s']. unfold external_ok, external_text. cbn [ex_space ex_public ex_space' ex_quote ex_system].
  intros (W & P & V & Q & _ & N) (W' & P' & V' & Q' & _ & N') E. rewrite <- !app_assoc in E.
  assert (K : forall y z, v ++ [q] ++ s ++ [q] ++ y = v' ++ [q'] ++ s' ++ [q'] ++ z -> v = v' /\ q = q' /\ s = s' /\ y = z).
  { intros y z H. apply spaces_split in H; [|apply V|apply V'|now apply quote_not_space|now apply quote_not_space]. destruct H as [-> H].
    apply quoted_unique in H; [|easy..]. now destruct H as (-> & -> & ->). }
  destruct p as [[[pw pq] pl]|], p' as [[[pw' pq'] pl']|];
    (apply spaces_split in E; [|apply W|apply W'|now apply not_space_dec|now apply not_space_dec]; destruct E as [-> E]).
  - rewrite <- !app_assoc in E. apply app_inv_head in E. destruct (P _ _ _ eq_refl) as (A1 & A2 & _ & A3), (P' _ _ _ eq_refl) as (B1 & B2 & _ & B3).
    apply spaces_split in E; [|apply A1|apply B1|now apply quote_not_space|now apply quote_not_space]. destruct E as [-> E].
    apply quoted_unique in E; [|easy..]. destruct E as (-> & -> & E). apply K in E. now destruct E as (-> & -> & -> & ->).
  - exfalso. discriminate E.
  - exfalso. discriminate E.
  - apply app_inv_head in E. apply K in E. now destruct E as (-> & -> & -> & ->).
Qed.
Definition token (s : str) : Prop := s <> [] /\ Forall name_next s.
Lemma ncname_qname s : is_ncname s -> is_qname s.
Proof. intro N. exists None, s. now constructor. Qed.
Lemma ncname_token s : is_ncname s -> token s.
Proof. intros [N _]. split; [destruct N as (c & r & -> & _); discriminate|now apply first_next]. Qed.
Lemma token_halts a b r r' : token a -> token b -> halts r -> halts r' -> a ++ r = b ++ r' -> a = b /\ r = r'.
Proof.
  intros [_ A] [_ B] (c & z & -> & C) (d & y & -> & D) E. apply (split_class name_next) in E; [easy|easy|easy|now apply stop_not_next|now apply stop_not_next].
Qed.
Lemma token_no_space a r : token a -> stops xml_space (a ++ r).
Proof. intros [N A]. destruct A as [|c a C _]; [easy|]. intro S. apply (stop_not_next c); [now apply space_stop|easy]. Qed.
Definition choice_ok (a : str * str * str) : Prop := (spaces (fst (fst a)) /\ spaces (snd (fst a))) /\ token (snd a).
Lemma choices_halt l w r : Forall choice_ok l -> spaces w -> halts (flat_map alternative_text l ++ w ++ lit ")" ++ r).
Proof.
  intros L W. destruct L as [|[[a b] n] l ((A & B) & N) _].
  - cbn [flat_map app]. apply halts_spaces; [easy|]. eexists _, _. split; [reflexivity|unfold name_stop; cbn; tauto].
  - cbn [flat_map fst snd] in *. unfold alternative_text at 1. cbn [fst snd]. rewrite <- !app_assoc. apply halts_spaces; [easy|].
    eexists _, _. split; [reflexivity|unfold name_stop; cbn; tauto].
Qed.
Lemma choices_unique : forall l l' w w' r r', Forall choice_ok l -> Forall choice_ok l' -> spaces w -> spaces w' ->
  flat_map alternative_text l ++ w ++ lit ")" ++ r = flat_map alternative_text l' ++ w' ++ lit ")" ++ r' -> l = l' /\ w = w' /\ r = r'.
Proof.
  induction l as [|[[a b] n] l IH]; intros [|[[a' b'] n'] l'] w w' r r' L L' W W' E; cbn [flat_map app] in E; rewrite ?alternative_eq in E.
  - apply spaces_split in E; [|easy|easy|now apply not_space_dec|now apply not_space_dec]. destruct E as [-> E]. now injection E as ->.
  - exfalso. inversion L' as [|? ? ((A & B) & N) _]; subst. cbn [fst snd] in *. rewrite <- !app_assoc in E.
    apply spaces_split in E; [|easy|easy|now apply not_space_dec|now apply not_space_dec]. destruct E as [_ E]. discriminate E.
  - exfalso. inversion L as [|? ? ((A & B) & N) _]; subst. cbn [fst snd] in *. rewrite <- !app_assoc in E.
    apply spaces_split in E; [|easy|easy|now apply not_space_dec|now apply not_space_dec]. destruct E as [_ E]. discriminate E.
  - inversion L as [|? ? ((A & B) & N) L1]; subst. inversion L' as [|? ? ((A' & B') & N') L1']; subst. cbn [fst snd] in *. rewrite <- !app_assoc in E.
    apply spaces_split in E; [|easy|easy|now apply not_space_dec|now apply not_space_dec]. destruct E as [-> E]. apply app_inv_head in E.
    apply spaces_split in E; [|easy|easy|now apply token_no_space|now apply token_no_space]. destruct E as [-> E].
    apply token_halts in E; [|easy|easy|now apply choices_halt|now apply choices_halt]. destruct E as [-> E].
    apply IH in E; [|easy..]. now destruct E as (-> & -> & ->).
Qed.
Lemma keyword_token kw : In kw keywords -> token kw.
Proof.
  intro H. assert (F : forall s, forallb (fun c => (65 <=? c)%N && (c <=? 90)%N) s = true -> Forall name_next s).
  { intros s E. rewrite forallb_forall in E. apply Forall_forall. intros c I. apply E in I. rewrite andb_true_iff, !N.leb_le in I. left.
    do 1 apply Exists_cons_tl. apply Exists_cons_hd. cbn. lia. }
  repeat (destruct H as [<-|H]; [split; [discriminate|now apply F]|]). destruct H.
Qed.
Lemma keyword_notation : token (lit "NOTATION") /\ ~ In (lit "NOTATION") keywords.
Proof.
  split; [split; [discriminate|]|].
  - apply Forall_forall. intros c I. left. do 1 apply Exists_cons_tl. apply Exists_cons_hd. cbn in I. repeat (destruct I as [<-|I]; [cbn; lia|]). destruct I.
  - intro I. repeat (destruct I as [I|I]; [discriminate I|]). destruct I.
Qed.
Lemma enum_choices (n : option str) t l : Forall (fun s => match n with None => is_nmtoken s | Some _ => is_ncname s end) (t :: map snd l) ->
  Forall (fun a : str * str * str => spaces (fst (fst a)) /\ spaces (snd (fst a))) l -> token t /\ Forall choice_ok l.
Proof.
  intros T L. assert (K : Forall token (t :: map snd l)).
  { eapply Forall_impl; [|exact T]. intro s. destruct n; [apply ncname_token|easy]. }
  inversion K as [|? ? K1 K2]; subst. split; [exact K1|]. rewrite Forall_forall in *. intros a I. split; [now apply L|]. apply K2. now apply in_map.
Qed.
Lemma enum_unique w t l v w' t' l' v' r r' : spaces w -> spaces w' -> token t -> token t' -> Forall choice_ok l -> Forall choice_ok l' -> spaces v -> spaces v' ->
  lit "(" ++ w ++ t ++ flat_map alternative_text l ++ v ++ lit ")" ++ r = lit "(" ++ w' ++ t' ++ flat_map alternative_text l' ++ v' ++ lit ")" ++ r' ->
  w = w' /\ t = t' /\ l = l' /\ v = v' /\ r = r'.
Proof.
  intros W W' T T' L L' V V' E. apply app_inv_head in E.
  apply spaces_split in E; [|easy|easy|now apply token_no_space|now apply token_no_space]. destruct E as [-> E].
  apply token_halts in E; [|easy|easy|now apply choices_halt|now apply choices_halt]. destruct E as [-> E].
  apply choices_unique in E; [|easy..]. now destruct E as (-> & -> & ->).
Qed.
Lemma space_halts w r : space_ok w -> halts (w ++ r).
Proof. apply halts_space. Qed.
Lemma token_paren a r z : token a -> a ++ r = lit "(" ++ z -> False.
Proof.
  intros [N A] E. destruct A as [|c a C _]; [easy|]. injection E as -> _. apply (stop_not_next 40%N); [unfold name_stop; cbn; tauto|easy].
Qed.
Lemma type_unique t t' w w' r r' : type_ok t -> type_ok t' -> space_ok w -> space_ok w' ->
  type_text t ++ w ++ r = type_text t' ++ w' ++ r' -> t = t' /\ w ++ r = w' ++ r'.
Proof.
  intros O O' W W' E. destruct t as [kw|n v t l u], t' as [kw'|n' v' t' l' u']; cbn [type_ok type_text] in *.
  - apply token_halts in E; [|now apply keyword_token|now apply keyword_token|now apply halts_space|now apply halts_space]. now destruct E as [-> E].
  - exfalso. destruct O' as (N & _). apply keyword_token in O as K. destruct n' as [x|]; rewrite <- !app_assoc in E.
    + apply token_halts in E; [|easy|apply keyword_notation|now apply halts_space|now apply halts_space, N]. destruct E as [-> _]. now apply keyword_notation.
    + now apply token_paren in E.
  - exfalso. destruct O as (N & _). apply keyword_token in O' as K. symmetry in E. destruct n as [x|]; rewrite <- !app_assoc in E.
    + apply token_halts in E; [|easy|apply keyword_notation|now apply halts_space|now apply halts_space, N]. destruct E as [-> _]. now apply keyword_notation.
    + now apply token_paren in E.
  - destruct O as (N & V & T & L & U), O' as (N' & V' & T' & L' & U'). destruct (enum_choices _ _ _ T L) as [T1 L1], (enum_choices _ _ _ T' L') as [T2 L2].
    destruct n as [x|], n' as [x'|]; rewrite <- !app_assoc in E.
    + apply app_inv_head in E. apply spaces_split in E; [|now apply N|now apply N'|now apply not_space_dec|now apply not_space_dec]. destruct E as [-> E].
      apply enum_unique in E; [|easy..]. now destruct E as (-> & -> & -> & -> & ->).
    + discriminate E.
    + discriminate E.
    + apply enum_unique in E; [|easy..]. now destruct E as (-> & -> & -> & -> & ->).
Qed.
Lemma type_no_space t r : type_ok t -> stops xml_space (type_text t ++ r).
Proof.
  destruct t as [kw|n v t l u]; cbn [type_ok type_text]; [intro K; apply token_no_space; now apply keyword_token|].
  intros _. destruct n; now apply not_space_dec.
Qed.
Lemma default_unique d d' r r' : default_ok d -> default_ok d' -> default_text d ++ r = default_text d' ++ r' -> d = d' /\ r = r'.
Proof.
  assert (P : forall q v q' v' r r', quote_ok q -> value_ok q v -> quote_ok q' -> value_ok q' v' ->
    [q] ++ pieces_text v ++ [q] ++ r = [q'] ++ pieces_text v' ++ [q'] ++ r' -> q = q' /\ v = v' /\ r = r').
  { clear. intros q v q' v' r r' Q V Q' V' E. injection E as <- E. apply (pieces_unique [60; 38; q]%N q) in E; [easy|cbn; tauto|cbn; tauto|now apply quote_not_amp|now apply pieces_shaped|now apply pieces_shaped]. }
  assert (H : forall q z y, quote_ok q -> [q] ++ z = 35%N :: y -> False) by (intros q z y [-> | ->]; discriminate).
  intros O O' E. destruct d as [| |f q v], d' as [| |f' q' v']; cbn [default_ok default_text] in *; try discriminate E; try (now injection E as ->).
  - exfalso. destruct O' as (_ & Q & _). destruct f'; [discriminate E|]. symmetry in E. rewrite <- !app_assoc in E. now apply H in E.
  - exfalso. destruct O' as (_ & Q & _). destruct f'; [discriminate E|]. symmetry in E. rewrite <- !app_assoc in E. now apply H in E.
  - exfalso. destruct O as (_ & Q & _). destruct f; [discriminate E|]. rewrite <- !app_assoc in E. now apply H in E.
  - exfalso. destruct O as (_ & Q & _). destruct f; [discriminate E|]. rewrite <- !app_assoc in E. now apply H in E.
  - destruct O as (F & Q & V), O' as (F' & Q' & V'). destruct f as [w|], f' as [w'|]; rewrite <- !app_assoc in E.
    + apply app_inv_head in E. apply spaces_split in E; [|now apply F|now apply F'|now apply quote_not_space|now apply quote_not_space]. destruct E as [-> E].
      apply P in E; [|easy..]. now destruct E as (-> & -> & ->).
    + exfalso. symmetry in E. now apply H in E.
    + exfalso. now apply H in E.
    + apply P in E; [|easy..]. now destruct E as (-> & -> & ->).
Qed.
Lemma default_no_space d r : default_ok d -> stops xml_space (default_text d ++ r).
Proof.
  destruct d as [| |f q v]; cbn [default_ok default_text]; [intros _; now apply not_space_dec..|]. intros (_ & Q & _).
  destruct f; [now apply not_space_dec|]. now apply quote_not_space.
Qed.
Lemma attdef_unique a a' r r' : attdef_ok a -> attdef_ok a' -> attdef_text a ++ r = attdef_text a' ++ r' -> a = a' /\ r = r'.
Proof.
  destruct a as [w k w1 t w2 d], a' as [w' k' w1' t' w2' d']. unfold attdef_ok, attdef_text. cbn [ad_space ad_name ad_space1 ad_type ad_space2 ad_default].
  intros (W & K & W1 & T & W2 & D) (W' & K' & W1' & T' & W2' & D') E. rewrite <- !app_assoc in E.
  apply spaces_split in E; [|apply W|apply W'|now apply name_no_space|now apply name_no_space]. destruct E as [-> E].
  apply name_halts in E; [|easy|easy|now apply halts_space|now apply halts_space]. destruct E as [-> E].
  apply spaces_split in E; [|apply W1|apply W1'|now apply type_no_space|now apply type_no_space]. destruct E as [-> E].
  apply type_unique in E; [|easy..]. destruct E as [-> E].
  apply spaces_split in E; [|apply W2|apply W2'|now apply default_no_space|now apply default_no_space]. destruct E as [-> E].
  apply default_unique in E; [|easy..]. now destruct E as [-> ->].
Qed.
Lemma attdefs_against a w z r : attdef_ok a -> spaces w -> attdef_text a ++ z = w ++ lit ">" ++ r -> False.
Proof.
  intros (W & K & _) V E. unfold attdef_text in E. rewrite <- !app_assoc in E.
  apply spaces_split in E; [|apply W|easy|now apply name_no_space|now apply not_space_dec]. destruct E as [_ E].
  apply name_not in E; [easy|easy|unfold name_stop; cbn; tauto].
Qed.
Lemma attdefs_unique : forall l l' w w' r r', Forall attdef_ok l -> Forall attdef_ok l' -> spaces w -> spaces w' ->
  flat_map attdef_text l ++ w ++ lit ">" ++ r = flat_map attdef_text l' ++ w' ++ lit ">" ++ r' -> l = l' /\ w = w' /\ r = r'.
Proof.
  induction l as [|a l IH]; intros [|a' l'] w w' r r' L L' W W' E; cbn [flat_map app] in E.
  - apply spaces_split in E; [|easy|easy|now apply not_space_dec|now apply not_space_dec]. destruct E as [-> E]. now injection E as ->.
  - exfalso. inversion L'; subst. rewrite <- app_assoc in E. symmetry in E. now apply attdefs_against in E.
  - exfalso. inversion L; subst. rewrite <- app_assoc in E. now apply attdefs_against in E.
  - inversion L; subst. inversion L'; subst. rewrite <- !app_assoc in E. apply attdef_unique in E; [|easy|easy]. destruct E as [-> E].
    apply IH in E; [|easy..]. now destruct E as (-> & -> & ->).
Qed.
Lemma attdefs_halt l w r : Forall attdef_ok l -> spaces w -> halts (flat_map attdef_text l ++ w ++ lit ">" ++ r).
Proof.
  intros L W. destruct L as [|a l (A & _) _].
  - cbn [flat_map app]. apply halts_spaces; [easy|]. eexists _, _. split; [reflexivity|unfold name_stop; cbn; tauto].
  - cbn [flat_map]. unfold attdef_text at 1. rewrite <- !app_assoc. now apply halts_space.
Qed.
Lemma entity_shaped q l : entity_value_ok q l -> Forall (shaped [37; 38; q]%N) l.
Proof.
  intro H. eapply Forall_impl; [|exact H]. intros p P. destruct p as [c|nm|ds|ds].
  - now destruct P.
  - apply ncname_token in P. destruct P as [_ P]. rewrite Forall_forall in P. split.
    + intro I. apply (stop_not_next 59%N); [unfold name_stop; cbn; tauto|now apply P].
    + intros (z & ->). apply (stop_not_next 35%N); [unfold name_stop; cbn; tauto|]. apply P. now left.
  - apply ok_shaped; [exact P|easy].
  - apply ok_shaped; [exact P|easy].
Qed.
Lemma external_quote e z w q y : external_ok e -> space_ok w -> quote_ok q -> external_text e ++ z = w ++ [q] ++ y -> False.
Proof.
  intros (W & P & _) V Q E. unfold external_text in E. rewrite <- !app_assoc in E. destruct (ex_public e) as [[[pw pq] pl]|];
    (apply spaces_split in E; [|apply W|apply V|now apply not_space_dec|now apply quote_not_space]; destruct E as [_ E]; destruct Q as [-> | ->]; discriminate E).
Qed.
Lemma entity_unique d d' w w' r r' : entitydef_ok d -> entitydef_ok d' -> spaces w -> spaces w' ->
  entity_text d ++ w ++ lit ">" ++ r = entity_text d' ++ w' ++ lit ">" ++ r' -> d = d' /\ w = w' /\ r = r'.
Proof.
  assert (T : forall w w' r r', spaces w -> spaces w' -> w ++ lit ">" ++ r = w' ++ lit ">" ++ r' -> w = w' /\ r = r').
  { clear. intros w w' r r' W W' E. apply spaces_split in E; [|easy|easy|now apply not_space_dec|now apply not_space_dec]. destruct E as [-> E]. now injection E as ->. }
  intros O O' W W' E. destruct d as [v q l|e nd], d' as [v' q' l'|e' nd']; cbn [entitydef_ok entity_text] in *; rewrite <- !app_assoc in E.
  - destruct O as (V & Q & L), O' as (V' & Q' & L').
    apply spaces_split in E; [|apply V|apply V'|now apply quote_not_space|now apply quote_not_space]. destruct E as [-> E]. injection E as <- E.
    apply (pieces_unique [37; 38; q]%N q) in E; [|cbn; tauto|cbn; tauto|now apply quote_not_amp|now apply entity_shaped|now apply entity_shaped].
    destruct E as [-> E]. apply T in E; [|easy|easy]. now destruct E as [-> ->].
  - exfalso. symmetry in E. now apply external_quote in E.
  - exfalso. now apply external_quote in E.
  - destruct O as (X & N), O' as (X' & N'). apply external_unique in E; [|easy|easy]. destruct E as [-> E].
    destruct nd as [[[a b] n]|], nd' as [[[a' b'] n']|]; rewrite <- ?app_assoc in E; cbn [app] in E.
    + destruct (N _ _ _ eq_refl) as (A & B & Nn), (N' _ _ _ eq_refl) as (A' & B' & Nn'). apply ncname_qname in Nn, Nn'.
      apply spaces_split in E; [|apply A|apply A'|now apply not_space_dec|now apply not_space_dec]. destruct E as [-> E]. apply app_inv_head in E.
      apply spaces_split in E; [|apply B|apply B'|now apply name_no_space|now apply name_no_space]. destruct E as [-> E].
      apply name_halts in E; [|easy|easy|apply halts_spaces; [easy|eexists _, _; split; [reflexivity|unfold name_stop; cbn; tauto]]..].
      destruct E as [-> E]. apply T in E; [|easy|easy]. now destruct E as [-> ->].
    + exfalso. destruct (N _ _ _ eq_refl) as (A & _). apply spaces_split in E; [|apply A|easy|now apply not_space_dec|now apply not_space_dec]. destruct E as [_ E]. discriminate E.
    + exfalso. destruct (N' _ _ _ eq_refl) as (A & _). apply spaces_split in E; [|easy|apply A|now apply not_space_dec|now apply not_space_dec]. destruct E as [_ E]. discriminate E.
    + apply T in E; [|easy|easy]. now destruct E as [-> ->].
Qed.
Lemma notation_unique i i' w w' r r' : notation_ok i -> notation_ok i' -> spaces w -> spaces w' ->
  notation_text i ++ w ++ lit ">" ++ r = notation_text i' ++ w' ++ lit ">" ++ r' -> i = i' /\ w = w' /\ r = r'.
Proof.
  assert (T : forall w w' r r', spaces w -> spaces w' -> w ++ lit ">" ++ r = w' ++ lit ">" ++ r' -> w = w' /\ r = r').
  { clear. intros w w' r r' W W' E. apply spaces_split in E; [|easy|easy|now apply not_space_dec|now apply not_space_dec]. destruct E as [-> E]. now injection E as ->. }
  assert (X : forall e a b q l w r z, external_ok e -> notation_ok (NtPublic a b q l) -> spaces w ->
    external_text e ++ z = notation_text (NtPublic a b q l) ++ w ++ lit ">" ++ r -> False).
  { clear. intros e a b q l w r z (W & P & V & Q & _) (A & B & Q' & _ & N') S E. unfold external_text in E. cbn [notation_text] in E. rewrite <- !app_assoc in E.
    destruct (ex_public e) as [[[pw pq] pl]|].
    - destruct (P _ _ _ eq_refl) as (A1 & A2 & _ & A3). rewrite <- !app_assoc in E.
      apply spaces_split in E; [|apply W|apply A|now apply not_space_dec|now apply not_space_dec]. destruct E as [_ E]. apply app_inv_head in E.
      apply spaces_split in E; [|apply A1|apply B|now apply quote_not_space|now apply quote_not_space]. destruct E as [_ E].
      apply quoted_unique in E; [|easy..]. destruct E as (_ & _ & E).
      apply spaces_split in E; [|apply V|easy|now apply quote_not_space|now apply not_space_dec]. destruct E as [_ E].
      destruct Q as [Q|Q]; rewrite Q in E; discriminate E.
    - apply spaces_split in E; [|apply W|apply A|now apply not_space_dec|now apply not_space_dec]. destruct E as [_ E]. discriminate E. }
  intros O O' W W' E. destruct i as [e|a b q l], i' as [e'|a' b' q' l'].
  - cbn [notation_text] in E. apply external_unique in E; [|easy|easy]. destruct E as [-> E]. apply T in E; [|easy|easy]. now destruct E as [-> ->].
  - exfalso. cbn [notation_text notation_ok] in *. now apply X in E.
  - exfalso. symmetry in E. cbn [notation_ok] in *. now apply X in E.
  - cbn [notation_text notation_ok] in *. destruct O as (A & B & Q & _ & N), O' as (A' & B' & Q' & _ & N'). rewrite <- !app_assoc in E.
    apply spaces_split in E; [|apply A|apply A'|now apply not_space_dec|now apply not_space_dec]. destruct E as [-> E]. apply app_inv_head in E.
    apply spaces_split in E; [|apply B|apply B'|now apply quote_not_space|now apply quote_not_space]. destruct E as [-> E].
    apply quoted_unique in E; [|easy..]. destruct E as (-> & -> & E). apply T in E; [|easy|easy]. now destruct E as [-> ->].
Qed.
Lemma entity_halts d r : entitydef_ok d -> halts (entity_text d ++ r).
Proof.
  destruct d as [w q v|e nd]; cbn [entitydef_ok entity_text]; [intros (W & _)|intros ((W & _) & _); unfold external_text]; rewrite <- !app_assoc; now apply halts_space.
Qed.
Lemma notation_halts i r : notation_ok i -> halts (notation_text i ++ r).
Proof.
  destruct i as [e|w w' q l]; cbn [notation_ok notation_text]; [intros (W & _); unfold external_text|intros (W & _)]; rewrite <- !app_assoc; now apply halts_space.
Qed.
Lemma name_percent nm r w z : is_ncname nm -> nm ++ r = lit "%" ++ w ++ z -> False.
Proof. intros N E. apply ncname_qname in N. apply name_not in E; [easy|easy|unfold name_stop; cbn; tauto]. Qed.
Lemma markupdecl_unique m m' r r' : markupdecl_ok m -> markupdecl_ok m' -> markupdecl_text m ++ r = markupdecl_text m' ++ r' -> m = m' /\ r = r'.
Proof.
  intros O O' E.
  destruct m as [w nm v cs u|w nm l u|w nm d u|w1 w2 nm d u|w nm i u|p|c], m' as [w' nm' v' cs' u'|w' nm' l' u'|w' nm' d' u'|w1' w2' nm' d' u'|w' nm' i' u'|p'|c'];
    cbn [markupdecl_ok markupdecl_text] in *; try discriminate E.
  - destruct O as (W & N & V & S & Sp), O' as (W' & N' & V' & S' & Sp'). rewrite <- !app_assoc in E. apply app_inv_head in E.
    apply spaces_split in E; [|apply W|apply W'|now apply name_no_space|now apply name_no_space]. destruct E as [-> E].
    apply name_halts in E; [|easy|easy|now apply halts_space|now apply halts_space]. destruct E as [-> E].
    apply spaces_split in E; [|apply V|apply V'|now apply spec_no_space|now apply spec_no_space]. destruct E as [-> E].
    apply spec_unique in E; [|easy|easy|apply unsigned_spaces; [easy|apply unsigned_at; cbn; tauto]..]. destruct E as [-> E].
    apply spaces_split in E; [|easy|easy|now apply not_space_dec|now apply not_space_dec]. destruct E as [-> E]. now injection E as ->.
  - destruct O as (W & N & L & U), O' as (W' & N' & L' & U'). rewrite <- !app_assoc in E. apply app_inv_head in E.
    apply spaces_split in E; [|apply W|apply W'|now apply name_no_space|now apply name_no_space]. destruct E as [-> E].
    apply name_halts in E; [|easy|easy|now apply attdefs_halt|now apply attdefs_halt]. destruct E as [-> E].
    apply attdefs_unique in E; [|easy..]. now destruct E as (-> & -> & ->).
  - destruct O as (W & N & L & U), O' as (W' & N' & L' & U'). apply ncname_qname in N, N'. rewrite <- !app_assoc in E. apply app_inv_head in E.
    apply spaces_split in E; [|apply W|apply W'|now apply name_no_space|now apply name_no_space]. destruct E as [-> E].
    apply name_halts in E; [|easy|easy|now apply entity_halts|now apply entity_halts]. destruct E as [-> E].
    apply entity_unique in E; [|easy..]. now destruct E as (-> & -> & ->).
  - exfalso. destruct O as (W & N & _), O' as (W' & _). rewrite <- !app_assoc in E. apply app_inv_head in E.
    apply spaces_split in E; [|apply W|apply W'|now apply name_no_space, ncname_qname|now apply not_space_dec]. destruct E as [_ E]. now apply name_percent in E.
  - exfalso. destruct O as (W & _), O' as (W' & N & _). rewrite <- !app_assoc in E. apply app_inv_head in E.
    apply spaces_split in E; [|apply W|apply W'|now apply not_space_dec|now apply name_no_space, ncname_qname]. destruct E as [_ E]. symmetry in E. now apply name_percent in E.
  - destruct O as (W & V & N & L & _ & U), O' as (W' & V' & N' & L' & _ & U'). apply ncname_qname in N, N'. rewrite <- !app_assoc in E. apply app_inv_head in E.
    apply spaces_split in E; [|apply W|apply W'|now apply not_space_dec|now apply not_space_dec]. destruct E as [-> E]. apply app_inv_head in E.
    apply spaces_split in E; [|apply V|apply V'|now apply name_no_space|now apply name_no_space]. destruct E as [-> E].
    apply name_halts in E; [|easy|easy|now apply entity_halts|now apply entity_halts]. destruct E as [-> E].
    apply entity_unique in E; [|easy..]. now destruct E as (-> & -> & ->).
  - destruct O as (W & N & L & U), O' as (W' & N' & L' & U'). apply ncname_qname in N, N'. rewrite <- !app_assoc in E. apply app_inv_head in E.
    apply spaces_split in E; [|apply W|apply W'|now apply name_no_space|now apply name_no_space]. destruct E as [-> E].
    apply name_halts in E; [|easy|easy|now apply notation_halts|now apply notation_halts]. destruct E as [-> E].
    apply notation_unique in E; [|easy..]. now destruct E as (-> & -> & ->).
  - apply pi_unique in E; [|now apply pi_ok_shaped|now apply pi_ok_shaped]. now destruct E as [-> ->].
  - unfold comment_text in E. rewrite <- !app_assoc in E. apply app_inv_head in E. apply comment_unique in E; [now destruct E as [-> ->]|now destruct O|now destruct O'].
Qed.
Lemma markupdecl_no_space m r : stops xml_space (markupdecl_text m ++ r).
Proof. destruct m; now apply not_space_dec. Qed.
Definition decls_text (l : list (str * markupdecl)) : str := flat_map (fun p => fst p ++ markupdecl_text (snd p)) l.
Lemma decls_unique : forall l l' w w' r r', Forall (fun p => spaces (fst p) /\ markupdecl_ok (snd p)) l -> Forall (fun p => spaces (fst p) /\ markupdecl_ok (snd p)) l' ->
  spaces w -> spaces w' -> decls_text l ++ w ++ lit "]" ++ r = decls_text l' ++ w' ++ lit "]" ++ r' -> l = l' /\ w = w' /\ r = r'.
Proof.
  induction l as [|[v m] l IH]; intros [|[v' m'] l'] w w' r r' L L' W W' E; cbn [decls_text flat_map fst snd app] in E.
  - apply spaces_split in E; [|easy|easy|now apply not_space_dec|now apply not_space_dec]. destruct E as [-> E]. now injection E as ->.
  - exfalso. inversion L' as [|? ? (A & B) _]; subst. cbn [fst snd] in *. rewrite <- !app_assoc in E.
    apply spaces_split in E; [|easy|easy|now apply not_space_dec|now apply markupdecl_no_space]. destruct E as [_ E]. destruct m'; discriminate E.
  - exfalso. inversion L as [|? ? (A & B) _]; subst. cbn [fst snd] in *. rewrite <- !app_assoc in E.
    apply spaces_split in E; [|easy|easy|now apply markupdecl_no_space|now apply not_space_dec]. destruct E as [_ E]. destruct m; discriminate E.
  - inversion L as [|? ? (A & B) L1]; subst. inversion L' as [|? ? (A' & B') L1']; subst. cbn [fst snd] in *. rewrite <- !app_assoc in E.
    apply spaces_split in E; [|easy|easy|now apply markupdecl_no_space|now apply markupdecl_no_space]. destruct E as [-> E].
    apply markupdecl_unique in E; [|easy|easy]. destruct E as [-> E]. apply IH in E; [|easy..]. now destruct E as (-> & -> & ->).
Qed.
Lemma doctype_unique d d' r r' : doctype_ok d -> doctype_ok d' -> doctype_inside d ++ lit ">" ++ r = doctype_inside d' ++ lit ">" ++ r' -> d = d' /\ r = r'.
Proof.
  assert (T : forall w s r, spaces w -> exists c z, w ++ (match s with None => [] | Some s => subset_text s end) ++ lit ">" ++ r = w ++ c :: z /\ In c [91; 62]%N).
  { clear. intros w [s|] r W; (eexists _, _; split; [reflexivity|cbn; tauto]). }
  assert (X : forall e w s r z, external_ok e -> spaces w -> external_text e ++ z = w ++ (match s with None => [] | Some s => subset_text s end) ++ lit ">" ++ r -> False).
  { intros e w s y z (W & P & _) V E. unfold external_text in E. destruct (T w s y V) as (c & u & Et & I). rewrite Et in E. rewrite <- !app_assoc in E.
    destruct (ex_public e) as [[[pw pq] pl]|];
      (apply spaces_split in E; [|apply W|easy|now apply not_space_dec|destruct I as [<-|[<-|[]]]; now apply not_space_dec];
       destruct E as [_ E]; injection E as <- _; destruct I as [I|[I|[]]]; discriminate I). }
  assert (H : forall e w s r, (forall x, e = Some x -> external_ok x) -> spaces w ->
    halts ((match e with None => [] | Some e => external_text e end) ++ w ++ (match s with None => [] | Some s => subset_text s end) ++ lit ">" ++ r)).
  { intros e w s y E V. destruct e as [e|].
    - destruct (E e eq_refl) as (W & _). unfold external_text. rewrite <- !app_assoc. now apply halts_space.
    - cbn [app]. destruct (T w s y V) as (c & u & -> & I). apply halts_spaces; [easy|]. exists c, u. split; [easy|]. destruct I as [<-|[<-|[]]]; unfold name_stop; cbn; tauto. }
  destruct d as [w n e v s], d' as [w' n' e' v' s']. unfold doctype_ok, doctype_inside. cbn [dt_space dt_name dt_external dt_space' dt_subset].
  intros (W & N & Ex & V & S) (W' & N' & Ex' & V' & S') E. rewrite <- !app_assoc in E.
  apply spaces_split in E; [|apply W|apply W'|now apply name_no_space|now apply name_no_space]. destruct E as [-> E].
  apply name_halts in E; [|easy|easy|now apply H|now apply H]. destruct E as [-> E].
  assert (e = e' /\ v ++ (match s with None => [] | Some s => subset_text s end) ++ lit ">" ++ r = v' ++ (match s' with None => [] | Some s => subset_text s end) ++ lit ">" ++ r') as [-> K].
  { destruct e as [e|], e' as [e'|].
    - apply external_unique in E; [|now apply Ex|now apply Ex']. now destruct E as [-> E].
    - exfalso. cbn [app] in E. apply X in E; [easy|now apply Ex|easy].
    - exfalso. cbn [app] in E. symmetry in E. apply X in E; [easy|now apply Ex'|easy].
    - easy. }
  assert (G : forall s r, stops xml_space ((match s with None => [] | Some s => subset_text s end) ++ lit ">" ++ r)).
  { clear. intros [s|] r; now apply not_space_dec. }
  apply spaces_split in K; [|easy|easy|apply G|apply G]. destruct K as [-> K].
  destruct s as [[[l a] b]|], s' as [[[l' a'] b']|]; unfold subset_text in K; cbn [fst snd app] in K; [|exfalso; discriminate K..|now injection K as ->].
  destruct (S _ _ _ eq_refl) as (L & A & B), (S' _ _ _ eq_refl) as (L' & A' & B'). rewrite <- !app_assoc in K. apply app_inv_head in K.
  apply decls_unique in K; [|easy..]. destruct K as (-> & -> & K).
  apply spaces_split in K; [|easy|easy|now apply not_space_dec|now apply not_space_dec]. destruct K as [-> K]. now injection K as ->.
Qed.

(** * Documents *)

Definition misc_shaped (p : str * misc) : Prop :=
  spaces (fst p) /\
  match snd p with
  | MiscComment c => comment_shaped c
  | MiscPI p => pi_shaped p /\ pi_target p <> lit "xml"
  | MiscDoctype d => doctype_ok d
  end.
Definition after_misc (z : str) : Prop := z = [] \/ exists c y, z = 60%N :: c :: y /\ ~ In c [33; 63]%N.
Lemma after_misc_stop z : after_misc z -> stops xml_space z.
Proof. intros [->|(c & y & -> & _)]; [easy|]. intro S. unfold xml_space in S. cbn in S. repeat (destruct S as [S|S]; [discriminate|]); easy. Qed.
Lemma misc_start m r : exists c y, misc_text m ++ r = 60%N :: c :: y /\ In c [33; 63]%N.
Proof. destruct m; (eexists _, _; split; [reflexivity|cbn; tauto]). Qed.
Lemma not_space_60 : ~ xml_space 60%N.
Proof. intro S. unfold xml_space in S; cbn in S; repeat (destruct S as [S|S]; [discriminate|]); easy. Qed.
Lemma misc_stop m r : stops xml_space (misc_text m ++ r).
Proof. destruct (misc_start m r) as (c & y & -> & _). apply not_space_60. Qed.
Lemma misc_unique m m' w r r' : misc_shaped (w, m) -> misc_shaped (w, m') -> misc_text m ++ r = misc_text m' ++ r' -> m = m' /\ r = r'.
Proof.
  intros (_ & H) (_ & H') E. cbn [snd] in *. destruct m as [c|p|d], m' as [c'|p'|d']; cbn [misc_text] in E; try discriminate E.
  - unfold comment_text in E. rewrite <- !app_assoc in E. apply app_inv_head in E. apply comment_unique in E; [|easy|easy]. now destruct E as [-> ->].
  - apply pi_unique in E; [|easy|easy]. now destruct E as [-> ->].
  - rewrite <- !app_assoc in E. apply app_inv_head in E. apply doctype_unique in E; [|easy|easy]. now destruct E as [-> ->].
Qed.
Lemma misc_against w m r w' z' : spaces w -> spaces w' -> after_misc z' -> w ++ misc_text m ++ r = w' ++ z' -> False.
Proof.
  intros W W' A E. apply spaces_split in E; [|easy|easy|apply misc_stop|now apply after_misc_stop]. destruct E as [_ E].
  destruct (misc_start m r) as (c & y & Em & I). rewrite Em in E. destruct A as [->|(c' & y' & -> & N)]; [discriminate|]. injection E as -> _. now apply N.
Qed.
Lemma miscs_unique : forall l l' w w' z z', Forall misc_shaped l -> Forall misc_shaped l' -> spaces w -> spaces w' -> after_misc z -> after_misc z' ->
  miscs_text l ++ w ++ z = miscs_text l' ++ w' ++ z' -> l = l' /\ w = w' /\ z = z'.
Proof.
  induction l as [|[v m] l IH]; intros [|[v' m'] l'] w w' z z' Hl Hl' Hw Hw' Hz Hz' E; cbn [miscs_text flat_map app fst snd] in E.
  - apply spaces_split in E; [now destruct E|easy|easy|now apply after_misc_stop|now apply after_misc_stop].
  - exfalso. inversion Hl' as [|? ? (S & _) _]; subst. rewrite <- !app_assoc in E. symmetry in E. now apply misc_against in E.
  - exfalso. inversion Hl as [|? ? (S & _) _]; subst. rewrite <- !app_assoc in E. now apply misc_against in E.
  - inversion Hl as [|? ? H1 H2]; subst. inversion Hl' as [|? ? H3 H4]; subst. rewrite <- !app_assoc in E.
    apply spaces_split in E; [|now destruct H1|now destruct H3|apply misc_stop|apply misc_stop]. destruct E as [-> E].
    apply (misc_unique _ _ v') in E; [|easy|easy]. destruct E as [-> E]. apply IH in E; [|easy..]. now destruct E as (-> & -> & ->).
Qed.

Definition pseudo_shaped (p : pseudo) : Prop :=
  ps_space p <> [] /\ spaces (ps_space p) /\ spaces (ps_eq1 p) /\ spaces (ps_eq2 p) /\ quote_ok (ps_quote p) /\ ~ In (ps_quote p) (ps_value p).
Definition decl_shaped (d : xmldecl) : Prop :=
  pseudo_shaped (xd_version d) /\ (forall p, xd_encoding d = Some p -> pseudo_shaped p) /\
  (forall p, xd_standalone d = Some p -> pseudo_shaped p) /\ spaces (xd_space d).
Lemma pseudo_unique c n p p' r r' : ~ xml_space c -> pseudo_shaped p -> pseudo_shaped p' ->
  pseudo_text (c :: n) p ++ r = pseudo_text (c :: n) p' ++ r' -> p = p' /\ r = r'.
Proof.
  intros C (N & S & A & B & Q & V) (N' & S' & A' & B' & Q' & V') E. destruct p as [s e1 e2 q v], p' as [s' e1' e2' q' v'].
  cbn [ps_space ps_eq1 ps_eq2 ps_quote ps_value] in *. unfold pseudo_text in E. cbn [ps_space ps_eq1 ps_eq2 ps_quote ps_value] in E.
  rewrite <- !app_assoc in E. change (lit "=") with [61%N] in E. cbn [app] in E. apply spaces_split in E; [|easy..]. destruct E as [-> E]. injection E as E. apply app_inv_head in E.
  apply spaces_split in E; [|easy|easy|apply not_space_61|apply not_space_61]. destruct E as [-> E]. injection E as E.
  apply spaces_split in E; [|easy|easy|now apply quote_not_space|now apply quote_not_space]. destruct E as [-> E]. injection E as -> E.
  apply first_quote in E; [|easy|easy]. now destruct E as [-> ->].
Qed.
Definition next_not (c : char) (r : str) : Prop := exists w d z, r = w ++ d :: z /\ spaces w /\ ~ xml_space d /\ d <> c.
Lemma pseudo_against c n p r r' : ~ xml_space c -> pseudo_shaped p -> next_not c r' -> pseudo_text (c :: n) p ++ r = r' -> False.
Proof.
  intros C (N & S & _) (w & d & z & -> & W & D & Nd) E. unfold pseudo_text in E. rewrite <- !app_assoc in E. cbn [app] in E.
  apply spaces_split in E; [|easy..]. destruct E as [_ E]. injection E as -> _. now apply Nd.
Qed.
Lemma optional_unique c n o o' r r' : ~ xml_space c -> (forall p, o = Some p -> pseudo_shaped p) -> (forall p, o' = Some p -> pseudo_shaped p) ->
  next_not c r -> next_not c r' -> optional_text (c :: n) o ++ r = optional_text (c :: n) o' ++ r' -> o = o' /\ r = r'.
Proof.
  intros C H H' R R' E. destruct o as [p|], o' as [p'|]; cbn [optional_text app] in E.
  - apply pseudo_unique in E; [|easy|now apply H|now apply H']. now destruct E as [-> ->].
  - exfalso. apply pseudo_against in E; [easy|easy|now apply H|easy].
  - exfalso. symmetry in E. apply pseudo_against in E; [easy|easy|now apply H'|easy].
  - easy.
Qed.
Lemma next_pseudo c d n p r : c <> d -> ~ xml_space d -> pseudo_shaped p -> next_not c (pseudo_text (d :: n) p ++ r).
Proof. intros N D (_ & S & _). unfold pseudo_text. rewrite <- !app_assoc. eexists (ps_space p), d, _. split; [reflexivity|]. split; [easy|]. split; [easy|congruence]. Qed.
Lemma next_end c w r : c <> 63%N -> spaces w -> next_not c (w ++ lit "?>" ++ r).
Proof. intros N W. eexists w, 63%N, _. split; [reflexivity|]. split; [easy|]. split; [now apply not_space_dec|congruence]. Qed.
Lemma next_optional c d n o w r : c <> d -> ~ xml_space d -> c <> 63%N -> (forall p, o = Some p -> pseudo_shaped p) -> spaces w ->
  next_not c (optional_text (d :: n) o ++ w ++ lit "?>" ++ r).
Proof. intros N D Q H W. destruct o as [p|]; cbn [optional_text app]; [now apply next_pseudo; [| |apply H]|now apply next_end]. Qed.
Lemma decl_unique d d' r r' : decl_shaped d -> decl_shaped d' -> decl_inside d ++ lit "?>" ++ r = decl_inside d' ++ lit "?>" ++ r' -> d = d' /\ r = r'.
Proof.
  intros (V & En & St & W) (V' & En' & St' & W') E. destruct d as [v e s w], d' as [v' e' s' w']. cbn [xd_version xd_encoding xd_standalone xd_space] in *.
  unfold decl_inside in E. cbn [xd_version xd_encoding xd_standalone xd_space] in E. rewrite <- !app_assoc in E. apply app_inv_head in E.
  apply (pseudo_unique 118%N (lit "ersion")) in E; [|now apply not_space_dec|easy|easy]. destruct E as [-> E].
  apply (optional_unique 101%N (lit "ncoding")) in E; [|now apply not_space_dec|easy|easy| |].
  2,3: apply (next_optional 101%N 115%N (lit "tandalone")); [easy|now apply not_space_dec|easy|easy|easy].
  destruct E as [-> E]. apply (optional_unique 115%N (lit "tandalone")) in E; [|now apply not_space_dec|easy|easy|now apply next_end|now apply next_end].
  destruct E as [-> E]. apply spaces_split in E; [|easy|easy|now apply not_space_dec|now apply not_space_dec]. destruct E as [-> E]. split; [easy|]. now injection E.
Qed.
Definition doc_shaped (x : xdocument) : Prop :=
  (forall d, xd_decl x = Some d -> decl_shaped d) /\ Forall misc_shaped (xd_prolog x) /\ spaces (xd_gap x) /\
  SpecXml.is_element (xd_root x) /\ markup_shaped (xd_root x) /\ Forall misc_shaped (xd_epilog x) /\ spaces (xd_end x).
Lemma element_start m r : SpecXml.is_element m -> markup_shaped m -> after_misc (markup_text m ++ r).
Proof.
  intros I H. right. destruct m as [nm l w|nm l w b w'| | |]; try easy; cbn [markup_shaped] in H.
  - destruct (second_element _ _ _ H) as (c & z & -> & N). eexists c, _. split; [reflexivity|]. intro J. apply N. cbn in *. tauto.
  - destruct H as [H _]. destruct (second_element _ _ _ H) as (c & z & -> & N). eexists c, _. split; [reflexivity|]. intro J. apply N. cbn in *. tauto.
Qed.
Lemma decl_against d r l w z : decl_shaped d -> Forall misc_shaped l -> spaces w -> after_misc z ->
  lit "<?" ++ decl_inside d ++ lit "?>" ++ r = miscs_text l ++ w ++ z -> False.
Proof.
  intros D L W Z E. destruct l as [|[v m] l]; cbn [miscs_text flat_map app fst snd] in E.
  - destruct w as [|c w].
    + destruct Z as [->|(c & y & -> & N)]; [discriminate|]. cbn [app lit] in E. injection E as <- _. apply N. cbn. tauto.
    + inversion W; subst. cbn [app lit] in E. injection E as <- _. now apply not_space_60.
  - inversion L as [|? ? (S & M) _]; subst. cbn [fst snd] in *. destruct v as [|c v].
    + destruct m as [c|p|q]; [discriminate| |discriminate]. destruct M as [(N & Dt & _) X]. cbn [misc_text app] in E. unfold pi_text in E. rewrite <- !app_assoc in E.
      apply app_inv_head in E. destruct D as ((Nv & Sv & _) & _). unfold decl_inside, pseudo_text in E. rewrite <- !app_assoc in E.
      destruct (ps_space (xd_version d)) as [|c s]; [easy|]. inversion Sv; subst. cbn [app] in E.
      edestruct (data_start (pi_data p)) as (c' & y & Ec & Sc); [exact Dt|]. rewrite Ec in E.
      apply name_split in E; [|exists 120%N, (lit "ml"); split; [easy|]|easy|now apply space_stop|easy]; [now destruct E as [E _]; destruct X|].
      split; [unfold name_first, in_ranges; apply Exists_exists; exists (97, 122)%N; split; [cbn; tauto|cbn; lia]|].
      apply Forall_forall. intros x Ix. left. unfold name_first, in_ranges. apply Exists_exists. exists (97, 122)%N.
      split; [cbn; tauto|]. cbn in Ix. cbn. destruct Ix as [<-|[<-|[]]]; lia.
    + inversion S; subst. cbn [app lit] in E. injection E as <- _. now apply not_space_60.
Qed.
Theorem xml_unique x y : doc_shaped x -> doc_shaped y -> xml_text x = xml_text y -> x = y.
Proof.
  intros (D & P & G & I & M & L & W) (D' & P' & G' & I' & M' & L' & W') E.
  destruct x as [d p g m l w], y as [d' p' g' m' l' w']. cbn [xd_decl xd_prolog xd_gap xd_root xd_epilog xd_end] in *.
  unfold xml_text in E. cbn [xd_decl xd_prolog xd_gap xd_root xd_epilog xd_end] in E.
  assert (K : d = d' /\ miscs_text p ++ g ++ markup_text m ++ miscs_text l ++ w = miscs_text p' ++ g' ++ markup_text m' ++ miscs_text l' ++ w').
  { destruct d as [d|], d' as [d'|]; rewrite <- ?app_assoc in E; cbn [app] in E.
    - apply app_inv_head in E. apply decl_unique in E; [|now apply D|now apply D']. now destruct E as [-> E].
    - exfalso. apply decl_against in E; [easy|now apply D|easy|easy|now apply element_start].
    - exfalso. symmetry in E. apply decl_against in E; [easy|now apply D'|easy|easy|now apply element_start].
    - easy. }
  destruct K as [-> K]. apply miscs_unique in K; [|easy|easy|easy|easy|now apply element_start|now apply element_start]. destruct K as (-> & -> & K).
  apply (proj1 markup_unique) in K; [|easy|easy]. destruct K as [-> K].
  rewrite <- (app_nil_r w), <- (app_nil_r w') in K. apply miscs_unique in K; [|easy|easy|easy|easy|now left|now left]. now destruct K as (-> & -> & _).
Qed.
Lemma version_simple v : version_num v -> simple v.
Proof.
  intros (r & -> & _ & H). apply Forall_app. split; [repeat constructor; easy|]. apply ranges_simple in H; [easy|]. intros x [<-|[]]. cbn. lia.
Qed.
Lemma enc_simple v : enc_name v -> simple v.
Proof.
  intros (c & r & -> & Hc & H). apply (ranges_simple [(65, 90); (97, 122); (48, 57); (45, 46); (95, 95)]%N).
  - constructor; [|easy]. unfold in_ranges in *. rewrite Exists_exists in *. destruct Hc as (x & Hx & Hc). exists x. split; [|easy]. cbn in *. tauto.
  - intros x Hx. cbn in Hx. repeat destruct Hx as [<-|Hx]; cbn; try lia; contradiction.
Qed.
Lemma yes_no_simple v : yes_no v -> simple v.
Proof. intros [-> | ->]; repeat constructor; easy. Qed.
Lemma simple_quote q v : quote_ok q -> simple v -> ~ In q v.
Proof. intros Q S I. unfold simple in S. rewrite Forall_forall in S. apply S in I. destruct I as [I _]. destruct Q as [-> | ->]; discriminate. Qed.
Lemma pseudo_ok_shaped (P : str -> Prop) p : (forall v, P v -> simple v) -> pseudo_ok P p -> pseudo_shaped p.
Proof.
  intros H (A & B & C & D & Q & V). split; [easy|]. split; [easy|]. split; [easy|]. split; [easy|]. split; [easy|]. apply simple_quote; [easy|now apply H].
Qed.
Lemma decl_ok_shaped d : xmldecl_ok d -> decl_shaped d.
Proof.
  intros (V & E & S & W). split; [now apply (pseudo_ok_shaped version_num); [apply version_simple|]|].
  split; [intros p Ep; apply (pseudo_ok_shaped enc_name); [apply enc_simple|now apply E]|].
  split; [intros p Ep; apply (pseudo_ok_shaped yes_no); [apply yes_no_simple|now apply S]|easy].
Qed.
Lemma miscs_ok_shaped l : miscs_ok l -> Forall misc_shaped l.
Proof.
  intro H. eapply Forall_impl; [|exact H]. intros [w m] [S M]. split; [easy|]. cbn [fst snd] in *. destruct m as [c|p|q]; [now destruct M| |easy].
  split; [now apply pi_ok_shaped|]. destruct M as (_ & M & _). intro E. apply M. exists 120%N, 109%N, 108%N. split; [exact E|]. cbn. tauto.
Qed.
Lemma xml_ok_shaped x : xml_ok x -> doc_shaped x.
Proof.
  intros (D & P & _ & G & I & M & _ & L & _ & W). split; [intros d E; apply decl_ok_shaped; now apply D|]. split; [now apply miscs_ok_shaped|].
  split; [easy|]. split; [easy|]. split; [now apply (proj1 ok_shapes) in M|]. split; [now apply miscs_ok_shaped|easy].
Qed.

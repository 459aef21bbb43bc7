(** Boolean checks of the well-formedness conditions of SpecDoc, used to show
    that concrete documents meet them. *)
From Coq Require Import List NArith Arith Bool Ascii String Lia.
From Verif Require Import Base BaseFacts Escape Dom Spec SpecDom DomFacts SerFacts SpecLex SpecParse SpecDoc FormFacts RoundFacts.
Import ListNotations.

Definition in_rangesb (l : list (N * N)) (c : N) : bool := existsb (fun r => (fst r <=? c)%N && (c <=? snd r)%N) l.
Definition start_ranges : list (N * N) :=
  [(58, 58); (65, 90); (95, 95); (97, 122); (192, 214); (216, 246); (248, 767);
   (880, 893); (895, 8191); (8204, 8205); (8304, 8591); (11264, 12271);
   (12289, 55295); (63744, 64975); (65008, 65533); (65536, 983039)]%N.
Definition name_startb (c : char) : bool := in_rangesb start_ranges c && negb (c =? 5760)%N.
Definition name_charb (c : char) : bool :=
  name_startb c || in_rangesb [(45, 46); (48, 57); (183, 183); (768, 879); (8255, 8256)]%N c.
Lemma in_rangesb_ok l c : in_rangesb l c = true -> Exists (fun r => between_ (fst r) (snd r) c) l.
Proof.
  unfold in_rangesb, between_. intro H. apply existsb_exists in H. destruct H as (r & Hr & H). apply Exists_exists. exists r.
  split; [easy|]. apply andb_true_iff in H. destruct H as [H1 H2]. apply N.leb_le in H1, H2. easy.
Qed.
Lemma name_startb_ok c : name_startb c = true -> name_start c.
Proof.
  unfold name_startb. intro H. apply andb_true_iff in H. destruct H as [H1 H2]. split; [now apply (in_rangesb_ok start_ranges)|].
  apply negb_true_iff, N.eqb_neq in H2. exact H2.
Qed.
Lemma name_charb_ok c : name_charb c = true -> name_char c.
Proof.
  unfold name_charb. intro H. apply orb_true_iff in H. destruct H as [H|H]; [left; now apply name_startb_ok|right; now apply in_rangesb_ok].
Qed.
Lemma chars_ok s : forallb name_charb s = true -> Forall name_char s.
Proof. intro H. rewrite forallb_forall in H. apply Forall_forall. intros c Hc. now apply name_charb_ok, H. Qed.
Definition plainb (s : str) : bool :=
  match s with
  | [] => false
  | c :: r => ((c =? 95)%N || (65 <=? c)%N && (c <=? 90)%N || (97 <=? c)%N && (c <=? 122)%N) && forallb name_charb r
  end.
Definition xmlb (s : str) : bool := match s with [] => false | c :: r => name_startb c && forallb name_charb r end.
Lemma plainb_ok s : plainb s = true -> plain_name s.
Proof.
  destruct s as [|c r]; [easy|]. cbn [plainb]. intro H. apply andb_true_iff in H. destruct H as [H1 H2].
  exists c, r. split; [easy|]. split; [|now apply chars_ok]. rewrite !orb_true_iff, !andb_true_iff, !N.leb_le, N.eqb_eq in H1. tauto.
Qed.
Lemma xmlb_ok s : xmlb s = true -> xml_name s.
Proof.
  destruct s as [|c r]; [easy|]. cbn [xmlb]. intro H. apply andb_true_iff in H. destruct H as [H1 H2].
  exists c, r. split; [easy|]. split; [now apply name_startb_ok|now apply chars_ok].
Qed.
Definition inb (c : char) (s : str) : bool := existsb (N.eqb c) s.
Lemma inb_ok c s : inb c s = false -> ~ In c s.
Proof. unfold inb. intros H Hi. enough (existsb (N.eqb c) s = true) by congruence. apply existsb_exists. exists c. now rewrite N.eqb_refl. Qed.
Definition namedb (p : option str) (n : str) : bool :=
  match p with None => plainb n && negb (inb colon n) | Some p => xmlb p && negb (inb colon p) && plainb n end.
Definition qual (p : option str) (n : str) : str := match p with None => n | Some p => p ++ [colon] ++ n end.
Lemma namedb_ok p n : namedb p n = true -> named (qual p n) p n.
Proof.
  destruct p as [p|]; cbn [namedb qual]; rewrite !andb_true_iff.
  - intros [[H1 H2] H3]. apply negb_true_iff in H2. constructor; [now apply xmlb_ok|now apply inb_ok|now apply plainb_ok].
  - intros [H1 H2]. apply negb_true_iff in H2. constructor; [now apply plainb_ok|now apply inb_ok].
Qed.
(** Cuts a qualified name at the first colon. *)
Fixpoint cut (s : str) : option (str * str) :=
  match s with
  | [] => None
  | c :: r => if (c =? colon)%N then Some ([], r) else match cut r with Some (a, b) => Some (c :: a, b) | None => None end
  end.
Lemma cut_ok s a b : cut s = Some (a, b) -> s = a ++ [colon] ++ b.
Proof.
  revert a b. induction s as [|c r IH]; intros a b; cbn [cut]; [easy|]. destruct (c =? colon)%N eqn:E.
  - intro H. injection H as <- <-. apply N.eqb_eq in E. now subst.
  - destruct (cut r) as [[a' b']|]; [|easy]. intro H. injection H as <- <-. now rewrite (IH a' b').
Qed.
Definition namesb (s : str) : bool :=
  match cut s with None => namedb None s | Some (a, b) => namedb (Some a) b end.
Lemma namesb_ok s : namesb s = true -> exists p n, named s p n.
Proof.
  unfold namesb. destruct (cut s) as [[a b]|] eqn:E; intro H; apply namedb_ok in H.
  - apply cut_ok in E. subst. eauto.
  - eauto.
Qed.

Definition wsb (s : str) : bool := forallb is_whitespace s.
Lemma wsb_ok s : wsb s = true -> ws s.
Proof. unfold wsb, ws. rewrite forallb_forall, Forall_forall. easy. Qed.
Definition readableb (s : str) : bool := match unescape s with Ok _ => true | _ => false end.
Lemma readableb_ok s : readableb s = true -> readable s.
Proof. unfold readableb, readable. destruct (unescape s); try easy. eauto. Qed.
Definition attr_wfb (a : cattr) : bool :=
  negb (str_eqb (a_space a) []) && wsb (a_space a) && plainb (a_key a) && wsb (a_eq1 a) && wsb (a_eq2 a) &&
  inb (a_quote a) [dquote; squote] && negb (inb (a_quote a) (a_raw a)) && readableb (a_raw a).
Lemma attr_wfb_ok a : attr_wfb a = true -> attr_wf a.
Proof.
  unfold attr_wfb, attr_wf. rewrite !andb_true_iff. intros (((((((H1 & H2) & H3) & H4) & H5) & H6) & H7) & H8).
  apply negb_true_iff in H1, H7. split; [intro E; rewrite E in H1; discriminate|]. split; [now apply wsb_ok|]. split; [now apply plainb_ok|].
  split; [now apply wsb_ok|]. split; [now apply wsb_ok|]. split; [|split; [now apply inb_ok|now apply readableb_ok]].
  unfold inb in H6. apply existsb_exists in H6. destruct H6 as (x & Hx & E). apply N.eqb_eq in E. subst x. cbn in Hx. intuition congruence.
Qed.
Definition unspacedb (a : cattr) : bool := str_eqb (a_eq1 a) [] && str_eqb (a_eq2 a) [].
Lemma unspacedb_ok a : unspacedb a = true -> unspaced a.
Proof. unfold unspacedb, unspaced. rewrite andb_true_iff, !str_eqb_eq. easy. Qed.
(** An attribute with spaces starts no group: it must be absorbed by the group
    of an earlier attribute; [groupedb] looks for the end of the group. *)
Fixpoint groupedb (fuel : nat) (l : list cattr) : bool :=
  match fuel, l with
  | _, [] => true
  | O, _ => false
  | S f, a :: l' =>
      unspacedb a &&
      (groupedb f l' ||
       (fix ends (m : list cattr) : bool :=
          match m with
          | [] => false
          | z :: m' => ((a_quote z =? a_quote a)%N && groupedb f m') || ends m'
          end) l')
  end.
Lemma groupedb_ok : forall fuel l, groupedb fuel l = true -> grouped l.
Proof.
  induction fuel as [|f IH]; intros [|a l]; cbn [groupedb]; try easy; try (intros; apply gr_nil).
  rewrite andb_true_iff, orb_true_iff. intros [H1 H2]. apply unspacedb_ok in H1. destruct H2 as [H2|H2]; [apply gr_one; auto|].
  assert (G : exists m z r, l = m ++ z :: r /\ a_quote z = a_quote a /\ grouped r).
  { revert H2. induction l as [|z l IHl]; [easy|]. rewrite orb_true_iff, andb_true_iff. intros [[E H]|H].
    - exists [], z, l. apply N.eqb_eq in E. split; [easy|]. split; [easy|]. now apply IH.
    - destruct (IHl H) as (m & z' & r & -> & E & G). now exists (z :: m), z', r. }
  destruct G as (m & z & r & -> & E & G). now apply gr_more.
Qed.
Definition attrs_wfb (l : list cattr) : bool := forallb attr_wfb l && groupedb (List.length l) l.
Lemma attrs_wfb_ok l : attrs_wfb l = true -> attrs_wf l.
Proof.
  unfold attrs_wfb, attrs_wf. rewrite andb_true_iff. intros [H1 H2]. split; [|now apply groupedb_ok in H2].
  rewrite forallb_forall in H1. apply Forall_forall. intros a Ha. now apply attr_wfb_ok, H1.
Qed.
Fixpoint occursb (p s : str) : bool :=
  starts_with p s || match s with [] => false | _ :: r => occursb p r end.
Lemma begins_starts p s : begins p s -> starts_with p s = true.
Proof. intros [r ->]. induction p as [|c p IH]; [easy|]. cbn [app starts_with]. now rewrite N.eqb_refl, IH. Qed.
Lemma occursb_ok p s : occursb p s = false -> ~ substring p s.
Proof.
  induction s as [|c s IH]; cbn [occursb]; rewrite orb_false_iff; intros [H1 H2] (a & b & E).
  - destruct a as [|x a]; [|discriminate]. cbn in E. rewrite begins_starts in H1; [easy|now exists b].
  - destruct a as [|x a]; [rewrite begins_starts in H1; [easy|now exists b]|].
    injection E as -> ->. now apply (IH H2); exists a, b.
Qed.
Definition commentb (c : str) : bool :=
  negb (occursb (lit "-->") c) && negb (starts_with (lit ">") c) && negb (starts_with (lit "->") c).
Lemma commentb_ok c : commentb c = true -> comment_wf c.
Proof.
  unfold commentb. rewrite !andb_true_iff, !negb_true_iff. intros [[H1 H2] H3]. split; [now apply occursb_ok|].
  split; intro B; apply begins_starts in B; congruence.
Qed.
Definition cdatab (c : str) : bool := negb (occursb (lit "]]>") c).
Lemma cdatab_ok c : cdatab c = true -> cdata_wf c.
Proof. unfold cdatab. rewrite negb_true_iff. apply occursb_ok. Qed.
Definition textb (t : str) : bool := negb (inb lt_ t) && (wsb t || readableb t).
Lemma textb_ok t : textb t = true -> text_wf t.
Proof.
  unfold textb. rewrite andb_true_iff, orb_true_iff, negb_true_iff. intros [H1 H2]. split; [now apply inb_ok|].
  destruct H2 as [H2|H2]; [left; now apply wsb_ok|right; now apply readableb_ok].
Qed.
Fixpoint item_wfb (i : citem) : bool :=
  match i with
  | CEmpty nm attrs w => namesb nm && attrs_wfb attrs && wsb w
  | CElem nm attrs w body w' => namesb nm && attrs_wfb attrs && wsb w && body_wfb body && wsb w'
  | CComment c => commentb c
  | CCData c => cdatab c
  end
with body_wfb (b : cbody) : bool :=
  match b with
  | BEnd txt => textb txt
  | BItem txt i b => textb txt && item_wfb i && body_wfb b
  end.
Lemma item_wfb_ok : (forall i, item_wfb i = true -> item_wf i) /\ (forall b, body_wfb b = true -> body_wf b).
Proof.
  apply citem_ind2; cbn [item_wfb body_wfb item_wf body_wf].
  - intros nm l w. rewrite !andb_true_iff. intros [[H1 H2] H3]. split; [now apply namesb_ok|]. split; [now apply attrs_wfb_ok|now apply wsb_ok].
  - intros nm l w b IH w'. rewrite !andb_true_iff. intros [[[[H1 H2] H3] H4] H5].
    split; [now apply namesb_ok|]. split; [now apply attrs_wfb_ok|]. split; [now apply wsb_ok|]. split; [now apply IH|now apply wsb_ok].
  - intros c H. now apply commentb_ok.
  - intros c H. now apply cdatab_ok.
  - intros t H. now apply textb_ok.
  - intros t i IHi b IHb. rewrite !andb_true_iff. intros [[H1 H2] H3]. split; [now apply textb_ok|]. split; [now apply IHi|now apply IHb].
Qed.
Definition rootb (i : citem) : bool :=
  match i with
  | CEmpty nm l _ | CElem nm l _ _ _ =>
      match cut nm with None => true | Some (p, _) => existsb (str_eqb (lit "xmlns:" ++ p)) (map a_key l) end
  | _ => false
  end.
Lemma cut_named nm p n : named nm (Some p) n -> cut nm = Some (p, n).
Proof.
  intro H. inversion H as [|p' n' Hx Hc Hn]; subst. clear -Hc. induction p as [|c p IH]; cbn [app cut].
  - now rewrite N.eqb_refl.
  - destruct (c =? colon)%N eqn:E; [apply N.eqb_eq in E; subst; exfalso; apply Hc; now left|].
    cbn [app] in IH. rewrite IH; [easy|]. intro Hi. apply Hc. now right.
Qed.
Lemma rootb_ok i : rootb i = true -> root_wf i.
Proof.
  intro H. assert (K : forall nm l, match cut nm with None => true | Some (p, _) => existsb (str_eqb (lit "xmlns:" ++ p)) (map a_key l) end = true ->
    forall p n, named nm (Some p) n -> In (lit "xmlns:" ++ p) (map a_key l)).
  { intros nm l E p n Hn. rewrite (cut_named _ _ _ Hn) in E. apply existsb_exists in E. destruct E as (k & Hk & E). apply str_eqb_eq in E. now subst. }
  destruct i as [nm l w|nm l w b w'|c|c]; try easy; exists nm, l; (split; [eauto 6|now apply K]).
Qed.
(** Conditions on every cut of a text. *)
Fixpoint cutsb (P : str -> str -> bool) (a s : str) : bool :=
  P a s && match s with [] => true | c :: r => cutsb P (a ++ [c]) r end.
Lemma cutsb_ok P : forall s a, cutsb P a s = true -> forall u v, s = u ++ v -> P (a ++ u) v = true.
Proof.
  induction s as [|c s IH]; intros a; cbn [cutsb]; rewrite andb_true_iff; intros [H1 H2] u v E.
  - destruct u; [|discriminate]. cbn in E. subst. now rewrite app_nil_r.
  - destruct u as [|x u]; [cbn in E; subst; now rewrite app_nil_r|]. injection E as <- E.
    specialize (IH (a ++ [c]) H2 u v E). now rewrite <- app_assoc in IH.
Qed.
Definition closedb (s : str) : bool := match open_quote None s with None => true | _ => false end.
Lemma closedb_ok s : closedb s = true <-> quotes_closed s.
Proof. unfold closedb, quotes_closed. destruct (open_quote None s); split; congruence. Qed.
Definition declb (d : str) : bool :=
  starts_with (lit "xml") d && closedb d && cutsb (fun a b => negb (starts_with (lit "?>") b) || negb (closedb a)) [] d.
Lemma starts_begins p s : starts_with p s = true -> begins p s.
Proof.
  revert s. induction p as [|c p IH]; intros s H; [now exists s|]. destruct s as [|x s]; [discriminate|]. cbn [starts_with] in H.
  apply andb_true_iff in H. destruct H as [E H]. apply N.eqb_eq in E. subst. destruct (IH s H) as [r ->]. now exists r.
Qed.
Lemma declb_ok d : declb d = true -> decl_wf d.
Proof.
  unfold declb. rewrite !andb_true_iff. intros [[H1 H2] H3]. split; [now apply starts_begins|]. split; [now apply closedb_ok|].
  intros a b -> Hq. pose proof (cutsb_ok _ _ _ H3 a (lit "?>" ++ b) eq_refl) as C. cbn beta in C.
  rewrite begins_starts in C by (now exists b). cbn [negb orb] in C. apply closedb_ok in Hq. cbn [app] in C. now rewrite Hq in C.
Qed.
Definition balancedb (s : str) : bool :=
  Nat.eqb (count_occ N.eq_dec (unquoted None s) lt_) (count_occ N.eq_dec (unquoted None s) gt_).
Lemma balancedb_ok s : balancedb s = true <-> angles_balanced s.
Proof. unfold balancedb, angles_balanced. apply Nat.eqb_eq. Qed.
Definition doctypeb (d : str) : bool :=
  closedb d && balancedb d && cutsb (fun a b => negb (starts_with (lit ">") b) || negb (closedb a) || negb (balancedb a)) [] d.
Lemma doctypeb_ok d : doctypeb d = true -> doctype_wf d.
Proof.
  unfold doctypeb. rewrite !andb_true_iff. intros [[H1 H2] H3]. split; [now apply closedb_ok|]. split; [now apply balancedb_ok|].
  intros a b -> Hq Ha. pose proof (cutsb_ok _ _ _ H3 a (lit ">" ++ b) eq_refl) as C. cbn beta in C.
  rewrite begins_starts in C by (now exists b). apply closedb_ok in Hq. apply balancedb_ok in Ha. cbn [app] in C. now rewrite Hq, Ha in C.
Qed.
Definition pitemb (i : pitem) : bool :=
  match i with PComment c => commentb c && (blen (lit "<!--" ++ c ++ lit "-->") <=? 32) | PDoctype d => doctypeb d end.
Definition source_wfb (x : source) : bool :=
  match x_decl x with None => true | Some (w, d) => wsb w && declb d end &&
  forallb (fun p => wsb (fst p) && pitemb (snd p)) (x_prolog x) &&
  wsb (x_gap x) && item_wfb (x_root x) && rootb (x_root x) && negb (inb lt_ (x_after x)).
Lemma source_wfb_ok x : source_wfb x = true -> source_wf x.
Proof.
  unfold source_wfb. rewrite !andb_true_iff. intros (((((H1 & H2) & H3) & H4) & H5) & H6).
  rewrite forallb_forall in H2. split; [|split; [|split; [|split; [|split; [|split]]]]].
  - intros w d E. rewrite E in H1. apply andb_true_iff in H1. split; [now apply wsb_ok|now apply declb_ok].
  - apply Forall_forall. intros [w i] Hi. apply H2 in Hi. cbn [fst snd] in *. apply andb_true_iff in Hi. destruct Hi as [H H'].
    split; [now apply wsb_ok|]. destruct i as [c|d]; cbn [pitemb pitem_wf] in *; [|now apply doctypeb_ok].
    apply andb_true_iff in H'. now apply commentb_ok.
  - intros w c Hi. apply H2 in Hi. cbn [fst snd pitemb] in Hi. rewrite !andb_true_iff in Hi. left. now apply Nat.leb_le.
  - now apply wsb_ok.
  - now apply item_wfb_ok.
  - now apply rootb_ok.
  - apply negb_true_iff in H6. now apply inb_ok.
Qed.

(** * Documents that can be written *)

Fixpoint nodupb (l : list str) : bool :=
  match l with [] => true | k :: r => negb (existsb (str_eqb k) r) && nodupb r end.
Lemma nodupb_ok l : nodupb l = true -> NoDup l.
Proof.
  induction l as [|k l IH]; cbn [nodupb]; [constructor|]. rewrite andb_true_iff, negb_true_iff. intros [H1 H2].
  constructor; [|now apply IH]. intro Hi. enough (existsb (str_eqb k) l = true) by congruence. apply existsb_exists. exists k. now rewrite str_eqb_refl.
Qed.
Definition survivesb (set : list char) (t : str) : bool :=
  match unescape (flat_map (escape_char set) t) with Ok v => str_eqb v t | _ => false end.
Lemma survivesb_ok set t : survivesb set t = true -> survives set t.
Proof. unfold survivesb, survives. destruct (unescape _); try easy. intro H. apply str_eqb_eq in H. now subst. Qed.
Definition ostr_eqb (a b : option str) : bool :=
  match a, b with None, None => true | Some x, Some y => str_eqb x y | _, _ => false end.
Lemma ostr_eqb_ok a b : ostr_eqb a b = true -> a = b.
Proof. destruct a, b; cbn; try easy. intro H. apply str_eqb_eq in H. now subst. Qed.
Definition is_none {A} (o : option A) : bool := match o with None => true | _ => false end.
Fixpoint text_normalb (l : list node) : bool :=
  match l with
  | NText s :: r => negb (wsb s) && negb (match r with NText _ :: _ => true | _ => false end) && text_normalb r
  | _ :: r => text_normalb r
  | [] => true
  end.
Lemma text_normalb_ok l : text_normalb l = true -> text_normal l.
Proof.
  induction l as [|n l IH]; [split; [intros a s t b E; destruct a; discriminate|easy]|].
  assert (K : text_normal l -> (forall s, n = NText s -> ~ blank s /\ ~ starts_with_text l) -> text_normal (n :: l)).
  { intros [A B] H. split.
    - intros a s t b E. destruct a as [|x a]; cbn [app] in E.
      + injection E as -> ->. destruct (H s eq_refl) as [_ N]. apply N. now exists t, b.
      + injection E as -> E. now apply (A a s t b).
    - intros s [->|Hi]; [now apply (H s)|now apply B]. }
  destruct n as [c|s|s|s]; cbn [text_normalb]; try (intro H; apply K; [now apply IH|easy]).
  rewrite !andb_true_iff, !negb_true_iff. intros [[H1 H2] H3]. apply K; [now apply IH|].
  intros s' E. injection E as <-. split.
  - intros [_ B]. unfold wsb in H1. enough (forallb is_whitespace s = true) by congruence. rewrite forallb_forall. now rewrite Forall_forall in B.
  - intros (t & r & ->). discriminate.
Qed.
Fixpoint writableb (anc : list elem) (e : elem) {struct e} : bool :=
  match e with
  | mkElem nm ch at_ x p ctx =>
      namedb p nm && nodupb (akeys at_) && nodupb (akeys ctx) &&
      forallb (fun kv => plainb (fst kv) && survivesb all_special (snd kv)) at_ &&
      ostr_eqb x (namespace_rule e anc) &&
      text_normalb ch &&
      (fix go (l : list node) : bool :=
         match l with
         | [] => true
         | n :: r =>
             match n with
             | NElem c => writableb (e :: anc) c
             | NText t => survivesb text_special t
             | NComment c => commentb c
             | NCData c => cdatab c
             end && go r
         end) ch
  end.
Definition child_wfb (anc : list elem) (n : node) : bool :=
  match n with
  | NElem c => writableb anc c
  | NText t => survivesb text_special t
  | NComment c => commentb c
  | NCData c => cdatab c
  end.
Lemma qualified_qual e : qualified e = qual (e_prefix e) (e_name e).
Proof. unfold qualified, qual. now destruct (e_prefix e). Qed.
Lemma text_nonempty l : text_normalb l = true -> forall t, In (NText t) l -> t <> [].
Proof.
  induction l as [|n l IH]; [easy|]. intros H t [->|Hi].
  - cbn [text_normalb] in H. rewrite !andb_true_iff, !negb_true_iff in H. intros ->. now destruct H as [[H _] _].
  - apply IH; [|easy]. destruct n; cbn [text_normalb] in H; try easy. rewrite !andb_true_iff in H. now destruct H.
Qed.
Lemma writableb_ok : forall e anc, writableb anc e = true -> writable anc e /\ elem_ok e.
Proof.
  induction e as [e IH] using elem_ind'. intros anc H.
  assert (G : forall l, (fix go (l : list node) : bool :=
         match l with
         | [] => true
         | n :: r =>
             match n with
             | NElem c => writableb (e :: anc) c
             | NText t => survivesb text_special t
             | NComment c => commentb c
             | NCData c => cdatab c
             end && go r
         end) l = forallb (child_wfb (e :: anc)) l) by (induction l as [|n l IHl]; [easy|]; cbn [forallb]; now rewrite <- IHl).
  destruct e as [nm ch at_ x p ctx]. cbn [writableb] in H. rewrite G in H. rewrite !andb_true_iff in H.
  destruct H as ((((((H1 & H2) & H2') & H3) & H4) & H6) & H7). rewrite forallb_forall in H7. rewrite forallb_forall in H3.
  assert (Hc : forall c, In (NElem c) ch -> writable (mkElem nm ch at_ x p ctx :: anc) c /\ elem_ok c).
  { intros c Hi. apply IH; [easy|]. now apply H7 in Hi. }
  split.
  - constructor; cbn [e_prefix e_name e_attributes e_children e_xmlns].
    + rewrite qualified_qual. now apply namedb_ok.
    + intros k v Hi. apply H3 in Hi. cbn [fst snd] in Hi. apply andb_true_iff in Hi. split; [now apply plainb_ok|now apply survivesb_ok].
    + now apply ostr_eqb_ok in H4.
    + now apply text_normalb_ok.
    + intros t Hi. split; [now apply (text_nonempty ch)|]. apply H7 in Hi. now apply survivesb_ok.
    + intros c Hi. apply H7 in Hi. now apply commentb_ok.
    + intros c Hi. apply H7 in Hi. now apply cdatab_ok.
    + intros c Hi. now apply Hc.
  - constructor; cbn [e_attributes e_context e_children]; [now apply nodupb_ok|now apply nodupb_ok|]. intros c Hi. now apply Hc.
Qed.
Definition writable_docb (d : document) : bool :=
  writableb [] (root_element d) && match doctype_defs d with [] => true | _ => false end &&
  match declaration d with None => true | Some x => declb x end &&
  match e_prefix (root_element d) with None => true | Some p => negb (is_none (get_attr (root_element d) (lit "xmlns:" ++ p))) end.
Lemma writable_docb_ok d : writable_docb d = true -> writable_doc d.
Proof.
  unfold writable_docb. rewrite !andb_true_iff. intros (((H1 & H2) & H3) & H4). apply writableb_ok in H1.
  split; [easy|]. split; [now destruct (doctype_defs d)|]. split.
  - intros x E. rewrite E in H3. now apply declb_ok.
  - split; [easy|]. intros p E. rewrite E in H4. now destruct (get_attr _ _).
Qed.

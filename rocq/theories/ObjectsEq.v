(** Facts about the model with trait objects: [remove_element], equality,
    serialization, and nodes that do not tell the truth. *)
From Coq Require Import List NArith Arith Bool Ascii String Lia.
From Verif Require Import Base Escape Dom Nodes SpecDom DomFacts SerFacts Objects SpecObjects ObjectsFacts ObjectsMore.
Import ListNotations.

Section Facts.
Context {St : Type} (M : methods St) (mark : St -> str).
Notation obj := (obj_ St (oelem St)).
Notation oelem := (oelem St).
Notation meant := (meant M mark).
Notation meant_obj := (meant_obj M mark).
Notation honest := (honest M).
Notation honest_obj := (honest_obj M).

(** * [remove_element] *)

Lemma o_indices l : Forall honest_obj l -> forall i, o_element_indices M l i = element_indices (map meant_obj l) i.
Proof.
  induction 1 as [|n l Hn F IH]; intro i; [easy|]. cbn [o_element_indices element_indices map]. rewrite (proj1 (view_element M mark n Hn)), !IH. reflexivity.
Qed.
Lemma o_indices_nth l : Forall honest_obj l -> forall k j i, nth_error (o_element_indices M l k) j = Some i ->
  exists n c cs, vget l (i - k) = Ok n /\ k <= i /\ honest_obj n /\ o_is_element M n = true /\ o_as_element n = Some c /\
    filter_cast (o_is_element M) o_as_element l = Ok cs /\ nth_error cs j = Some c.
Proof.
  induction 1 as [|n l Hn F IH]; intros k j i H; [now destruct j|]. cbn [o_element_indices filter_cast] in *.
  destruct (view_element M mark n Hn) as (_ & V & _). destruct (o_is_element M n) eqn:T.
  - destruct (V eq_refl) as (c & A & _). rewrite A. cbn [unwrap bind]. destruct (elements_carried M mark l F) as [E _].
    destruct (filter_cast (o_is_element M) o_as_element l) as [cs| | |] eqn:Fc; try discriminate. cbn [bind]. destruct j as [|j].
    + injection H as <-. exists n, c, (c :: cs). rewrite Nat.sub_diag. repeat (split; [easy|]). easy.
    + apply IH in H. destruct H as (n' & c' & cs' & G & L & Hn' & T' & A' & E' & N). exists n', c', (c :: cs). replace (i - k) with (S (i - S k)) by lia.
      injection E' as ->. repeat (split; [easy||lia|]). easy.
  - apply IH in H. destruct H as (n' & c' & cs' & G & L & Hn' & T' & A' & E' & N). exists n', c', cs'. replace (i - k) with (S (i - S k)) by lia.
    repeat (split; [easy||lia|]). easy.
Qed.
Lemma vget_removes {A} : forall (l : list A) i a, vget l i = Ok a -> exists r, vremove l i = Ok r.
Proof.
  induction l as [|x l IH]; intros [|i] a G; try discriminate; [now exists (x, l)|]. destruct (IH i a G) as [r E]. cbn [vremove]. rewrite E. now exists (fst r, x :: snd r).
Qed.
Lemma remove_element_spec e k : honest e ->
  (exists x, o_remove_element M e k = Err x /\ remove_element (meant e) k = Err x) \/
  (exists c e' cs, o_remove_element M e k = Ok (o_clone M c, e') /\ honest e' /\ o_child_elements M e = Ok cs /\ nth_error cs k = Some c /\
     remove_element (meant e) k = Ok (meant c, meant e')).
Proof.
  intro H. pose proof (honest_inv M e H) as F. unfold o_remove_element, remove_element. rewrite meant_children, <- o_indices by easy.
  destruct (Nat.leb_spec (List.length (o_element_indices M (o_children e) 0)) k) as [L|L]; [left; eexists; split; reflexivity|]. right.
  destruct (nth_error (o_element_indices M (o_children e) 0) k) as [i|] eqn:N; [|apply nth_error_None in N; lia].
  assert (vget (o_element_indices M (o_children e) 0) k = Ok i) as -> by (unfold vget; now rewrite N). cbn [bind].
  destruct (o_indices_nth _ F 0 k i N) as (n & c & cs & G & _ & Hn & T & A & E & Nc). rewrite Nat.sub_0_r in G.
  destruct (vremove_carried M mark _ i F) as [E1 E2]. rewrite E1.
  destruct (vget_removes _ _ _ G) as [r R]. rewrite R in *.
  destruct (E2 r eq_refl) as [_ F2]. cbn [bind outcome_map fst snd]. rewrite (vget_vremove _ _ _ _ G R).
  destruct (view_element M mark n Hn) as (_ & V & _). destruct (V T) as (c' & A' & -> & _ & On & _). assert (c' = c) as -> by congruence.
  rewrite On. cbn [as_element expect bind]. rewrite clone_id. exists c, (o_set_children e (snd r)), cs.
  rewrite meant_set_children. repeat (split; [easy|]). split; [now apply honest_of|]. now repeat (split; [easy|]).
Qed.

(** * Equality *)

Definition eq_list (x : list obj) (y : list obj) : outcome bool :=
  (fix go (l1 l2 : list obj) : outcome bool :=
     match l1, l2 with
     | a :: l1', b :: l2' => do r <- o_node_eq M a b; if negb r then Ok false else go l1' l2'
     | _, _ => Ok true
     end) x y.
Lemma o_eq_eq x y : o_eq M x y =
  if str_eqb (o_name x) (o_name y) && ostr_eqb (o_xmlns x) (o_xmlns y) && ostr_eqb (o_prefix x) (o_prefix y)
     && amap_eqb (o_attributes x) (o_attributes y) && (List.length (o_children x) =? List.length (o_children y))
  then eq_list (o_children x) (o_children y) else Ok false.
Proof.
  destruct x as [nm ch at_ ns px cx]. cbn [o_eq o_name o_xmlns o_prefix o_attributes o_children].
  destruct (str_eqb nm (o_name y) && ostr_eqb ns (o_xmlns y) && ostr_eqb px (o_prefix y) && amap_eqb at_ (o_attributes y) && (List.length ch =? List.length (o_children y))); [|easy].
  generalize (o_children y). induction ch as [|a ch IH]; intros [|b l]; try easy. unfold eq_list. cbn [o_node_eq]. unfold o_node_eq.
  destruct (o_node_type M a) as [t1| | |]; try easy. destruct (o_node_type M b) as [t2| | |]; try easy. cbn [bind].
  match goal with |- (do q <- ?X; _) = (do z <- ?Y; _) => change Y with X; destruct X as [[]| | |]; try easy end. cbn [bind negb]. rewrite IH. reflexivity.
Qed.
Notation a_stranger := (a_stranger M).
Definition eq_good (x y : oelem) : Prop :=
  (o_eq M x y = Panic /\ (has_stranger M x \/ has_stranger M y)) \/
  (o_eq M x y = Ok (elem_eqb (meant x) (meant y)) /\ (elem_eqb (meant x) (meant y) = true -> ~ has_stranger M x /\ ~ has_stranger M y)).
Lemma stranger_not n : honest_obj n -> o_is_element M n = false -> (forall s i, n = OUser s i -> ~ stranger M s) -> ~ a_stranger n.
Proof. intros H T N [(s & i & -> & S)|(c & E & _)]; [now apply (N s i)|congruence]. Qed.
Lemma stranger_below n c : o_is_element M n = true -> o_as_element n = Some c -> (a_stranger n <-> has_stranger M c).
Proof.
  intros T A. split.
  - intros [(s & i & -> & (S & _) & _)|(c' & _ & A' & H)]; [cbn in T; congruence|]. now replace c with c' by congruence.
  - intro H. right. now exists c.
Qed.
Lemma node_eq_spec a b : honest_obj a -> honest_obj b ->
  (forall x y, o_as_element a = Some x -> honest x -> honest y -> eq_good x y) ->
  (o_node_eq M a b = Panic /\ (a_stranger a \/ a_stranger b)) \/
  (o_node_eq M a b = Ok (node_eqb (meant_obj a) (meant_obj b)) /\ (node_eqb (meant_obj a) (meant_obj b) = true -> ~ a_stranger a /\ ~ a_stranger b)).
Proof.
  intros Ha Hb IH. unfold o_node_eq.
  assert (NT : forall n, o_is_text M n = true -> forall s i, n = OUser s i -> ~ stranger M s) by (intros n T s i -> ((_ & S & _) & _); cbn in T; congruence).
  assert (NC : forall n, o_is_comment M n = true -> forall s i, n = OUser s i -> ~ stranger M s) by (intros n T s i -> ((_ & _ & S & _) & _); cbn in T; congruence).
  assert (ND : forall n, o_is_cdata M n = true -> forall s i, n = OUser s i -> ~ stranger M s) by (intros n T s i -> ((_ & _ & _ & S) & _); cbn in T; congruence).
  destruct (honest_view M mark a Ha) as [a x A1 A2 A3 A4 A5 A6 A7 A8 A9 A10 A11 A12|a t A1 A2 A3 A4 A5 A6 A7 A8|a t A1 A2 A3 A4 A5 A6 A7|a t A1 A2 A3 A4 A5 A6 A7|s i S E].
  5: { left. destruct S as (S1 & S2) eqn:Q. cbn [o_node_type]. rewrite S2. split; [easy|]. left. left. now exists s, i. }
  all: destruct (honest_view M mark b Hb) as [b y B1 B2 B3 B4 B5 B6 B7 B8 B9 B10 B11 B12|b u B1 B2 B3 B4 B5 B6 B7 B8|b u B1 B2 B3 B4 B5 B6 B7|b u B1 B2 B3 B4 B5 B6 B7|s i S E].
  all: try (left; destruct S as (S1 & S2) eqn:Q; rewrite A5; cbn [o_node_type bind]; rewrite S2; split; [easy|]; right; left; now exists s, i).
  all: rewrite A5, B5; cbn [bind node_type_eqb negb].
  all: try (right; rewrite ?A8, ?A7, ?B8, ?B7; split; [easy|discriminate]).
  all: try (right; rewrite ?A8, ?A7, ?B8, ?B7; rewrite A6, B6; cbn [unwrap bind node_eqb]; split; [easy|]; intros _; split; apply stranger_not; eauto; fail).
  rewrite A8, B8, A10, B6. cbn [unwrap bind node_eqb]. rewrite (stranger_below a x A1 A6), (stranger_below b y B1 B6). now apply IH.
Qed.
Lemma eq_spec : forall x y, honest x -> honest y -> eq_good x y.
Proof.
  induction x as [x IH] using oelem_ind'. intros y Hx Hy. unfold eq_good. rewrite o_eq_eq, elem_eqb_eq, !meant_name, !meant_xmlns, !meant_prefix, !meant_children, !has_stranger_iff.
  assert (e_attributes (meant x) = o_attributes x) as -> by now rewrite meant_eq. assert (e_attributes (meant y) = o_attributes y) as -> by now rewrite meant_eq.
  destruct (str_eqb (o_name x) (o_name y) && ostr_eqb (o_xmlns x) (o_xmlns y) && ostr_eqb (o_prefix x) (o_prefix y) && amap_eqb (o_attributes x) (o_attributes y)); cbn [andb]; [|right; split; [easy|discriminate]].
  apply honest_inv in Hx, Hy. revert IH Hx Hy. generalize (o_children x) (o_children y). clear x y.
  induction l as [|a l IHl]; intros [|b m] IH Hx Hy; cbn [List.length Nat.eqb map nodes_eqb].
  - right. split; [easy|]. intros _. split; inversion 1.
  - right. split; [easy|discriminate].
  - right. split; [easy|discriminate].
  - inversion Hx as [|? ? Ha Hl]; inversion Hy as [|? ? Hb Hm]; subst. specialize (IHl m (fun n c I => IH n c (or_intror I)) Hl Hm).
    change (eq_list (a :: l) (b :: m)) with (do r <- o_node_eq M a b; if negb r then Ok false else eq_list l m).
    destruct (node_eq_spec a b Ha Hb (fun x y A Hx Hy => IH a x (or_introl eq_refl) A y Hx Hy)) as [[-> S]|[-> S]].
    + cbn [bind]. destruct (Nat.eqb_spec (List.length l) (List.length m)) as [L|L].
      * left. split; [easy|]. destruct S; [left|right]; now left.
      * right. assert (nodes_eqb (map meant_obj l) (map meant_obj m) = false) as ->; [|rewrite andb_false_r; split; [easy|discriminate]].
        apply not_true_is_false. intro E. apply L. clear -E. revert m E. induction l as [|a l IH]; intros [|b m] E; try discriminate; [easy|].
        cbn [map nodes_eqb] in E. apply andb_true_iff in E. cbn [List.length]. f_equal. now apply IH.
    + cbn [bind]. destruct (node_eqb (meant_obj a) (meant_obj b)); cbn [negb andb].
      * destruct IHl as [[-> T]|[-> T]].
        -- left. split; [easy|]. destruct T; [left|right]; now right.
        -- right. split; [easy|]. intro E. destruct (T E), (S eq_refl). split; inversion 1; easy.
      * right. split; [|discriminate]. now destruct (List.length l =? List.length m).
Qed.
Lemma eq_itself x : honest x -> elem_ok (meant x) -> (o_eq M x x = Panic <-> has_stranger M x) /\ (o_eq M x x = Ok true <-> ~ has_stranger M x).
Proof.
  intros H O. destruct (eq_spec x x H H) as [[-> S]|[-> S]]; rewrite ?(elem_eqb_refl _ O) in *.
  - assert (has_stranger M x) by now destruct S. split; split; easy.
  - destruct (S eq_refl) as [N _]. split; split; easy.
Qed.

(** * Serialization *)

Lemma filled_same s : filled [] s s.
Proof. induction s; now constructor. Qed.
Lemma filled_app l x y l' x' y' : filled l x y -> filled l' x' y' -> filled (l ++ l') (x ++ x') (y ++ y').
Proof.
  intros H H'. induction H as [|c l x y H IH|a b l x y H IH]; cbn [app]; [easy|now constructor|]. rewrite <- !app_assoc. now constructor.
Qed.
Lemma filled_nil x y : filled [] x y -> x = y.
Proof. intro H. remember [] as l eqn:E. induction H; [easy| |discriminate]. f_equal. now apply IHfilled. Qed.
Lemma filled_hole a b : filled [(a, b)] a b.
Proof. rewrite <- (app_nil_r a) at 2. rewrite <- (app_nil_r b) at 2. apply fl_hole, fl_nil. Qed.
Lemma filled_left s l x y : filled l x y -> filled l (s ++ x) (s ++ y).
Proof. intro H. apply (filled_app [] s s l x y (filled_same s) H). Qed.
Lemma filled_right s l x y : filled l x y -> filled l (x ++ s) (y ++ s).
Proof. intro H. rewrite <- (app_nil_r l). apply (filled_app l x y [] s s H (filled_same s)). Qed.

Definition shown_obj (full ind : str) (n : obj) : list (str * str) :=
  match n with
  | OElem c => shown M mark full c
  | OUser s (Some c) => if u_is_element M s then shown M mark full c
      else if negb (u_is_text M s || u_is_comment M s || u_is_cdata M s) then [(u_to_string M s (Some c) ind, lit "<![CDATA[" ++ mark s ++ lit "]]>")] else []
  | OUser s None => if negb (u_is_element M s || u_is_text M s || u_is_comment M s || u_is_cdata M s)
      then [(u_to_string M s None ind, lit "<![CDATA[" ++ mark s ++ lit "]]>")] else []
  | _ => []
  end.
Lemma shown_eq ind e : shown M mark ind e = flat_map (shown_obj ind (match o_children e with [_] => [] | _ => ind end)) (o_children e).
Proof. now destruct e. Qed.
Definition child_string (next ind : str) (inline : bool) (c : obj) : outcome str :=
  if o_is_text M c then Ok (text_escape (o_node_text M c))
  else if o_is_element M c then on_element (o_to_string M next ind inline) c
  else Ok ((if inline then [] else next) ++ o_leaf_to_string M c ind).
Definition list_string (next ind : str) (inline : bool) (l : list obj) : outcome str :=
  (fix go (l : list obj) : outcome str :=
     match l with
     | [] => Ok []
     | c :: l' => do s <- child_string next ind inline c; do r <- go l'; Ok (s ++ (if inline then [] else [cNL]) ++ r)
     end) l.
Lemma o_to_string_eq pre ind inline e : o_to_string M pre ind inline e =
  let tag := tag_name_of (o_prefix e) (o_name e) in
  let out := (if inline then [] else pre) ++ sLt ++ tag ++ attrs_to_string (o_attributes e) in
  match o_children e with
  | [] => Ok (out ++ lit "/>")
  | c0 :: rest =>
      if (match rest with [] => true | _ => false end) && negb (o_is_element M c0)
      then Ok (out ++ sGt ++ o_leaf_to_string M c0 [] ++ lit "</" ++ tag ++ sGt)
      else
        let inline := inline || existsb (o_is_text M) (o_children e) in
        do body <- list_string (pre ++ ind) ind inline (o_children e);
        Ok (out ++ sGt ++ (if inline then [] else [cNL]) ++ body ++ (if inline then [] else pre) ++ lit "</" ++ tag ++ sGt)
  end.
Proof. now destruct e. Qed.
Lemma is_text_meant l : Forall honest_obj l -> existsb is_text (map meant_obj l) = existsb (o_is_text M) l.
Proof. induction 1 as [|n l Hn F IH]; [easy|]. cbn [map existsb]. now rewrite IH, (proj1 (view_text M mark n Hn)). Qed.
Lemma leaf_string n ind full : honest_obj n -> o_is_element M n = false -> o_is_text M n = false ->
  filled (shown_obj full ind n) (o_leaf_to_string M n ind) (leaf_to_string (meant_obj n)).
Proof.
  intros H. assert (Q : forall n, o_is_element M n = false -> o_is_comment M n || o_is_cdata M n || o_is_text M n = true -> shown_obj full ind n = []).
  { clear n H. intros n X Y. destruct n as [c| | | |s [c|]]; cbn in *; try discriminate; try easy; rewrite X;
      destruct (u_is_text M s), (u_is_comment M s), (u_is_cdata M s); try easy; discriminate. }
  destruct (honest_view M mark n H) as [n c H1 H2 H3 H4 H5 H6 H7 H8 H9 H10 H11 H12|n t H1 H2 H3 H4 H5 H6 H7 H8|n t H1 H2 H3 H4 H5 H6 H7 H8|n t H1 H2 H3 H4 H5 H6 H7 H8|s i S E]; intros X Y; try congruence.
  - rewrite Q by (try easy; now rewrite H3). rewrite H8, H7. apply filled_same.
  - rewrite Q by (try easy; now rewrite H4, orb_true_r). rewrite H8, H7. apply filled_same.
  - rewrite E. cbn [leaf_to_string o_leaf_to_string shown_obj]. destruct S as ((S1 & S2 & S3 & S4) & _). destruct i; rewrite S1, S2, S3, S4; apply filled_hole.
Qed.
Lemma text_string n ind full : honest_obj n -> o_is_text M n = true ->
  shown_obj full ind n = [] /\ exists t, o_node_text M n = t /\ meant_obj n = NText t /\ forall ind, o_leaf_to_string M n ind = text_escape t.
Proof.
  intros H. destruct (honest_view M mark n H) as [n c H1 H2 H3 H4 H5 H6 H7 H8 H9 H10 H11 H12|n t H1 H2 H3 H4 H5 H6 H7 H8|n t H1 H2 H3 H4 H5 H6 H7 H8|n t H1 H2 H3 H4 H5 H6 H7 H8|s i S E]; intros X; try congruence.
  - split; [|now exists t]. destruct n as [c| | | |s [c|]]; cbn in *; try discriminate; try easy; rewrite H1, H2; easy.
  - destruct S as ((S1 & S2 & _) & _). cbn in X. congruence.
Qed.
Lemma to_string_filled : forall e, honest e -> forall pre ind inline,
  exists s, o_to_string M pre ind inline e = Ok s /\ filled (shown M mark ind e) s (elem_to_string pre ind inline (meant e)).
Proof.
  induction e as [e IH] using oelem_ind'. intros H pre ind inline. pose proof (honest_inv M e H) as F. rewrite o_to_string_eq, shown_eq.
  assert (Em : elem_to_string pre ind inline (meant e) =
    let tag := tag_name_of (o_prefix e) (o_name e) in
    let out := (if inline then [] else pre) ++ sLt ++ tag ++ attrs_to_string (o_attributes e) in
    match map meant_obj (o_children e) with
    | [] => out ++ lit "/>"
    | c0 :: rest =>
        if (match rest with [] => true | _ => false end) && negb (is_element c0)
        then out ++ sGt ++ leaf_to_string c0 ++ lit "</" ++ tag ++ sGt
        else
          let inline := inline || existsb is_text (map meant_obj (o_children e)) in
          out ++ sGt ++ (if inline then [] else [cNL]) ++ ser_nodes (pre ++ ind) ind inline (map meant_obj (o_children e)) ++ (if inline then [] else pre) ++ lit "</" ++ tag ++ sGt
    end) by (rewrite meant_eq; reflexivity).
  rewrite Em. clear Em. cbv zeta. set (out := (if inline then [] else pre) ++ sLt ++ tag_name_of (o_prefix e) (o_name e) ++ attrs_to_string (o_attributes e)).
  assert (B : forall inline ci l, incl l (o_children e) -> (ci = ind \/ (forall n, In n l -> o_is_element M n = true)) ->
    exists s, list_string (pre ++ ind) ind inline l = Ok s /\
      filled (flat_map (shown_obj ind ci) l) s (ser_nodes (pre ++ ind) ind inline (map meant_obj l))).
  { clear out. intros il ci. induction l as [|n l IHl]; intros I D; [exists []; split; [easy|constructor]|].
    destruct IHl as (sl & E1 & E2); [intros x Hx; apply I; now right|destruct D as [D|D]; [now left|right; intros x Hx; apply D; now right]|].
    assert (Hn : honest_obj n) by (rewrite Forall_forall in F; apply F, I; now left).
    assert (K : exists s, child_string (pre ++ ind) ind il n = Ok s /\ filled (shown_obj ind ci n) s
      (match meant_obj n with NText t => text_escape t | NElem e' => elem_to_string (pre ++ ind) ind il e' | NComment _ | NCData _ => (if il then [] else pre ++ ind) ++ leaf_to_string (meant_obj n) end)).
    { unfold child_string. destruct (o_is_text M n) eqn:X.
      - destruct (text_string n ci ind Hn X) as (-> & t & -> & -> & _). eexists. split; [reflexivity|]. apply filled_same.
      - destruct (view_element M mark n Hn) as (E & V & W). destruct (o_is_element M n) eqn:T.
        + destruct (V eq_refl) as (c & A & -> & Hc & On & _). rewrite On. destruct (IH n c (I n (or_introl eq_refl)) A Hc (pre ++ ind) ind il) as (s & -> & Fs).
          exists s. split; [easy|]. replace (shown_obj ind ci n) with (shown M mark ind c); [easy|]. destruct n as [c'| | | |u [c'|]]; cbn in *; try discriminate; [congruence|]. rewrite T. congruence.
        + assert (ci = ind) as -> by (destruct D as [D|D]; [easy|]; rewrite (D n (or_introl eq_refl)) in T; discriminate).
          pose proof (leaf_string n ind ind Hn T X) as L. eexists. split; [reflexivity|].
          destruct (view_text M mark n Hn) as [Et _]. rewrite X in Et.
          destruct (meant_obj n) as [e'|t|t|t] eqn:Q; try discriminate; try (now destruct (W eq_refl e')); now apply filled_left. }
    destruct K as (sn & K1 & K2). change (list_string (pre ++ ind) ind il (n :: l)) with
      (do s <- child_string (pre ++ ind) ind il n; do r <- list_string (pre ++ ind) ind il l; Ok (s ++ (if il then [] else [cNL]) ++ r)).
    rewrite K1, E1. eexists. split; [reflexivity|]. cbn [flat_map map ser_nodes]. apply filled_app; [easy|]. now apply filled_left. }
  rewrite (is_text_meant _ F). destruct (o_children e) as [|c0 rest] eqn:Ech.
  { eexists. split; [reflexivity|]. apply filled_same. }
  cbn [map]. inversion F as [|? ? H0 Fr]; subst. rewrite (proj1 (view_element M mark c0 H0)).
  assert (match map meant_obj rest with [] => true | _ => false end = match rest with [] => true | _ => false end) as -> by now destruct rest.
  destruct ((match rest with [] => true | _ => false end) && negb (o_is_element M c0)) eqn:Q.
  - apply andb_true_iff in Q. destruct Q as [Q1 Q2]. destruct rest; [|discriminate]. apply negb_true_iff in Q2. cbn [flat_map]. rewrite app_nil_r.
    eexists. split; [reflexivity|]. do 2 apply filled_left. apply filled_right. destruct (o_is_text M c0) eqn:X.
    + destruct (text_string c0 [] ind H0 X) as (-> & t & _ & -> & ->). apply filled_same.
    + now apply leaf_string.
  - destruct (B (inline || existsb (o_is_text M) (c0 :: rest)) (match rest with [] => [] | _ => ind end) (c0 :: rest)) as (s & -> & Fs).
    + now intros x.
    + destruct rest; [right|now left]. intros n [->|[]]. cbn in Q. now destruct (o_is_element M n).
    + cbn [bind]. eexists. split; [reflexivity|]. do 3 apply filled_left. apply filled_right.
      replace (match c0 :: rest with [_] => [] | _ => ind end) with (match rest with [] => [] | _ => ind end) by now destruct rest. exact Fs.
Qed.
Lemma shown_none : forall e ind, honest e -> ~ has_stranger M e -> shown M mark ind e = [].
Proof.
  induction e as [e IH] using oelem_ind'. intros ind H N. rewrite shown_eq. generalize (match o_children e with [_] => [] | _ => ind end). intro ci.
  rewrite has_stranger_iff in N. apply honest_inv in H. revert IH H N. generalize (o_children e). induction l as [|n l IHl]; intros IH H N; [easy|].
  inversion H as [|? ? Hn Hl]; subst. cbn [flat_map]. rewrite IHl; [|intros n' c' I; apply (IH n' c'); now right|easy|intro X; apply N; now right]. rewrite app_nil_r.
  assert (Nn : ~ a_stranger n) by (intro X; apply N; now left).
  destruct (o_is_text M n) eqn:X; [now destruct (text_string n ci ind Hn X)|]. destruct (o_is_element M n) eqn:T.
  - destruct (view_element M mark n Hn) as (_ & V & _). destruct (V T) as (c & A & _ & Hc & _).
    replace (shown_obj ind ci n) with (shown M mark ind c).
    + apply (IH n c (or_introl eq_refl) A ind Hc). intro S. apply Nn. right. now exists c.
    + destruct n as [c'| | | |u [c'|]]; cbn in *; try discriminate; [congruence|]. rewrite T. congruence.
  - destruct n as [c| | | |s i]; try easy. cbn in X, T. inversion Hn; subst.
    + destruct H2 as ((Q & _) & _). congruence.
    + destruct H1 as ((_ & Q & _) & _). congruence.
    + destruct H1 as ((_ & _ & Q & _) & _). cbn. rewrite T, X, Q. now destruct i.
    + destruct H1 as ((_ & _ & _ & Q) & _). cbn. rewrite T, X, Q, !orb_true_r. now destruct i.
    + exfalso. apply Nn. left. now exists s, i.
Qed.
Lemma to_string_plain e ind : honest e -> ~ has_stranger M e -> o_to_string_with_indent M e ind = Ok (elem_to_string_with_indent (meant e) ind).
Proof.
  intros H N. unfold o_to_string_with_indent, elem_to_string_with_indent.
  destruct (validate_indent ind); match goal with |- o_to_string _ _ ?i _ _ = _ => destruct (to_string_filled e H [] i false) as (s & -> & Fs) end;
    rewrite shown_none in Fs by easy; now apply filled_nil in Fs as ->.
Qed.
Lemma to_string_strangers e ind : honest e -> exists s, o_to_string_with_indent M e ind = Ok s /\
  filled (shown M mark (if validate_indent ind then ind else default_indent) e) s (elem_to_string_with_indent (meant e) ind).
Proof.
  intros H. unfold o_to_string_with_indent, elem_to_string_with_indent. destruct (validate_indent ind); now apply to_string_filled.
Qed.

(** * Nodes that do not tell the truth *)

Definition fine {A} (x : outcome A) : Prop := (exists a, x = Ok a) \/ x = Panic.
Lemma fine_bind {A B} (x : outcome A) (k : A -> outcome B) : fine x -> (forall a, fine (k a)) -> fine (do a <- x; k a).
Proof. intros [[a ->]| ->] H; [apply H|now right]. Qed.
Lemma fine_ok {A} (a : A) : fine (Ok a).
Proof. left. now exists a. Qed.
Lemma fine_unwrap {A} (o : option A) : fine (unwrap o).
Proof. destruct o; [apply fine_ok|now right]. Qed.
Lemma bind_panic {A B} (x : outcome A) (k : A -> outcome B) : x = Panic -> (do a <- x; k a) = Panic.
Proof. now intros ->. Qed.
Lemma fine_then {A B} (x : outcome A) (k : A -> outcome B) : fine x -> (forall a, k a = Panic) -> (do a <- x; k a) = Panic.
Proof. intros [[a ->]| ->] H; [apply H|easy]. Qed.
Lemma fine_on {A} (f : oelem -> outcome A) n : (forall c, o_as_element n = Some c -> fine (f c)) -> fine (on_element f n).
Proof. intro H. destruct n as [c| | | |s [c|]]; cbn; try (now right); now apply H. Qed.
Lemma on_hollow {A} (f : oelem -> outcome A) n : o_as_element n = None -> on_element f n = Panic.
Proof. now destruct n as [c| | | |s [c|]]. Qed.
Lemma on_some {A} (f : oelem -> outcome A) n c : o_as_element n = Some c -> on_element f n = f c.
Proof. destruct n as [c'| | | |s [c'|]]; cbn; intro E; try discriminate; now injection E as ->. Qed.
Lemma fine_cast {A} (t : obj -> bool) (cast : obj -> option A) l : fine (filter_cast t cast l).
Proof.
  induction l as [|n l IH]; [apply fine_ok|]. cbn [filter_cast]. destruct (t n); [|easy].
  apply fine_bind; [apply fine_unwrap|]. intro a. apply fine_bind; [easy|]. intro. apply fine_ok.
Qed.
Lemma cast_hollow {A} (t : obj -> bool) (cast : obj -> option A) l n : In n l -> t n = true -> cast n = None -> filter_cast t cast l = Panic.
Proof.
  induction l as [|m l IH]; intros I T C; [easy|]. cbn [filter_cast]. destruct I as [->|I]; [now rewrite T, C|].
  rewrite IH by easy. destruct (t m); [|easy]. apply fine_then; [apply fine_unwrap|easy].
Qed.
Lemma hollow_child_elements e n : In n (o_children e) -> hollow_element M n -> o_child_elements M e = Panic.
Proof. intros I [T A]. now apply (cast_hollow _ _ _ n). Qed.
Lemma fine_rec : forall e, fine (o_children_recursive M e).
Proof.
  induction e as [e IH] using oelem_ind'. rewrite o_children_recursive_eq. apply fine_bind; [|intro; apply fine_ok].
  revert IH. generalize (o_children e). induction l as [|n l IHl]; intro IH; [apply fine_ok|].
  change (rec_list M (n :: l)) with (if o_is_element M n then do a <- on_element (o_children_recursive M) n; do r <- rec_list M l; Ok (a ++ r) else rec_list M l).
  assert (fine (rec_list M l)) by (apply IHl; intros n' c' I; apply (IH n' c'); now right).
  destruct (o_is_element M n); [|easy]. apply fine_bind; [apply fine_on; intros c A; apply (IH n c); [now left|easy]|]. intro. apply fine_bind; [easy|]. intro. apply fine_ok.
Qed.
Lemma fine_rec_list l : fine (rec_list M l).
Proof.
  induction l as [|n l IHl]; [apply fine_ok|].
  change (rec_list M (n :: l)) with (if o_is_element M n then do a <- on_element (o_children_recursive M) n; do r <- rec_list M l; Ok (a ++ r) else rec_list M l).
  destruct (o_is_element M n); [|easy]. apply fine_bind; [apply fine_on; intros c A; apply fine_rec|]. intro. apply fine_bind; [easy|]. intro. apply fine_ok.
Qed.
Lemma rec_list_panic n l : In n l -> o_is_element M n = true -> on_element (o_children_recursive M) n = Panic -> rec_list M l = Panic.
Proof.
  induction l as [|m l IH]; intros I T C; [easy|].
  change (rec_list M (m :: l)) with (if o_is_element M m then do a <- on_element (o_children_recursive M) m; do r <- rec_list M l; Ok (a ++ r) else rec_list M l).
  destruct I as [->|I]; [now rewrite T, C|]. rewrite IH by easy. destruct (o_is_element M m); [|easy]. apply fine_then; [apply fine_on; intros; apply fine_rec|easy].
Qed.
Lemma hollow_recursive e n : below M e n -> hollow_element M n -> o_children_recursive M e = Panic.
Proof.
  intros B [T A]. rewrite o_children_recursive_eq. induction B as [e n I|e m c n I Tm Am B IH].
  - rewrite (rec_list_panic n) by (try easy; now apply on_hollow). easy.
  - rewrite (rec_list_panic m); [easy|easy|easy|]. rewrite (on_some _ m c Am), o_children_recursive_eq. now apply IH.
Qed.
Lemma fine_clone_node n : (forall c, o_as_element n = Some c -> fine (o_clone M c)) -> fine (o_clone_node M n).
Proof.
  intro H. unfold o_clone_node. destruct (o_is_element M n); [apply fine_bind; [now apply fine_on|intro; apply fine_ok]|].
  destruct (o_is_text M n); [apply fine_bind; [apply fine_unwrap|intro; apply fine_ok]|].
  destruct (o_is_comment M n); [apply fine_bind; [apply fine_unwrap|intro; apply fine_ok]|].
  destruct (o_is_cdata M n); [apply fine_bind; [apply fine_unwrap|intro; apply fine_ok]|now right].
Qed.
Lemma fine_clone : forall e, fine (o_clone M e).
Proof.
  induction e as [e IH] using oelem_ind'. rewrite o_clone_eq. apply fine_bind; [|intro; apply fine_ok].
  revert IH. generalize (o_children e). induction l as [|n l IHl]; intro IH; [apply fine_ok|].
  change (clone_list M (n :: l)) with (do c' <- o_clone_node M n; do r <- clone_list M l; Ok (c' :: r)).
  apply fine_bind; [apply fine_clone_node; intros c A; apply (IH n c); [now left|easy]|]. intro. apply fine_bind; [|intro; apply fine_ok].
  apply IHl. intros n' c' I. apply (IH n' c'). now right.
Qed.
Lemma clone_list_panic n l : In n l -> o_clone_node M n = Panic -> clone_list M l = Panic.
Proof.
  induction l as [|m l IH]; intros I C; [easy|]. change (clone_list M (m :: l)) with (do c' <- o_clone_node M m; do r <- clone_list M l; Ok (c' :: r)).
  destruct I as [->|I]; [now rewrite C|]. rewrite IH by easy. apply fine_then; [apply fine_clone_node; intros; apply fine_clone|easy].
Qed.
Lemma clone_panic e n : below M e n -> o_clone_node M n = Panic -> o_clone M e = Panic.
Proof.
  intros B C. induction B as [e n I|e m c n I Tm Am B IH]; rewrite o_clone_eq.
  - now rewrite (clone_list_panic n).
  - rewrite (clone_list_panic m); [easy|easy|]. unfold o_clone_node. now rewrite Tm, (on_some _ m c Am), IH.
Qed.
Lemma hollow_clone e n : below M e n -> hollow_element M n \/ (hollow_text M n /\ o_is_element M n = false) \/ hollow_other M n -> o_clone M e = Panic.
Proof.
  intros B H. apply (clone_panic e n B). unfold o_clone_node. destruct H as [[T A]|[[[T A] E]|(E & T & [[C A]|(C & D & A)])]].
  - now rewrite T, on_hollow.
  - now rewrite E, T, A.
  - now rewrite E, T, C, A.
  - now rewrite E, T, C, D, A.
Qed.
Lemma fine_child next ind il n : (forall c, o_as_element n = Some c -> fine (o_to_string M next ind il c)) -> fine (child_string next ind il n).
Proof. intro H. unfold child_string. destruct (o_is_text M n); [apply fine_ok|]. destruct (o_is_element M n); [now apply fine_on|apply fine_ok]. Qed.
Lemma fine_string : forall e pre ind il, fine (o_to_string M pre ind il e).
Proof.
  induction e as [e IH] using oelem_ind'. intros pre ind il. rewrite o_to_string_eq. cbv zeta. destruct (o_children e) as [|c0 rest] eqn:E; [apply fine_ok|].
  destruct (_ && _); [apply fine_ok|]. apply fine_bind; [|intro; apply fine_ok]. generalize (il || existsb (o_is_text M) (c0 :: rest)). intro b. clear E.
  revert IH. generalize (c0 :: rest). induction l as [|n l IHl]; intro IH; [apply fine_ok|].
  change (list_string (pre ++ ind) ind b (n :: l)) with (do s <- child_string (pre ++ ind) ind b n; do r <- list_string (pre ++ ind) ind b l; Ok (s ++ (if b then [] else [cNL]) ++ r)).
  apply fine_bind; [apply fine_child; intros c A; apply (IH n c); [now left|easy]|]. intro. apply fine_bind; [|intro; apply fine_ok].
  apply IHl. intros n' c' I. apply (IH n' c'). now right.
Qed.
Lemma string_list_panic next ind b n l : In n l -> child_string next ind b n = Panic -> list_string next ind b l = Panic.
Proof.
  induction l as [|m l IH]; intros I C; [easy|].
  change (list_string next ind b (m :: l)) with (do s <- child_string next ind b m; do r <- list_string next ind b l; Ok (s ++ (if b then [] else [cNL]) ++ r)).
  destruct I as [->|I]; [now rewrite C|]. rewrite IH by easy. apply fine_then; [apply fine_child; intros; apply fine_string|easy].
Qed.
Lemma child_panic e n : In n (o_children e) -> o_is_element M n = true -> o_is_text M n = false ->
  (forall pre ind il, on_element (o_to_string M pre ind il) n = Panic) -> forall pre ind il, o_to_string M pre ind il e = Panic.
Proof.
  intros I T X P pre ind il. rewrite o_to_string_eq. cbv zeta. destruct (o_children e) as [|c0 rest] eqn:E; [easy|].
  assert ((match rest with [] => true | _ => false end) && negb (o_is_element M c0) = false) as ->.
  { destruct rest; [|easy]. destruct I as [->|[]]. now rewrite T. }
  rewrite (string_list_panic _ _ _ n); [easy|easy|]. unfold child_string. rewrite X, T. apply P.
Qed.
Lemma hollow_to_string e n ind : In n (o_children e) -> hollow_element M n -> o_is_text M n = false -> o_to_string_with_indent M e ind = Panic.
Proof.
  intros I [T A] X. unfold o_to_string_with_indent. destruct (validate_indent ind); apply (child_panic e n); try easy; intros; now apply on_hollow.
Qed.
Lemma hollow_append e n : hollow_element M n -> o_append M e n = Panic.
Proof.
  intros [T A]. unfold o_append, o_apply_xmlns_context. rewrite T. assert (forall f, change_element f n = Panic) as -> by now destruct n as [c| | | |s [c|]]. easy.
Qed.

(** Texts that are none: the pass over the children that merges texts casts all of them. *)
Lemma vremove_in {A} : forall (l : list A) i r n, vremove l i = Ok r -> In n l -> n = fst r \/ In n (snd r).
Proof.
  induction l as [|a l IH]; intros [|i] r n R I; try discriminate.
  - injection R as <-. destruct I as [->|I]; [now left|now right].
  - cbn [vremove] in R. apply bind_ok in R. destruct R as (r' & R & E). injection E as <-. cbn [fst snd]. destruct I as [->|I]; [right; now left|].
    destruct (IH i r' n R I) as [E|E]; [now left|right; now right].
Qed.
Lemma vinsert_in {A} (x : A) : forall l i r n, vinsert l i x = Ok r -> In n l -> In n r.
Proof.
  induction l as [|a l IH]; intros [|i] r n R I; try discriminate; try easy.
  - injection R as <-. now right.
  - cbn [vinsert] in R. apply bind_ok in R. destruct R as (r' & R & E). injection E as <-. destruct I as [->|I]; [now left|]. right. now apply (IH i r').
Qed.
Lemma merge_keeps n : o_as_text M n = None -> forall i l l', o_merge_text_loop M i l = Ok l' -> In n l -> In n l'.
Proof.
  intro N. induction i as [|i IH]; intros l l' E I; [now injection E as <-|]. cbn [o_merge_text_loop] in E.
  apply bind_ok in E. destruct E as (a & Ga & E). destruct (o_is_text M a); [|now apply (IH l)].
  apply bind_ok in E. destruct E as (b & Gb & E). destruct (o_is_text M b); [|now apply (IH l)].
  apply bind_ok in E. destruct E as (r & R & E). apply bind_ok in E. destruct E as (r2 & R2 & E).
  apply bind_ok in E. destruct E as (f & Ff & E). apply bind_ok in E. destruct E as (bk & Fb & E). apply bind_ok in E. destruct E as (l2 & V & E).
  apply (IH l2 l' E). apply (vinsert_in _ _ _ _ n V). destruct (vremove_in _ _ _ n R I) as [->|I2]; [now rewrite N in Fb|].
  destruct (vremove_in _ _ _ n R2 I2) as [->|I3]; [now rewrite N in Ff|easy].
Qed.
Lemma drop_casts n : o_is_text M n = true -> o_as_text M n = None -> forall i l l' j, j <= i -> nth_error l j = Some n -> o_drop_blank_loop M i l <> Ok l'.
Proof.
  intros T N.
  assert (K : forall i l l' j, j <= i -> nth_error l j = Some n ->
    (do a <- vget l i; if o_is_text M a then do t <- unwrap (o_as_text M a); if text_is_whitespace t then do r <- vremove l i; Ok (snd r) else Ok l else Ok l) = Ok l' -> j < i /\ nth_error l' j = Some n).
  { intros i l l' j L G E. apply bind_ok in E. destruct E as (a & Ga & E). assert (j <> i).
    { intros ->. unfold vget in Ga. rewrite G in Ga. injection Ga as <-. now rewrite T, N in E. }
    split; [lia|]. destruct (o_is_text M a); [|now injection E as <-]. apply bind_ok in E. destruct E as (t & _ & E).
    destruct (text_is_whitespace t); [|now injection E as <-]. apply bind_ok in E. destruct E as (r & R & E). injection E as <-.
    assert (vget (snd r) j = vget l j) as Q by (apply (vget_before l i j r); [lia|easy]). unfold vget in Q. rewrite G in Q. destruct (nth_error (snd r) j); [now injection Q as ->|discriminate]. }
  induction i as [|i IH]; intros l l' j L G E; cbn [o_drop_blank_loop] in E.
  - apply bind_ok in E. destruct E as (a & Ga & E). apply bind_ok in E. destruct E as (l2 & E2 & E).
    destruct (K 0 l l2 j L G) as [? _]; [|lia]. rewrite Ga. exact E2.
  - apply bind_ok in E. destruct E as (a & Ga & E). apply bind_ok in E. destruct E as (l2 & E2 & E).
    destruct (K (S i) l l2 j L G) as [J G2]; [rewrite Ga; exact E2|]. apply (IH l2 l' j); [lia|easy|easy].
Qed.
Lemma cleanup_casts n l l' : In n l -> o_is_text M n = true -> o_as_text M n = None -> o_cleanup_text_nodes M l <> Ok l'.
Proof.
  intros I T N E. unfold o_cleanup_text_nodes in E. destruct l as [|a l]; [easy|]. apply bind_ok in E. destruct E as (l1 & E1 & E).
  apply (merge_keeps n N) in E1; [|easy]. destruct l1 as [|b l1]; [easy|]. apply In_nth_error in E1. destruct E1 as [j G].
  apply (drop_casts n T N _ _ l' j) in E; [easy| |easy]. assert (j < List.length (b :: l1)) by (apply nth_error_Some; now rewrite G). lia.
Qed.
Lemma fine_vget {A} (l : list A) i : fine (vget l i).
Proof. unfold vget. destruct (nth_error l i); [apply fine_ok|now right]. Qed.
Lemma fine_vremove {A} (l : list A) : forall i, fine (vremove l i).
Proof. induction l as [|a l IH]; intros [|i]; cbn [vremove]; try (now right); [apply fine_ok|]. apply fine_bind; [apply IH|intro; apply fine_ok]. Qed.
Lemma fine_vinsert {A} (x : A) : forall l i, fine (vinsert l i x).
Proof. induction l as [|a l IH]; intros [|i]; cbn [vinsert]; try (now right); try apply fine_ok. apply fine_bind; [apply IH|intro; apply fine_ok]. Qed.
Lemma fine_merge : forall i l, fine (o_merge_text_loop M i l).
Proof.
  induction i as [|i IH]; intro l; [apply fine_ok|]. cbn [o_merge_text_loop]. apply fine_bind; [apply fine_vget|]. intro a. destruct (o_is_text M a); [|apply IH].
  apply fine_bind; [apply fine_vget|]. intro b. destruct (o_is_text M b); [|apply IH]. apply fine_bind; [apply fine_vremove|]. intro. apply fine_bind; [apply fine_vremove|]. intro.
  apply fine_bind; [apply fine_unwrap|]. intro. apply fine_bind; [apply fine_unwrap|]. intro. apply fine_bind; [apply fine_vinsert|]. intro. apply IH.
Qed.
Lemma fine_drop : forall i l, fine (o_drop_blank_loop M i l).
Proof.
  assert (K : forall i (l : list obj) (a : obj), fine (if o_is_text M a then do t <- unwrap (o_as_text M a); if text_is_whitespace t then do r <- vremove l i; Ok (snd r) else Ok l else Ok l)).
  { intros i l a. destruct (o_is_text M a); [|apply fine_ok]. apply fine_bind; [apply fine_unwrap|]. intro t. destruct (text_is_whitespace t); [|apply fine_ok].
    apply fine_bind; [apply fine_vremove|]. intro. apply fine_ok. }
  induction i as [|i IH]; intro l; cbn [o_drop_blank_loop]; (apply fine_bind; [apply fine_vget|]; intro a; apply fine_bind; [apply K|]; intro); [apply fine_ok|apply IH].
Qed.
Lemma fine_cleanup l : fine (o_cleanup_text_nodes M l).
Proof.
  unfold o_cleanup_text_nodes. destruct l as [|a l]; [apply fine_ok|]. apply fine_bind; [apply fine_merge|]. intros [|b l1]; [now right|apply fine_drop].
Qed.
Lemma hollow_text_append e n : hollow_text M n -> o_is_element M n = false -> o_append M e n = Panic.
Proof.
  intros [T N] E. unfold o_append, o_apply_xmlns_context. rewrite E. cbn [bind]. destruct (fine_cleanup (o_children e ++ [n])) as [[l L]| ->]; [|easy].
  apply (cleanup_casts n) in L; try easy. apply in_or_app. right. now left.
Qed.

(** * Trees with nodes of the crate only *)

Lemma own_honest : forall e, own e -> honest e /\ ~ has_stranger M e.
Proof.
  induction e as [e IH] using oelem_ind'. intro O. apply own_iff in O. rewrite has_stranger_iff. split.
  - apply honest_with. apply Forall_forall. intros n I. rewrite Forall_forall in O. specialize (O n I). destruct n as [c| | | |s i]; cbn in O; try constructor; [|easy].
    now apply (IH (OElem c) c).
  - intro X. apply Exists_exists in X. destruct X as (n & I & X). rewrite Forall_forall in O. specialize (O n I).
    destruct X as [(s & i & -> & _)|(c & T & A & X)]; [easy|]. destruct n as [c'| | | |s i]; cbn in O; try easy. injection A as ->. now destruct (IH (OElem c) c I eq_refl O).
Qed.
Lemma own_exists : forall t, exists e, own e /\ meant e = t.
Proof.
  induction t as [t IH] using elem_ind'. assert (K : exists l, Forall own_obj l /\ map meant_obj l = e_children t).
  { revert IH. generalize (e_children t). induction l as [|n l IHl]; intro IH; [now exists []|]. destruct IHl as (l' & O & E); [intros c I; apply IH; now right|].
    destruct n as [c|s|s|s].
    - destruct (IH c (or_introl eq_refl)) as (e & Oe & Ee). exists (OElem e :: l'). split; [now constructor|]. cbn [map]. now rewrite E, <- Ee.
    - exists (OText s :: l'). split; [now constructor|]. cbn [map]. now rewrite E.
    - exists (OComment s :: l'). split; [now constructor|]. cbn [map]. now rewrite E.
    - exists (OCData s :: l'). split; [now constructor|]. cbn [map]. now rewrite E. }
  destruct K as (l & O & E). exists (of_head t l). split; [now apply own_iff|]. rewrite meant_of_head, E. now destruct t.
Qed.
Lemma own_unique : forall e e', own e -> own e' -> meant e = meant e' -> e = e'.
Proof.
  induction e as [e IH] using oelem_ind'. intros e' O O' E. apply own_iff in O, O'. rewrite !meant_eq in E. injection E as E1 E2 E3 E4 E5 E6.
  assert (o_children e = o_children e') as X.
  { clear E1 E3 E4 E5 E6. revert IH O O' E2. generalize (o_children e) (o_children e'). clear e e'. induction l as [|n l IHl]; intros [|m l'] IH O O' E; try discriminate; [easy|].
    inversion O as [|? ? On Ol]; inversion O' as [|? ? Om Ol']; subst. cbn [map] in E. injection E as E1 E2. f_equal; [|apply IHl; try easy; intros n' c' I; apply (IH n' c'); now right].
    destruct n as [c| | | |s i], m as [c'| | | |s' i']; cbn in On, Om, E1; try easy; try congruence.
    injection E1 as E1. f_equal. now apply (IH (OElem c) c (or_introl eq_refl) eq_refl). }
  destruct e, e'. cbn in *. now subst.
Qed.
End Facts.

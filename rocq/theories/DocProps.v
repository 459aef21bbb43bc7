(** Panics, termination, error positions and the prolog. *)
From Coq Require Import List NArith Arith Bool Ascii String Lia.
From Verif Require Import Base BaseFacts Escape Dom Spec EscapeFacts SpecDom DomFacts SpecApi ApiFacts
  ParseTree SpecTree ParseTreeFacts Parse SpecLex SpecParse LexFacts ParseFacts DocFacts TagFacts AcceptFacts.
Import ListNotations.

(** * Panics *)

Lemma substring_refl s : substring s s.
Proof. exists [], []. cbn. now rewrite app_nil_r. Qed.
Lemma substring_trans a b c : substring a b -> substring b c -> substring a c.
Proof.
  intros (x & y & ->) (u & v & ->). exists (u ++ x), (y ++ v). now rewrite <- !app_assoc.
Qed.
Lemma squeezed_trans a b c : squeezed a b -> squeezed b c -> squeezed a c.
Proof. intros H H'. induction H as [|a w b s' Hw Hj H IH]; [easy|]. apply sq_drop; [easy|easy|now apply IH]. Qed.
Lemma piece_sub s u : substring u s -> piece s u.
Proof. intro H. exists s, s. split; [apply substring_refl|]. split; [constructor|easy]. Qed.
Lemma piece_of_sub t s u : substring t s -> piece t u -> piece s u.
Proof. intros H (p & q & Hp & Hs & Hu). exists p, q. split; [now apply substring_trans with t|easy]. Qed.
Lemma sub_of_piece s t u : piece s t -> substring u t -> piece s u.
Proof. intros (p & q & Hp & Hs & Hu) H. exists p, q. split; [easy|]. split; [easy|]. now apply substring_trans with t. Qed.

Lemma words_inv s c l : words s (c :: l) -> exists w s', ws w /\ s = w ++ c ++ s' /\ words s' l /\ c <> [].
Proof.
  intro W. inversion W as [w Hw|w c' Hw Hc Hs|w c' x s' l' Hw Hc Hs Hq Hx W']; subst.
  - exists w, []. rewrite app_nil_r. split; [easy|]. split; [easy|]. split; [|easy]. apply wd_end. constructor.
  - now exists w, (x :: s').
Qed.
Lemma should_join_spec a b : should_join a b = true -> ends (lit "=") a \/ begins (lit "=") b.
Proof.
  unfold should_join. intro H. apply orb_true_iff in H. destruct H as [H|H]; [left|right].
  - now apply ends_spec.
  - now apply begins_spec.
Qed.
Lemma join_piece : forall comps s, words s comps -> forall kv, In kv (join_loop comps) ->
  exists p, substring p s /\ squeezed p kv.
Proof.
  intro comps. remember (List.length comps) as n eqn:En. assert (Hn : List.length comps <= n) by lia. clear En.
  revert comps Hn. induction n as [|n IH]; intros comps Hn s W kv Hi.
  { destruct comps; [easy|cbn in Hn; lia]. }
  assert (Tail : forall a s' l, s = a ++ s' -> words s' l -> List.length l <= n -> In kv (join_loop l) ->
    exists p, substring p s /\ squeezed p kv).
  { intros a s' l -> W' Hl Hi'. destruct (IH l Hl s' W' kv Hi') as (p & Hp & Hq). exists p. split; [|easy].
    apply substring_trans with s'; [easy|]. exists a, []. now rewrite app_nil_r. }
  destruct comps as [|comp [|f1 rest2]]; [easy| |].
  - destruct Hi as [<-|[]]. apply words_inv in W. destruct W as (w & s' & _ & -> & _).
    exists comp. split; [now exists w, s'|constructor].
  - apply words_inv in W. destruct W as (w & s1 & Hw & -> & W1 & Hc).
    pose proof W1 as W1'. apply words_inv in W1. destruct W1 as (w1 & s2 & Hw1 & -> & W2 & Hc1).
    cbn [join_loop] in Hi. destruct (should_join comp f1) eqn:J1.
    + apply should_join_spec in J1. destruct rest2 as [|f2 rest3].
      * destruct Hi as [<-|[]]. exists (comp ++ w1 ++ f1). split; [exists w, s2; now rewrite <- !app_assoc|].
        apply sq_drop; [easy|easy|constructor].
      * pose proof W2 as W2'. apply words_inv in W2. destruct W2 as (w2 & s3 & Hw2 & -> & W3 & Hc2).
        destruct (should_join (comp ++ f1) f2) eqn:J2.
        -- apply should_join_spec in J2. destruct Hi as [<-|Hi].
           ++ exists (comp ++ w1 ++ f1 ++ w2 ++ f2). split; [exists w, s3; now rewrite <- !app_assoc|].
              apply sq_drop; [easy| |].
              { destruct J1 as [J1|[x ->]]; [now left|right]. exists (x ++ w2 ++ f2). now rewrite <- app_assoc. }
              replace (comp ++ f1 ++ w2 ++ f2) with ((comp ++ f1) ++ w2 ++ f2) by now rewrite <- app_assoc.
              rewrite app_assoc with (l := comp). apply sq_drop; [easy|easy|constructor].
           ++ apply (Tail (w ++ comp ++ w1 ++ f1 ++ w2 ++ f2) s3 rest3); [now rewrite <- !app_assoc|easy| |easy].
              cbn in Hn. lia.
        -- destruct Hi as [<-|Hi].
           ++ exists (comp ++ w1 ++ f1). split; [exists w, (w2 ++ f2 ++ s3); now rewrite <- !app_assoc|].
              apply sq_drop; [easy|easy|constructor].
           ++ apply (Tail (w ++ comp ++ w1 ++ f1) (w2 ++ f2 ++ s3) (f2 :: rest3)); [now rewrite <- !app_assoc|easy| |easy].
              cbn in *. lia.
    + destruct Hi as [<-|Hi].
      * exists comp. split; [now exists w, (w1 ++ f1 ++ s2)|constructor].
      * apply (Tail (w ++ comp) (w1 ++ f1 ++ s2) (f1 :: rest2)); [now rewrite <- !app_assoc|easy| |easy].
        cbn in *. lia.
Qed.

Lemma strip_substring t b : delimited t -> strip_tag t = Ok b -> substring b t.
Proof.
  intros D S. destruct (starts_with (lit "</") t) eqn:E.
  - apply begins_spec in E. destruct (strip_close t D E) as (w1 & b' & w2 & o & S' & -> & _).
    rewrite S in S'. injection S' as <-. exists (lit "</" ++ w1), (w2 ++ o ++ lit ">"). now rewrite <- !app_assoc.
  - assert (N : ~ begins (lit "</") t) by (intro H; apply begins_spec in H; congruence).
    destruct (strip_open t D N) as (w1 & b' & w2 & o & S' & Et & _).
    rewrite S in S'. injection S' as <-. exists (lit "<" ++ w1), (w2 ++ o ++ lit ">"). rewrite Et at 1. now rewrite <- !app_assoc.
Qed.

Definition bad_piece (s : str) : Prop := exists u, piece s u /\ (unescape u = Panic \/ abbreviate u 32 = Panic).
Lemma element_panic_piece top t b : delimited t -> strip_tag t = Ok b -> element_of top b = Panic -> bad_piece t.
Proof.
  intros D S H. apply element_of_panic in H. destruct H as (kv & u & Hi & (k & q & -> & _) & U).
  pose proof (words_split b) as W. destruct (quote_aware_split b) as [|nm comps]; [easy|].
  cbn [join_spaced_attributes tl] in Hi. apply words_inv in W. destruct W as (w & s' & _ & Eb & W & _).
  destruct (join_piece _ _ W _ Hi) as (p & Hp & Hq). exists u. split; [|now left].
  apply piece_of_sub with b; [now apply strip_substring|]. exists p, (k ++ [cEq] ++ [q] ++ u ++ [q]).
  split.
  { apply substring_trans with s'; [easy|]. exists (w ++ nm), []. rewrite Eb, app_nil_r. now rewrite <- app_assoc. }
  split; [exact Hq|]. exists (k ++ [cEq] ++ [q]), [q]. now rewrite <- !app_assoc.
Qed.
Lemma lexed_substring s toks tail : lexed s toks tail -> forall x, In x toks -> substring (fst x) s /\ substring (snd x) s.
Proof.
  intros L x Hx. apply lexed_flatten in L. apply in_split in Hx. destruct Hx as (a & b & ->). destruct x as [txt t].
  unfold flatten in L. rewrite flat_map_app in L. cbn [flat_map fst snd] in *. fold (flatten a) (flatten b) in L.
  rewrite <- !app_assoc in L. split.
  - now exists (flatten a), (t ++ flatten b ++ tail).
  - exists (flatten a ++ txt), (flatten b ++ tail). now rewrite L, <- !app_assoc.
Qed.
Lemma bad_sub t s : substring t s -> bad_piece t -> bad_piece s.
Proof. intros H (u & Hu & Hp). exists u. split; [now apply piece_of_sub with t|easy]. Qed.

Theorem panic_piece s : parse_str s = Panic -> bad_piece s.
Proof.
  intro H. pose proof (parse_str_result s) as R. rewrite H in R. inversion R as [| |P _]; subst. clear R H.
  destruct P as [toks txt t rest L P|toks txt root rest b L S P|toks txt rest L P|toks txt t rest top L P].
  - destruct (lexed_substring _ _ _ L (txt, t) ltac:(apply in_or_app; right; now left)) as [H1 H2]. cbn in H1, H2.
    destruct P as [P|P]; [exists txt|exists t]; (split; [now apply piece_sub|]); [now left|now right].
  - destruct (lexed_substring _ _ _ L (txt, root) ltac:(apply in_or_app; right; now left)) as [_ H2]. cbn in H2.
    pose proof (lexed_delimited _ _ _ L) as D. apply Forall_app in D. destruct D as [_ D].
    apply Forall_cons_iff in D. destruct D as [D _]. cbn in D.
    apply bad_sub with root; [easy|]. now apply element_panic_piece with None b.
  - exists txt. split; [|now left]. apply piece_sub. apply lexed_flatten in L.
    exists (flatten toks), rest. now rewrite L.
  - destruct (lexed_substring _ _ _ L (txt, t) ltac:(apply in_or_app; right; now left)) as [_ H2]. cbn in H2.
    pose proof (lexed_delimited _ _ _ L) as D. apply Forall_app in D. destruct D as [_ D].
    apply Forall_cons_iff in D. destruct D as [D _]. cbn in D.
    apply bad_sub with t; [easy|]. destruct P as [t P|t b S P].
    + exists t. split; [apply piece_sub, substring_refl|now right].
    + now apply element_panic_piece with top b.
Qed.

Lemma squeezed_ascii p q : squeezed p q -> all_ascii p -> all_ascii q.
Proof.
  induction 1 as [|a w b s' Hw Hj H IH]; intro A; [easy|]. apply IH.
  unfold all_ascii in *. rewrite !Forall_app in *. easy.
Qed.
Lemma two_straddle (x y : char) a b : substring [x; y] (a ++ b) ->
  substring [x; y] a \/ substring [x; y] b \/ (ends [x] a /\ begins [y] b).
Proof.
  intros (u & v & E). apply app_eq_app in E. destruct E as [z [[-> E]|[-> E]]].
  - destruct z as [|z0 z].
    + cbn in E. right. left. exists [], v. now rewrite <- E.
    + cbn in E. injection E as <- E. destruct z as [|z1 z].
      * cbn in E. right. right. split; [now exists u|]. exists v. now rewrite <- E.
      * cbn in E. injection E as <- E. left. now exists u, z.
  - right. left. now exists z, v.
Qed.
Lemma ends_single x (a : str) y : ends [x] a -> ends [y] a -> x = y.
Proof. intros [u ->] [v E]. apply app_inj_tail in E. now destruct E. Qed.
Lemma begins_single x (a : str) y : begins [x] a -> begins [y] a -> x = y.
Proof. intros [u ->] [v E]. now injection E. Qed.
Lemma squeezed_hash p q : squeezed p q -> substring (lit "&#") q -> substring (lit "&#") p.
Proof.
  induction 1 as [|a w b s' Hw Hj H IH]; intro S; [easy|]. specialize (IH S).
  apply (two_straddle 38%N 35%N) in IH. destruct IH as [(u & v & ->)|[(u & v & ->)|[H1 H2]]].
  - exists u, (v ++ w ++ b). now rewrite <- !app_assoc.
  - exists (a ++ w ++ u), v. now rewrite <- !app_assoc.
  - exfalso. destruct Hj as [Hj|Hj].
    + pose proof (ends_single _ _ _ H1 Hj). discriminate.
    + pose proof (begins_single _ _ _ H2 Hj). discriminate.
Qed.
Lemma piece_ascii s u : piece s u -> all_ascii s -> all_ascii u.
Proof.
  intros (p & q & (x & y & ->) & Hs & (x' & y' & ->)) A. unfold all_ascii in A. rewrite !Forall_app in A.
  pose proof (squeezed_ascii _ _ Hs (proj1 (proj2 A))) as B. unfold all_ascii in B. rewrite !Forall_app in B. apply B.
Qed.
Lemma piece_hash s u : piece s u -> substring (lit "&#") u -> substring (lit "&#") s.
Proof.
  intros (p & q & Hp & Hs & Hu) H. apply substring_trans with p; [|easy].
  apply (squeezed_hash _ _ Hs). now apply substring_trans with u.
Qed.

Lemma ascii_blen s : all_ascii s -> blen s = List.length s.
Proof.
  induction 1 as [|c s Hc Hs IH]; [easy|]. cbn. rewrite IH. unfold len_utf8. unfold ascii in Hc.
  apply N.ltb_lt in Hc. now rewrite Hc.
Qed.
Lemma ascii_cut s i : all_ascii s -> i <= blen s -> exists a b, s = a ++ b /\ blen a = i.
Proof.
  intros A H. rewrite ascii_blen in H by easy. exists (firstn i s), (skipn i s). rewrite firstn_skipn. split; [easy|].
  rewrite ascii_blen; [apply firstn_length_le; lia|]. rewrite <- (firstn_skipn i s) in A. now apply Forall_app in A.
Qed.
Lemma abbreviate_ascii s k : all_ascii s -> abbreviate s k <> Panic.
Proof.
  intro A. unfold abbreviate. destruct ((k <? 4) || (blen s <=? k)) eqn:E; [discriminate|].
  apply orb_false_iff in E. destruct E as [E1 E2]. apply Nat.ltb_ge in E1. apply Nat.leb_gt in E2.
  pose proof (Nat.div_lt k 2 ltac:(lia) ltac:(lia)) as Hk.
  destruct (ascii_cut s (Nat.div k 2 - 1) A ltac:(lia)) as (a & b & -> & Ha).
  rewrite <- Ha at 1. unfold slice. cbn [Nat.leb]. rewrite slice_from_0. cbn [bind].
  rewrite Nat.sub_0_r, slice_to_app. cbn [bind].
  destruct (ascii_cut (a ++ b) (blen (a ++ b) - Nat.div k 2) A ltac:(lia)) as (x & y & Exy & Hx).
  rewrite <- Hx, Exy, slice_from_app. discriminate.
Qed.

Lemma slice_from_cases s i : (boundary s i /\ exists t, slice_from s i = Ok t) \/ (~ boundary s i /\ slice_from s i = Panic).
Proof.
  unfold slice_from. destruct (bskip i s) as [r|] eqn:E.
  - left. split; [|now exists r]. revert i E. induction s as [|c s IH]; intros i E.
    + destruct i; [|discriminate]. now exists [], [].
    + destruct i as [|i]; [now exists [], (c :: s)|]. cbn [bskip] in E.
      destruct (len_utf8 c <=? S i) eqn:El; [|discriminate]. apply Nat.leb_le in El.
      apply IH in E. destruct E as (a & b & -> & E). exists (c :: a), b. split; [easy|]. cbn [blen]. lia.
  - right. split; [|easy]. intros (a & b & -> & ->). pose proof (slice_from_app a b) as H. unfold slice_from in H.
    now rewrite E in H.
Qed.
Lemma slice_to_cases s i : (boundary s i /\ exists t, slice s 0 i = Ok t) \/ (~ boundary s i /\ slice s 0 i = Panic).
Proof.
  unfold slice. cbn [Nat.leb]. rewrite slice_from_0. cbn [bind]. rewrite Nat.sub_0_r. unfold slice_to.
  destruct (btake i s) as [r|] eqn:E.
  - left. split; [|now exists r]. revert i r E. induction s as [|c s IH]; intros i r E.
    + destruct i; [|discriminate]. now exists [], [].
    + destruct i as [|i]; [now exists [], (c :: s)|]. cbn [btake] in E.
      destruct (len_utf8 c <=? S i) eqn:El; [|discriminate]. apply Nat.leb_le in El.
      destruct (btake (S i - len_utf8 c) s) as [r'|] eqn:E'; [|discriminate].
      apply IH in E'. destruct E' as (a & b & -> & E'). exists (c :: a), b. split; [easy|]. cbn [blen]. lia.
  - right. split; [|easy]. intros (a & b & -> & ->). pose proof (slice_to_app a b) as H. unfold slice_to in H.
    now rewrite E in H.
Qed.
(** Abbreviating cuts at byte 15 and 16 bytes before the end. *)
Theorem abbreviate_panics t : abbreviate t 32 = Panic <->
  32 < blen t /\ (~ boundary t 15 \/ ~ boundary t (blen t - 16)).
Proof.
  unfold abbreviate. change (32 <? 4) with false. change (Nat.div 32 2 - 1) with 15. change (Nat.div 32 2) with 16.
  cbn [orb]. destruct (blen t <=? 32) eqn:E.
  { apply Nat.leb_le in E. split; [discriminate|lia]. }
  apply Nat.leb_gt in E.
  destruct (slice_to_cases t 15) as [[B1 [x ->]]|[B1 ->]]; cbn [bind]; [|split; [auto|easy]].
  destruct (slice_from_cases t (blen t - 16)) as [[B2 [y ->]]|[B2 ->]]; cbn [bind]; [|split; [auto|easy]].
  split; [discriminate|]. intros [_ [H|H]]; contradiction.
Qed.

Theorem ascii_no_panic s : all_ascii s -> ~ substring (lit "&#") s -> parse_str s <> Panic.
Proof.
  intros A N H. apply panic_piece in H. destruct H as (u & Hp & H).
  pose proof (piece_ascii _ _ Hp A) as Au. destruct H as [H|H]; [|now apply abbreviate_ascii in H].
  destruct (unescape_ascii u Au) as [r Hr]; [|congruence]. intro Hh. now apply N, (piece_hash _ _ Hp).
Qed.

(** Parsed documents can be written and read back. *)
From Coq Require Import List NArith Arith Bool Ascii String Lia Permutation.
From Verif Require Import Base Escape Dom ParseTree Parse BaseFacts Spec EscapeFacts SpecDom DomFacts ApiFacts SpecTree
  SpecLex LexFacts SpecParse ParsedFacts NsFacts P_Parse SpecDoc SpecEsc UnescFacts SpecMore RoundFacts SerFacts P_Doc.
Import ListNotations.

(** * Tags *)

Lemma lexed_tag s toks tail : lexed s toks tail -> forall txt t, In (txt, t) toks -> exists s' rest, tag_at s' t rest.
Proof.
  induction 1 as [s|txt s t rest toks tail Hn Ht Hl IH]; [easy|]. intros txt' t' [E|H]; [|now apply (IH txt')].
  injection E as <- <-. now exists s, rest.
Qed.
Lemma shortest_length P s t rest t' r' : shortest P s t rest -> s = t' ++ r' -> P t' -> List.length t <= List.length t'.
Proof. intros (_ & _ & H) E Ht. destruct (H t' r' E Ht) as [z ->]. rewrite app_length. lia. Qed.
Lemma comment_tag s c rest : tag_at s (lit "<!--" ++ c ++ lit "-->") rest -> comment_wf c.
Proof.
  intro H. assert (S : shortest comment_like s (lit "<!--" ++ c ++ lit "-->") rest).
  { destruct H as [B H|B H|B H|B N1 N2 H|B N1 N2 H]; [easy|exfalso..]; destruct H as (E & P & _).
    - destruct B as [r Er]. rewrite Er in E. discriminate.
    - destruct B as [r Er]. rewrite Er in E. discriminate.
    - apply N1. rewrite E, <- !app_assoc. now eexists.
    - apply N2. rewrite E, <- !app_assoc. now eexists (lit "--" ++ _). }
  clear H. assert (K : forall a b, c ++ lit "-->" = a ++ b -> comment_like (lit "<!--" ++ a) -> List.length c + 3 <= List.length a).
  { intros a b E Ha. pose proof (shortest_length _ _ _ _ (lit "<!--" ++ a) (b ++ rest) S) as L.
    rewrite !app_length in L. cbn [List.length lit] in L. assert (4 + (List.length c + 3) <= 4 + List.length a); [|lia].
    apply L; [|exact Ha]. destruct S as (-> & _). rewrite <- !app_assoc. f_equal. rewrite !app_assoc. now rewrite E. }
  split; [|split].
  - intros (a & b & ->). specialize (K (a ++ lit "-->") (b ++ lit "-->")). rewrite <- !app_assoc in K.
    specialize (K eq_refl). rewrite !app_length in K. cbn [List.length lit list_ascii_of_string map] in K.
    assert (comment_like (lit "<!--" ++ a ++ lit "-->")); [|apply K in H; lia]. exists (lit "<!--" ++ a). now rewrite <- app_assoc.
  - intros (r & ->). specialize (K (lit ">") (r ++ lit "-->")). cbn [app] in K. specialize (K eq_refl).
    assert (comment_like (lit "<!--" ++ lit ">")); [now exists (lit "<!")|apply K in H]. rewrite app_length in H. cbn in H. lia.
  - intros (r & ->). specialize (K (lit "->") (r ++ lit "-->")). cbn [app] in K. specialize (K eq_refl).
    assert (comment_like (lit "<!--" ++ lit "->")); [now exists (lit "<!-")|apply K in H]. rewrite app_length in H. cbn in H. lia.
Qed.
Lemma decl_tag s d rest : tag_at s (lit "<?" ++ d ++ lit "?>") rest -> begins (lit "xml") d -> decl_wf d.
Proof.
  intros H X. assert (S : shortest pi_like s (lit "<?" ++ d ++ lit "?>") rest).
  { destruct H as [B H|B H|B H|B N1 N2 H|B N1 N2 H]; [exfalso|easy|exfalso..]; destruct H as (E & P & _).
    - destruct B as [r Er]. rewrite Er in E. discriminate.
    - destruct B as [r Er]. rewrite Er in E. discriminate.
    - destruct B as [r Er]. rewrite Er in E. discriminate.
    - apply N1. rewrite E, <- !app_assoc. now eexists. }
  split; [exact X|]. split.
  - destruct S as (_ & (b & E & Q) & _). apply app_inv_head, app_inv_tail in E. now subst.
  - intros a b E Q. pose proof (shortest_length _ _ _ _ (lit "<?" ++ a ++ lit "?>") (b ++ lit "?>" ++ rest) S) as L.
    rewrite E in L. rewrite !app_length in L. cbn [List.length lit list_ascii_of_string map] in L.
    enough (2 + (List.length a + (2 + List.length b) + 2) <= 2 + (List.length a + 2)); [lia|]. apply L.
    + destruct S as (-> & _). rewrite E, <- !app_assoc. reflexivity.
    + now exists a.
Qed.

(** * Events *)

Lemma says_comment toks l : says toks l -> forall c, In (EComment c) l -> exists txt, In (txt, lit "<!--" ++ c ++ lit "-->") toks.
Proof.
  induction 1 as [|txt t toks a b l Ha Hb Hs IH]; [easy|]. intros c H. rewrite !in_app_iff in H. destruct H as [H|[H|H]].
  - destruct Ha as [x1 W|x1 v W U B|x1 v W U B]; [easy|easy|]. now destruct H as [H|[]].
  - destruct Hb as [c'|c'|t n O S|t n O S|t n C]; cbn in H; decompose [or] H; try discriminate; try easy.
    match goal with E : EComment _ = EComment _ |- _ => injection E as -> end. exists txt. now left.
  - destruct (IH c H) as [x Hx]. exists x. now right.
Qed.
Lemma says_text toks l : says toks l -> forall v, In (EText v) l -> exists raw, unescape raw = Ok v /\ raw <> [].
Proof.
  induction 1 as [|txt t toks a b l Ha Hb Hs IH]; [easy|]. intros c H. rewrite !in_app_iff in H. destruct H as [H|[H|H]].
  - destruct Ha as [x1 W|x1 v W U B|x1 v W U B]; [easy|easy|]. destruct H as [H|[]]. injection H as ->. exists x1.
    split; [easy|]. intros ->. apply W. constructor.
  - destruct Hb as [c'|c'|t n O S|t n O S|t n C]; cbn in H; decompose [or] H; try discriminate; easy.
  - exact (IH c H).
Qed.
Lemma event_child e n : In n (e_children e) -> incl (node_events n) (elem_events e).
Proof.
  intros H x Hx. rewrite elem_events_eq. right. apply in_or_app. left. apply in_flat_map. now exists n.
Qed.
Lemma chain_events root l : chain root l -> match l with [] => True | e :: _ => incl (elem_events e) (elem_events root) end.
Proof.
  induction 1 as [|c p l Hc IH Hi]; [now intro|]. intros x Hx. apply IH. apply (event_child p (NElem c) Hi). exact Hx.
Qed.
Lemma chain_cons root l : chain root l -> l <> [].
Proof. now intros []. Qed.
Lemma chain_in root (P : elem -> Prop) : P root -> (forall p c, P p -> In (NElem c) (e_children p) -> P c) ->
  forall l, chain root l -> Forall P l.
Proof.
  intros H0 Hs l. induction 1 as [|c p l Hc IH Hi]; [now constructor|]. constructor; [|easy]. inversion IH. subst. now apply (Hs p).
Qed.

(** * Writable *)

Lemma parsed_writable s d pr el : parse_str s = Ok d -> one_root s pr el -> printable (d_root d) -> writable [] (d_root d).
Proof.
  intros H O PR. destruct (C49_verbatim s d pr el H O) as (l & Hl & El).
  destruct (C48_parsed_valid s d H) as [V T]. destruct O as ((tail & Sp) & O1 & O2 & O3).
  assert (O : one_root s pr el) by (split; [now exists tail|easy]).
  assert (K : forall e, printable e -> elem_valid e -> tree_normal e -> forall anc, chain (d_root d) (e :: anc) ->
    Forall printable anc -> writable anc e).
  2: { apply K; try easy. apply ch_root. }
  induction e as [e IH] using elem_ind'. intros P Ve Te anc C Fp.
  destruct P as [e Pn Pa Pt Pc], Ve as [e Vn Va Vm Vc Vk Vco Vcd], Te as [e Tt Tc].
  pose proof (chain_events _ _ C) as Ev. cbn in Ev.
  constructor; try easy.
  - exact (proj1 (accepts_namespaces s d pr el (parsed_accepts _ _ H) O e anc C)).
  - intros t Ht. split; [|now apply Pt]. assert (In (EText t) l) as Hin.
    { rewrite <- El. apply Ev. apply (event_child e _ Ht). now left. }
    destruct (says_text _ _ Hl t Hin) as (raw & U & N). apply unescape_replaced in U. now apply (refs_replaced_nonempty raw).
  - intros c Hc. assert (In (EComment c) l) as Hin.
    { rewrite <- El. apply Ev. apply (event_child e _ Hc). now left. }
    destruct (says_comment _ _ Hl c Hin) as (txt & Ht). destruct Sp as [Sp _].
    destruct (lexed_tag _ _ _ Sp txt (lit "<!--" ++ c ++ lit "-->")) as (s' & rest & Ta); [apply in_or_app; now right|].
    now apply comment_tag in Ta.
  - intros c Hc. apply IH; try easy; [now apply Pc|now apply Vk|now apply Tc|now apply ch_child|]. constructor; [|easy]. now constructor.
Qed.
Theorem parsed_writable_doc s d pr el : parse_str s = Ok d -> one_root s pr el -> doctype_defs d = [] ->
  printable (d_root d) -> writable_doc d.
Proof.
  intros H O D P. split; [now apply elem_valid_ok; apply (C48_parsed_valid s)|]. split; [exact D|]. split; [|split].
  - intros decl E. destruct O as ((tail & Sp) & O1 & O2 & O3).
    destruct (C42_parsed s d pr el tail H Sp O1 O3) as [C _]. apply C in E as (a & txt & b & -> & X & _).
    destruct Sp as [Sp _]. destruct (lexed_tag _ _ _ Sp txt (lit "<?" ++ decl ++ lit "?>")) as (s' & rest & Ta).
    { apply in_or_app. left. apply in_or_app. right. now left. }
    now apply decl_tag in Ta.
  - now apply (parsed_writable s d pr el).
  - intros p Ep. exact (C39_root_declared s d pr el p H O Ep).
Qed.

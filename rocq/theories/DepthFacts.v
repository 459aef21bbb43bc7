(** Proofs about the depth of documents that are read. *)
From Coq Require Import List NArith Arith Bool Ascii String Lia Permutation.
From Verif Require Import Base Escape Dom Parse Spec SpecDom SpecLex SpecParse SpecDoc SpecEsc SpecErr SpecMean SpecMany SpecStack BaseFacts
  DocFacts Stack StackFacts P_Parse P_Doc P_Many.
Import ListNotations.

(** * A text of some length holds a document of some depth *)

(** Characters needed for items. *)
Fixpoint weight (l : list item) : nat :=
  match l with
  | [] => 0
  | ILeaf _ :: l' => weight l'
  | IClose :: l' => 4 + weight l'
  | IOpen _ _ :: l' => match l' with IClose :: l'' => 4 + weight l'' | _ => 3 + weight l' end
  end.
Lemma weight_open n l r : weight (IOpen n l :: r) <= 3 + weight r.
Proof. destruct r as [|[] r]; cbn [weight]; lia. Qed.

Lemma element_weight :
  (forall anc e is, element_of_items anc e is -> (exists n l is', is = IOpen n l :: is') /\ forall r, 7 * levels e - 3 + weight r <= weight (is ++ r)) /\
  (forall anc ns is, nodes_of_items anc ns is -> (is = [] /\ ns = [] \/ exists i is', is = i :: is' /\ i <> IClose) /\
     forall r, 7 * below_levels ns - 3 + weight r <= weight (is ++ r)).
Proof.
  apply items_ind2.
  - intros anc e n l is La X C N [H1 H2]. split; [eauto|]. intro r. rewrite levels_eq. cbn [app]. rewrite <- app_assoc. cbn [app].
    destruct H1 as [[-> ->]|(i & is' & -> & D)].
    + cbn. lia.
    + specialize (H2 (IClose :: r)). change (weight (IClose :: r)) with (4 + weight r) in H2.
      assert (E : weight (IOpen n l :: (i :: is') ++ IClose :: r) = 3 + weight ((i :: is') ++ IClose :: r)) by (destruct i; [reflexivity|now elim D|reflexivity]).
      rewrite E. lia.
  - intros anc. split; [now left|]. intro r. cbn. lia.
  - intros anc n ns is L N [H1 H2]. split; [right; exists (ILeaf n), is; now split|]. intro r. cbn [app weight below_levels].
    destruct n as [e| | |]; [now elim (L e)|apply H2..].
  - intros anc e ns is is' E [(n & l & i & ->) H1] N [H2 H3]. split; [right; exists (IOpen n l), (i ++ is'); now split|].
    intro r. cbn [below_levels]. rewrite <- app_assoc. specialize (H1 (is' ++ r)). specialize (H3 r). lia.
Qed.

(** Tags that stand in an element. *)
Definition proper_tag (t : str) : Prop :=
  begins (lit "<!") t \/ (exists n, opening t n) \/ (exists n, n <> [] /\ closing t n).
Lemma tags_proper : (forall l, element_tags l -> Forall proper_tag l) /\ (forall l, content_tags l -> Forall proper_tag l).
Proof.
  apply tags_ind2.
  - intros t n O C. constructor; [right; left; eauto|constructor].
  - intros t n body c O C B IH Cl. constructor; [right; left; eauto|]. apply Forall_app. split; [exact IH|].
    constructor; [|constructor]. right. right. exists n. split; [|exact Cl]. apply O.
  - constructor.
  - intros t l B C IH. constructor; [now left|exact IH].
  - intros l1 l2 E1 I1 E2 I2. now apply Forall_app.
Qed.
Lemma roots_proper l : roots_tags l -> Forall proper_tag l.
Proof. induction 1 as [l H|l1 l2 H R IH]; [now apply (proj1 tags_proper)|]. apply Forall_app. split; [now apply (proj1 tags_proper)|exact IH]. Qed.

Lemma opening_length t n : opening t n -> 3 <= List.length t.
Proof.
  intros (_ & _ & N & _ & w & r & -> & _). rewrite !app_length. cbn. destruct n; [now elim N|]. cbn [List.length]. lia.
Qed.
Lemma opening_self t n : opening t n -> self_closing t -> 4 <= List.length t.
Proof.
  intros (_ & _ & N & _ & w & r & E & _ & C) Sc. destruct C as [[_ C]|C]; [now elim C|].
  assert (r <> []) by (destruct C as [->|(c & r' & -> & _)]; discriminate).
  rewrite E, !app_length. cbn. destruct n; [now elim N|]. destruct r; [easy|]. cbn [List.length]. lia.
Qed.
Lemma closing_begins t n : closing t n -> begins (lit "</") t.
Proof. intros (w1 & w2 & o & -> & _). eexists. reflexivity. Qed.
Lemma closing_length t n : closing t n -> n <> [] -> 4 <= List.length t.
Proof. intros (w1 & w2 & o & -> & _) N. rewrite !app_length. cbn. destruct n; [now elim N|]. cbn [List.length]. lia. Qed.
Lemma two_begins a b t : begins a t -> begins b t -> List.length a = List.length b -> a = b.
Proof.
  intros [x ->] [y E]. revert b E. induction a as [|c a IH]; intros [|d b] E L; try discriminate L; [reflexivity|].
  injection L as L. injection E as -> E. f_equal. now apply IH.
Qed.

Lemma start_tag_opening t n l : proper_tag t -> start_tag t n l -> exists m, opening t m.
Proof. intros [P|[P|(m & _ & P)]] (S1 & S2 & _); [now elim S1|exact P|]. elim S2. now apply closing_begins with m. Qed.
Lemma closing_proper t n : proper_tag t -> closing t n -> 4 <= List.length t.
Proof.
  intros P C. pose proof (closing_begins _ _ C) as B. destruct P as [P|[(m & P)|(m & N & P)]].
  - discriminate (two_begins _ _ _ P B eq_refl).
  - destruct P as (_ & P & _). now elim P.
  - now apply closing_length with m.
Qed.
Lemma tag_weight t b r : proper_tag t -> tag_item t b -> weight (b ++ r) <= List.length t + weight r.
Proof.
  intros P T. inversion T; subst; cbn [app].
  - cbn [weight]. lia.
  - cbn [weight]. lia.
  - destruct (start_tag_opening _ _ _ P H) as (m & O). apply opening_length in O. pose proof (weight_open n l r). lia.
  - destruct (start_tag_opening _ _ _ P H) as (m & O). pose proof (opening_self _ _ O H0). cbn [weight]. lia.
  - pose proof (closing_proper _ _ P H). cbn [weight]. lia.
Qed.
Lemma text_weight txt a r : text_item txt a -> weight (a ++ r) = weight r.
Proof. now inversion 1. Qed.
Definition toks_len (toks : list (str * str)) : nat := List.length (flatten toks).
Lemma toks_len_cons txt t toks : toks_len ((txt, t) :: toks) = List.length txt + List.length t + toks_len toks.
Proof. unfold toks_len, flatten. cbn [flat_map fst snd]. rewrite !app_length. lia. Qed.
Lemma toks_len_app a b : toks_len (a ++ b) = toks_len a + toks_len b.
Proof. induction a as [|[txt t] a IH]; [reflexivity|]. cbn [app]. rewrite !toks_len_cons, IH. lia. Qed.
Lemma items_weight toks is : items toks is -> Forall proper_tag (map snd toks) -> weight is <= toks_len toks.
Proof.
  induction 1 as [|txt t toks a b l Ta Tb I IH]; intro P; [cbn; lia|]. cbn [map snd] in P. inversion P as [|? ? P1 P2]; subst.
  rewrite toks_len_cons, (text_weight _ _ _ Ta). pose proof (tag_weight _ _ l P1 Tb). specialize (IH P2). lia.
Qed.

Lemma loose_levels txt a ns : loose_text txt a -> below_levels (a ++ ns) = below_levels ns.
Proof. now inversion 1. Qed.
Lemma content_depth q toks ns : content q toks ns -> Forall proper_tag (map snd toks) -> 7 * below_levels ns - 3 <= toks_len toks.
Proof.
  induction 1 as [|txt a t n toks ns La T C IH|txt a t g is e toks ns La I E C IH]; intro P.
  - cbn. lia.
  - cbn [map snd] in P. inversion P as [|? ? P1 P2]; subst. rewrite (loose_levels _ _ _ La), toks_len_cons. specialize (IH P2).
    assert (below_levels (n :: ns) = below_levels ns) as -> by (inversion T; subst; reflexivity). lia.
  - cbn [map snd] in P. rewrite map_app in P. inversion P as [|? ? P1 P2]; subst. apply Forall_app in P2 as [P2 P3].
    rewrite (loose_levels _ _ _ La), toks_len_cons, toks_len_app. specialize (IH P3).
    assert (W : weight is <= toks_len (([], t) :: g)) by (apply items_weight; [exact I|cbn [map snd]; now constructor]).
    rewrite toks_len_cons in W. destruct (proj1 element_weight _ _ _ E) as [_ L]. specialize (L []). rewrite app_nil_r in L.
    change (weight []) with 0 in L. cbn [below_levels List.length] in *. lia.
Qed.
Lemma root_depth el q ns : root_reads el q ns -> Forall proper_tag (map snd el) -> 7 * below_levels ns + 4 <= toks_len el.
Proof.
  intros [txt t n l q' W St Sc H|txt t n l q' body ns' last a close W St Sc H C La Cl] P; cbn [map snd] in P.
  - inversion P as [|? ? P1 P2]; subst. destruct (start_tag_opening _ _ _ P1 St) as (m & O). pose proof (opening_self _ _ O Sc).
    rewrite toks_len_cons. cbn. lia.
  - rewrite map_app in P. inversion P as [|? ? P1 P2]; subst. apply Forall_app in P2 as [P2 P3]. cbn [map snd] in P3. inversion P3 as [|? ? P4 _]; subst.
    destruct (start_tag_opening _ _ _ P1 St) as (m & O). apply opening_length in O. pose proof (closing_proper _ _ P4 Cl).
    pose proof (content_depth _ _ _ C P2). rewrite toks_len_cons, toks_len_app, toks_len_cons.
    rewrite below_levels_app. assert (below_levels a = 0) as -> by now inversion La. lia.
Qed.
Lemma roots_depth el q ns : roots_read el q ns -> Forall proper_tag (map snd el) -> 7 * below_levels ns + 4 <= toks_len el.
Proof.
  induction 1 as [el q ns R|el p ns el' q ns' R Rs IH]; intro P; [now apply root_depth with q|].
  rewrite map_app in P. apply Forall_app in P as [P1 P2]. specialize (IH P2). pose proof (root_depth _ _ _ R P1).
  rewrite below_levels_app, toks_len_app. lia.
Qed.
Lemma knit_levels ns l : knit ns l -> below_levels l = below_levels ns.
Proof. induction 1; cbn [below_levels] in *; try congruence. destruct n; congruence. Qed.
Lemma adopted_levels q l l' : Forall2 (adopted q) l l' -> below_levels l' = below_levels l.
Proof.
  induction 1 as [|n n' l l' A F IH]; [reflexivity|].
  destruct n as [c|s|s|s], n' as [c'|s'|s'|s']; try (elim A); try discriminate A; cbn [below_levels]; [|exact IH..].
  rewrite IH. f_equal. rewrite !levels_eq. now destruct A as (_ & -> & _).
Qed.
Theorem parsed_depth s d : parse_str s = Ok d -> 7 * levels (d_root d) <= List.length s + 3.
Proof.
  intro H. destruct (C69_total _ _ H) as (pr & el & ((tail & Sp & _) & _ & R & _) & _ & _ & q & ns & Rr & l & l' & K & A & E).
  pose proof (roots_depth _ _ _ Rr (roots_proper _ R)) as D. rewrite E, levels_eq. cbn [e_children set_children].
  rewrite (adopted_levels _ _ _ A), (knit_levels _ _ K). apply lexed_flatten in Sp. rewrite Sp, app_length.
  fold (toks_len (pr ++ el)). rewrite toks_len_app. lia.
Qed.

(** * Texts of any depth are read *)

Fixpoint nest_item (n : nat) : citem :=
  match n with
  | O => CEmpty (lit "a") [] []
  | S k => CElem (lit "a") [] [] (BItem [] (nest_item k) (BEnd [])) []
  end.
Definition nest_source (n : nat) : source := Source None [] [] (nest_item n) [].
Lemma concat_snoc (x : str) n : List.concat (repeat x n) ++ x = x ++ List.concat (repeat x n).
Proof. induction n as [|n IH]; [now rewrite app_nil_r|]. cbn [repeat List.concat]. now rewrite <- app_assoc, IH. Qed.
Lemma nest_print n : source_print (nest_source n) = nest n.
Proof.
  unfold source_print, nest_source. cbn [x_decl x_prolog x_gap x_root x_after flat_map app]. rewrite app_nil_r.
  induction n as [|n IH]; [reflexivity|]. unfold nest in *. cbn [nest_item item_print body_print repeat List.concat].
  rewrite IH. rewrite <- (concat_snoc (lit "</a>")). unfold head_print. cbn [flat_map]. rewrite !app_nil_r.
  change (lit "</" ++ lit "a" ++ [] ++ lit ">") with (lit "</a>"). cbn [lit app]. rewrite <- !app_assoc. reflexivity.
Qed.
Lemma a_named : named (lit "a") None (lit "a").
Proof.
  constructor; [exists 97%N, []; split; [reflexivity|]; split; [right; right; now vm_compute|constructor]|].
  intros [E|[]]; discriminate E.
Qed.
Lemma nest_wf n : source_wf (nest_source n).
Proof.
  assert (T : text_wf []) by (split; [intros []|left; constructor]).
  assert (A : attrs_wf []) by (split; constructor).
  split; [intros w d H; discriminate H|]. split; [constructor|]. split; [intros w c []|]. split; [constructor|].
  split; [|split; [|intros []]].
  - cbn [x_root nest_source]. induction n as [|n IH]; cbn [nest_item item_wf body_wf].
    + split; [exists None, (lit "a"); exact a_named|]. split; [exact A|constructor].
    + split; [exists None, (lit "a"); exact a_named|]. split; [exact A|]. split; [constructor|]. split; [|constructor].
      split; [exact T|]. split; [exact IH|exact T].
  - exists (lit "a"), []. split; [destruct n; [left; eexists|right; eexists _, _, _]; reflexivity|].
    intros p m H. remember (lit "a") as x eqn:E. remember (Some p) as o eqn:Eo.
    destruct H as [|p' n' X]; [discriminate Eo|]. destruct X as (c & r & -> & _). destruct r; discriminate E.
Qed.
Lemma nest_deep : forall n e, item_means (nest_item n) (NElem e) -> levels e = S n.
Proof.
  induction n as [|n IH]; intros e M; inversion M as [? ? ? ? H C|? ? ? ? ? ? H B| |]; subst; rewrite levels_eq.
  - now rewrite C.
  - inversion B as [|? ? ? m ? ? Tm Im Bm Eb]; subst. inversion Bm as [? ? Tm'|]; subst.
    assert (Z : forall l, text_means [] l -> l = []) by (intros l0 H0; inversion H0 as [|? ? W|? ? W]; [reflexivity|elim W; constructor..]).
    apply Z in Tm. apply Z in Tm'. subst. cbn [app].
    destruct m as [c| | |]; [|destruct n; inversion Im..]. cbn [below_levels]. rewrite (IH c Im). lia.
Qed.
Theorem nest_parsed n : exists d, parse_str (nest n) = Ok d /\ levels (d_root d) = S n.
Proof.
  destruct (C47_document_means (nest_source n) (nest_wf n)) as (d & P & _ & _ & M). rewrite nest_print in P.
  exists d. split; [exact P|]. now apply nest_deep.
Qed.
Lemma nest_length n : List.length (nest n) = 7 * n + 4.
Proof. unfold nest. rewrite !app_length. induction n as [|n IH]; [reflexivity|]. cbn [repeat List.concat]. rewrite !app_length. cbn in *. lia. Qed.

(** A text yields no more nodes than it has bytes. *)
From Coq Require Import List NArith Arith Bool Ascii String Lia Permutation.
From Verif Require Import Base BaseFacts Escape Dom DomFacts Spec SpecDom Parse SpecLex SpecParse SpecEsc LexFacts ParseFacts DocFacts
  SpecDoc SerFacts P_Parse SpecMean MeanFacts SpecMany ManyFacts SpecTime SpecSize UnescFacts P_Escape P_Many SpecErr ReadFacts SizeFacts SizeMore.
Import ListNotations.

Definition count (n : node) : nat := match n with NElem c => nodes c | _ => 1 end.
Lemma nodes_eq e : nodes e = 1 + sum count (e_children e).
Proof. now destruct e. Qed.
Lemma not_white_len t : ~ ws t -> 1 <= blen t.
Proof. destruct t as [|c t]; intro H; [elim H; constructor|]. cbn [blen]. pose proof (len_utf8_pos c). lia. Qed.
Lemma text_item_count txt i : text_item txt i -> List.length i <= blen txt.
Proof. intros [t W|t v N U B|t v N U B]; cbn [List.length]; try lia. now apply not_white_len. Qed.
Lemma tag_item_count t i : tag_item t i -> List.length i <= blen t.
Proof.
  intro H. pose proof (tag_item_size _ _ H) as S. apply Nat.le_trans with (2 := S). destruct H; rewrite ?sum_cons; cbn [List.length size_item size_node]; try lia.
Qed.
Lemma items_count toks i : items toks i -> List.length i <= sum size_tok toks.
Proof.
  induction 1 as [|txt t toks a b l X G F IH]; [cbn; lia|]. rewrite !app_length, sum_cons. apply text_item_count in X. apply tag_item_count in G.
  unfold size_tok at 1. cbn [fst snd]. lia.
Qed.
Lemma tree_count :
  (forall anc e is, element_of_items anc e is -> nodes e <= List.length is) /\
  (forall anc ns is, nodes_of_items anc ns is -> sum count ns <= List.length is).
Proof.
  apply items_ind2.
  - intros anc e n l is L X C _ IH. rewrite nodes_eq. cbn [List.length]. rewrite app_length. lia.
  - intro anc. cbn. lia.
  - intros anc n ns is N _ IH. rewrite sum_cons. cbn [List.length]. assert (count n = 1) by (destruct n; try reflexivity; now elim (N e)). lia.
  - intros anc e ns is is' _ IH1 _ IH2. rewrite app_length, sum_cons. cbn [count]. lia.
Qed.
Lemma loose_count txt a : loose_text txt a -> sum count a <= blen txt.
Proof. intros [t W|t v N U]; [cbn; lia|]. apply not_white_len in N. cbn. lia. Qed.
Lemma content_count q toks ns : content q toks ns -> sum count ns <= sum size_tok toks.
Proof.
  induction 1 as [|txt a t n toks ns L T C IH|txt a t g is e toks ns L I E C IH]; [cbn; lia|..];
    rewrite ?sum_app, ?sum_cons, ?sum_app; unfold size_tok at 1; cbn [fst snd]; apply loose_count in L.
  - assert (E : count n = 1) by (inversion T; reflexivity). apply tag_item_count in T. cbn [List.length] in T. lia.
  - apply items_count in I. rewrite sum_cons in I. unfold size_tok at 1 in I. cbn [fst snd] in I. change (blen []) with 0 in I.
    apply (proj1 tree_count) in E. cbn [count]. lia.
Qed.
Lemma root_count el q ns : root_reads el q ns -> 1 + sum count ns <= sum size_tok el.
Proof.
  intros [txt t n l q' W T S (H & _)|txt t n l q' body ns' last a close W T S (H & _) C L Cl];
    apply start_tag_size in T; destruct T as [T1 T2]; rewrite ?sum_cons, ?sum_app; unfold size_tok at 1; cbn [fst snd].
  - change (sum size_tok []) with 0. change (sum count []) with 0. lia.
  - apply content_count in C. apply loose_count in L. apply closing_size in Cl. rewrite sum_cons. unfold size_tok at 2. cbn [fst snd]. lia.
Qed.
Lemma roots_count el q ns : roots_read el q ns -> 1 + sum count ns <= sum size_tok el.
Proof.
  induction 1 as [el q ns R|el p ns el' q ns' R _ IH]; [now apply root_count in R|]. apply root_count in R. rewrite !sum_app. lia.
Qed.
Lemma knit_count ns l : knit ns l -> sum count l <= sum count ns.
Proof. induction 1; rewrite ?sum_cons in *; cbn [count] in *; lia. Qed.
Lemma adopted_count q n n' : adopted q n n' -> count n' = count n.
Proof.
  destruct n, n'; cbn; try easy. intro H. rewrite !nodes_eq. now replace (e_children e0) with (e_children e) by (symmetry; apply H).
Qed.
Lemma gathered_count q ns r : gathered q ns r -> nodes r <= 1 + sum count ns.
Proof.
  intros (l & l' & K & F & ->). apply knit_count in K. rewrite nodes_eq. cbn [e_children set_children].
  assert (sum count l' = sum count l).
  { clear K. induction F as [|a b l l' A F IH]; [easy|]. rewrite !sum_cons. apply adopted_count in A. lia. }
  replace (e_children (set_children q l')) with l' by now destruct q. lia.
Qed.
Theorem parse_nodes s d : parse_str s = Ok d -> nodes (d_root d) <= blen s.
Proof.
  intro H. destruct (C69_total _ _ H) as (pr & el & ((tail & L & _) & _) & D & T & q & ns & R & G).
  apply lexed_size in L. rewrite sum_app in L. apply gathered_count in G. apply roots_count in R. lia.
Qed.

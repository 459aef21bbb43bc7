(** Saving and loading again and again: C76, and the last sentence of C59. *)
From Coq Require Import List NArith Arith Bool Ascii String Lia.
From Verif Require Import Base Escape Dom Spec SpecDom ParseTree SpecTree Parse SpecLex SpecParse SpecDoc
  EscapeFacts DocCheck P_Parse P_More SpecMore SpecCycle CycleFacts CycleDoc.
Import ListNotations.

(** * One text *)

Lemma text_again_map t : text_again t = unescape (flat_map (escape_char text_special) t).
Proof. unfold text_again. now rewrite text_escape_char_map. Qed.
Lemma value_again_map t : value_again t = unescape (flat_map (escape_char all_special) t).
Proof. unfold value_again, attribute_escape. now rewrite escape_char_map. Qed.
Lemma times_ext {A} (f g : A -> outcome A) : (forall a, f a = g a) -> forall n a, times f n a = times g n a.
Proof. intros H. induction n as [|n IH]; intro a; [easy|]. cbn [times]. rewrite H. destruct (g a); cbn [bind]; auto. Qed.

(** What becomes of a text that is escaped and decoded, exactly. *)
Theorem C76_text : forall t,
  (forall r, text_again t = Ok r <-> rereads text_special (width t) t (Some r)) /\
  (text_again t = Panic <-> rereads text_special (width t) t None).
Proof. intro t. rewrite text_again_map. exact (again_exact text_special good_text t). Qed.
Theorem C76_value : forall v,
  (forall r, value_again v = Ok r <-> rereads all_special (width v) v (Some r)) /\
  (value_again v = Panic <-> rereads all_special (width v) v None).
Proof. intro t. rewrite value_again_map. exact (again_exact all_special good_all t). Qed.
(** Texts that are not changed, exactly. *)
Theorem C76_text_same : forall t, text_again t = Ok t <-> spaced text_special t.
Proof. intro t. rewrite text_again_map. exact (survives_spaced text_special good_text t). Qed.
Theorem C76_value_same : forall v, value_again v = Ok v <-> spaced all_special v.
Proof. intro t. rewrite value_again_map. exact (survives_spaced all_special good_all t). Qed.
(** Nothing is lost: special characters stay escaped, the rest is kept. *)
Theorem C76_text_gains : forall t r, text_again t = Ok r -> some_escaped text_special t r.
Proof. intros t r H. apply C76_text in H. now apply (rereads_escaped text_special _ _ _ H). Qed.
Theorem C76_value_gains : forall v r, value_again v = Ok r -> some_escaped all_special v r.
Proof. intros t r H. apply C76_value in H. now apply (rereads_escaped all_special _ _ _ H). Qed.
(** There are three fates: never changed, panic at the first cycle, or at least three
    bytes more in every cycle. *)
Theorem C76_text_fates : forall t,
  (forall n, times text_again n t = Ok t) \/
  (forall n, times text_again (S n) t = Panic) \/
  (forall n, exists r, times text_again n t = Ok r /\ blen t + 3 * n <= blen r).
Proof.
  intro t. destruct (repeated_cases text_special good_text t) as [H|[H|H]]; [left|right; left|right; right]; intro n; specialize (H n);
    now rewrite (times_ext _ _ text_again_map).
Qed.
Theorem C76_value_fates : forall v,
  (forall n, times value_again n v = Ok v) \/
  (forall n, times value_again (S n) v = Panic) \/
  (forall n, exists r, times value_again n v = Ok r /\ blen v + 3 * n <= blen r).
Proof.
  intro t. destruct (repeated_cases all_special good_all t) as [H|[H|H]]; [left|right; left|right; right]; intro n; specialize (H n);
    now rewrite (times_ext _ _ value_again_map).
Qed.
(** Each of the three fates occurs. *)
Example C76_text_stays : text_again (lit "a<b") = Ok (lit "a<b").
Proof. vm_compute. reflexivity. Qed.
Example C76_text_panics : text_again (lit "<" ++ [233%N]) = Panic.
Proof. vm_compute. reflexivity. Qed.
Example C76_text_grows : times text_again 1 (lit "<<x" ++ [233%N]) = Ok (lit "<&lt;x" ++ [233%N]) /\
  times text_again 2 (lit "<<x" ++ [233%N]) = Ok (lit "<&amp;lt;x" ++ [233%N]) /\
  times text_again 3 (lit "<<x" ++ [233%N]) = Ok (lit "<&amp;amp;lt;x" ++ [233%N]).
Proof. repeat split; vm_compute; reflexivity. Qed.
(** Quotes are special in values only. *)
Example C76_value_grows : text_again (lit "''x" ++ [233%N]) = Ok (lit "''x" ++ [233%N]) /\
  value_again (lit "''x" ++ [233%N]) = Ok (lit "'&apos;x" ++ [233%N]).
Proof. split; vm_compute; reflexivity. Qed.

(** * Documents *)

Lemma reworded_impl (f g f' g' : str -> str -> Prop) : (forall t r, f t r -> f' t r) -> (forall t r, g t r -> g' t r) ->
  forall e e', reworded f g e e' -> reworded f' g' e e'.
Proof.
  intros Hf Hg. apply (reworded_mut f g (reworded f' g') (reworded_nodes f' g')); intros; try now constructor; auto.
  constructor; auto. intro k. specialize (H1 k). destruct (get_attr e k) as [v|]; [|easy]. destruct H1 as (v' & E & G). exists v'. auto.
Qed.

(** Reading what was written panics exactly when one of its texts or values cannot be
    decoded. *)
Theorem C76_panics : forall d ind, storable_doc d ->
  (parse_str (doc_to_string_with_indent d ind) = Panic <-> undecodable (root_element d)).
Proof. exact panics_exactly. Qed.
(** Otherwise any number of cycles succeeds, with any indents, and gives the same
    tree in which every text and value has gone through as many cycles of escaping and
    decoding. *)
Theorem C76_cycles : forall d inds, storable_doc d -> ~ undecodable (root_element d) ->
  exists d', stored inds d = Ok d' /\
    declaration d' = declaration d /\ doctype_defs d' = doctype_defs d /\
    reworded (fun t r => times text_again (List.length inds) t = Ok r)
             (fun v r => times value_again (List.length inds) v = Ok r)
             (root_element d) (root_element d').
Proof.
  intros d inds S N. destruct (encodable_or (root_element d)) as [W|U]; [apply S| |easy].
  destruct (stored_reworded inds d (encodable_doc_of d S W)) as (d' & E & _ & E1 & E2 & R). exists d'. split; [exact E|].
  split; [exact E1|]. split; [exact E2|]. revert R. apply reworded_impl; intros t r H; unfold after in H.
  - now rewrite (times_ext _ _ text_again_map).
  - now rewrite (times_ext _ _ value_again_map).
Qed.
(** The three fates of a document: all cycles give the same texts and values; the
    first cycle panics; or some text or value gets at least three bytes longer in
    every cycle. *)
Definition stays_same (d : document) : Prop := forall inds, exists d', stored inds d = Ok d' /\
  declaration d' = declaration d /\ doctype_defs d' = doctype_defs d /\ reworded eq eq (root_element d) (root_element d').
Definition panics_at_once (d : document) : Prop := forall ind inds, stored (ind :: inds) d = Panic.
Definition grows_forever (d : document) : Prop :=
  (exists t, has_text (root_element d) t /\ forall inds, exists d' r, stored inds d = Ok d' /\
    has_text (root_element d') r /\ times text_again (List.length inds) t = Ok r /\ blen t + 3 * List.length inds <= blen r) \/
  (exists v, has_value (root_element d) v /\ forall inds, exists d' r, stored inds d = Ok d' /\
    has_value (root_element d') r /\ times value_again (List.length inds) v = Ok r /\ blen v + 3 * List.length inds <= blen r).
Theorem C76_fates : forall d, storable_doc d ->
  (all_spaced (root_element d) /\ stays_same d) \/
  (undecodable (root_element d) /\ panics_at_once d) \/
  grows_forever d.
Proof.
  intros d S. destruct (fates d S) as [A|[U|[W G]]].
  - left. split; [exact A|]. exact (stays d S A).
  - right. left. split; [exact U|]. intros ind inds. cbn [stored]. apply (panics_exactly d ind S) in U. now rewrite U.
  - right. right. assert (N : ~ undecodable (root_element d)) by (intro U; now apply (encodable_not _ W)).
    destruct G as [(t & H & G)|(t & H & G)]; [left|right]; exists t; (split; [exact H|]); intro inds;
      destruct (C76_cycles d inds S N) as (d' & E & _ & _ & R); specialize (G (List.length inds)); destruct G as (r & A & B).
    + destruct (reworded_text _ _ _ _ H _ R) as (r' & H' & F). exists d', r. repeat (split; [easy|]).
      unfold after in A. rewrite <- (times_ext _ _ text_again_map) in A. rewrite A in F. injection F as ->. easy.
    + destruct (reworded_value _ _ _ _ H (proj1 S) _ R) as (r' & H' & F). exists d', r. repeat (split; [easy|]).
      unfold after in A. rewrite <- (times_ext _ _ value_again_map) in A. rewrite A in F. injection F as ->. easy.
Qed.
(** In the first case nothing changes at all after the first cycle, and what was read
    equals what was written, if the namespaces are those that are read. *)
Theorem C76_equal : forall d, writable_doc d ->
  exists d', (forall ind inds, stored (ind :: inds) d = Ok d') /\ doc_eqb d' d = true.
Proof. exact writable_stored. Qed.
(** All this applies to documents that were parsed. *)
Theorem C76_parsed : forall s d pr el, parse_str s = Ok d -> one_root s pr el ->
  doctype_defs d = [] -> well_named (root_element d) -> storable_doc d.
Proof. exact parsed_storable. Qed.

(** The document [<a k="v"><b>t</b></a>] for any text and value. *)
Definition ex_holding (t v : str) : document :=
  mkDoc None [] (mkElem (lit "a") [NElem (mkElem (lit "b") [NText t] [] None None [])] [(lit "k", v)] None None []).
Lemma ex_storable t v : wsb t = false -> storable_doc (ex_holding t v).
Proof.
  intro B. split; [|split; [easy|split; [easy|split; [|easy]]]].
  - constructor; cbn.
    + constructor; [easy|constructor].
    + constructor.
    + intros c [E|[]]. injection E as <-. constructor; cbn; [constructor|constructor|]. now intros c [E|[]].
  - constructor; cbn [e_children e_attributes root_element ex_holding].
    + apply (namedb_ok None). vm_compute. reflexivity.
    + intros k w [E|[]]. injection E as <- <-. apply plainb_ok. vm_compute. reflexivity.
    + apply text_normalb_ok. reflexivity.
    + now intros x [E|[]].
    + now intros x [E|[]].
    + now intros x [E|[]].
    + intros c [E|[]]. injection E as <-. constructor; cbn [e_children e_attributes].
      * apply (namedb_ok None). vm_compute. reflexivity.
      * easy.
      * apply text_normalb_ok. cbn [text_normalb]. now rewrite B.
      * intros x [E|[]]. injection E as <-. now intros ->.
      * now intros x [E|[]].
      * now intros x [E|[]].
      * now intros x [E|[]].
Qed.
(** Each fate occurs for a document, in a text and in a value. *)
Example C76_stays_example : storable_doc (ex_holding (lit "x < y") (lit "&'")) /\
  exists d, stored [[9%N]; []; lit "  "] (ex_holding (lit "x < y") (lit "&'")) = Ok d /\ doc_eqb d (ex_holding (lit "x < y") (lit "&'")) = true.
Proof. split; [now apply ex_storable|]. eexists. split; vm_compute; reflexivity. Qed.
Example C76_panics_example : storable_doc (ex_holding (lit "x") (lit "<" ++ [233%N])) /\
  undecodable (root_element (ex_holding (lit "x") (lit "<" ++ [233%N]))) /\
  parse_str (doc_to_string (ex_holding (lit "x") (lit "<" ++ [233%N]))) = Panic.
Proof.
  assert (S : storable_doc (ex_holding (lit "x") (lit "<" ++ [233%N]))) by now apply ex_storable.
  split; [exact S|]. assert (P : parse_str (doc_to_string_with_indent (ex_holding (lit "x") (lit "<" ++ [233%N])) (lit "  ")) = Panic) by (vm_compute; reflexivity).
  split; [|exact P]. now apply (C76_panics _ _ S) in P.
Qed.
Lemma grows_if d d' t : storable_doc d -> parse_str (doc_to_string d) = Ok d' -> has_text (root_element d) t -> text_again t <> Ok t -> grows_forever d.
Proof.
  intros S P H N. destruct (C76_fates d S) as [[[A _] _]|[[U _]|G]]; [| |exact G]; exfalso.
  - apply N, C76_text_same. now apply A.
  - apply (C76_panics d default_indent S) in U. unfold doc_to_string in P. congruence.
Qed.
Example C76_grows_example : storable_doc (ex_holding (lit "<<x" ++ [233%N]) []) /\ grows_forever (ex_holding (lit "<<x" ++ [233%N]) []).
Proof.
  assert (S : storable_doc (ex_holding (lit "<<x" ++ [233%N]) [])) by now apply ex_storable. split; [exact S|].
  assert (P : exists d', parse_str (doc_to_string (ex_holding (lit "<<x" ++ [233%N]) [])) = Ok d') by (eexists; vm_compute; reflexivity).
  destruct P as [d' P]. apply (grows_if _ d' (lit "<<x" ++ [233%N]) S P).
  - apply ht_below with (mkElem (lit "b") [NText (lit "<<x" ++ [233%N])] [] None None []); [now left|]. apply ht_here. now left.
  - vm_compute. discriminate.
Qed.

(** * C59: more in every cycle *)

(** There is a text that is parsed to a document (with XML names and no DTDs) one of
    whose texts gets at least three bytes longer each time the document is written
    and read. *)
Theorem C59_every_cycle : exists s d, parse_str s = Ok d /\ doctype_defs d = [] /\ well_named (root_element d) /\
  exists t, has_text (root_element d) t /\ forall inds, exists d' r, stored inds d = Ok d' /\
    has_text (root_element d') r /\ blen t + 3 * List.length inds <= blen r.
Proof.
  pose (t := lit "<&lt;" ++ [233%N]). exists (lit "<a k=''><b>&lt;&lt;" ++ [233%N] ++ lit "</b></a>"), (ex_holding t []).
  split; [vm_compute; reflexivity|]. split; [reflexivity|]. split; [unfold ex_holding; cbn [root_element]; names_by|].
  assert (H : has_text (root_element (ex_holding t [])) t)
    by (apply ht_below with (mkElem (lit "b") [NText t] [] None None []); [now left|apply ht_here; now left]).
  exists t. split; [exact H|]. intro inds.
  assert (S : storable_doc (ex_holding t [])) by now apply ex_storable.
  assert (N : ~ undecodable (root_element (ex_holding t []))) by (intro U; apply (C76_panics _ [] S) in U; vm_compute in U; discriminate).
  destruct (C76_cycles _ inds S N) as (d' & E & _ & _ & R). destruct (reworded_text _ _ _ _ H _ R) as (r & H' & F).
  exists d', r. repeat (split; [easy|]). destruct (C76_text_fates t) as [K|[K|K]].
  - specialize (K 1). vm_compute in K. discriminate.
  - specialize (K 0). vm_compute in K. discriminate.
  - destruct (K (List.length inds)) as (r' & F' & L). rewrite F in F'. now injection F' as <-.
Qed.
Print Assumptions C76_text.
Print Assumptions C76_value.
Print Assumptions C76_text_same.
Print Assumptions C76_value_same.
Print Assumptions C76_text_gains.
Print Assumptions C76_value_gains.
Print Assumptions C76_text_fates.
Print Assumptions C76_value_fates.
Print Assumptions C76_panics.
Print Assumptions C76_cycles.
Print Assumptions C76_fates.
Print Assumptions C76_equal.
Print Assumptions C76_parsed.
Print Assumptions C59_every_cycle.

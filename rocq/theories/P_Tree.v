(** Properties C36 and C37: the parse tree. *)
From Coq Require Import List NArith Arith Bool Ascii String.
From Verif Require Import Base Dom Spec SpecDom ParseTree SpecTree ParseTreeFacts.
Import ListNotations.

(** * C36: no internal logic error *)

(** Whatever calls are made, none panics; the top element is that of a plain
    stack; [to_dom] reports a missing root when nothing was pushed and returns
    an element otherwise. *)
Theorem C36_no_logic_error : forall ops, exists t, pt_run pt_new ops = Ok t /\
  pt_top_element t = Ok (m_top (m_run MNew ops)) /\
  (pt_empty_stack t = true <-> m_top (m_run MNew ops) = None) /\
  (~ (exists e, In (OpPush e) ops) -> pt_to_dom t = Err (ParsingError PNoRootElement None)) /\
  ((exists e, In (OpPush e) ops) -> exists e, pt_to_dom t = Ok e).
Proof. exact history. Qed.

(** After any history, a further call succeeds exactly when it does on the plain
    stack, with the same top element, and reports an error otherwise. *)
Theorem C36_calls : forall ops op, exists t, pt_run pt_new ops = Ok t /\
  match m_do (m_run MNew ops) op with
  | Some m' => exists t', pt_do t op = Ok t' /\ pt_top_element t' = Ok (m_top m')
  | None => exists x, pt_do t op = Err x
  end.
Proof. exact call_result. Qed.

Definition ex_elem (nm : string) (ch : list node) : elem := mkElem (lit nm) ch [] None None [].
(** A history with errors, an unclosed element and a second root. *)
Example C36_history_example :
  let ops := [OpPop; OpAppend (NText (lit "t")); OpPush (ex_elem "a" []); OpAppend (NText (lit "x"));
              OpPush (ex_elem "b" []); OpPop; OpPop; OpPop; OpPush (ex_elem "c" []);
              OpPush (ex_elem "d" [])] in
  exists t, pt_run pt_new ops = Ok t /\ pt_top_element t = Ok (Some (ex_elem "d" [])) /\
    pt_to_dom t = Ok (ex_elem "c" [NText (lit "x"); NElem (ex_elem "b" []); NElem (ex_elem "d" [])]).
Proof. eexists. split; [reflexivity|]. split; reflexivity. Qed.

(** * C37: the tree comes back in document order *)

(** Feeding the open / leaf / close events of a tree in text normal form yields
    that tree, each child having been adopted by its parent. *)
Theorem C37_rebuild : forall e ops, tree_normal e -> events_of e ops ->
  exists t e', pt_run pt_new ops = Ok t /\ pt_empty_stack t = true /\
    pt_to_dom t = Ok e' /\ settled e e'.
Proof. exact events_to_dom. Qed.

(** If the namespaces of the tree are already resolved, it is exactly that tree. *)
Theorem C37_rebuild_exact : forall e ops, tree_normal e -> resolved e -> events_of e ops ->
  exists t, pt_run pt_new ops = Ok t /\ pt_empty_stack t = true /\ pt_to_dom t = Ok e.
Proof. exact events_to_dom_resolved. Qed.

Definition ex_tree : elem :=
  ex_elem "a" [NText (lit "x"); NElem (ex_elem "b" [NComment (lit "c"); NText (lit "y")]);
               NElem (ex_elem "d" []); NCData (lit "z")].
Example C37_events_example : exists ops, events_of ex_tree ops /\ List.length ops = 9.
Proof.
  eexists. split.
  - unfold ex_tree. apply evs. cbn. apply be_leaf; [easy|]. eapply be_elem.
    + apply evs. cbn. apply be_leaf; [easy|]. apply be_leaf; [easy|]. apply be_nil.
    + apply be_single; [easy|]. apply be_leaf; [easy|]. apply be_nil.
  - reflexivity.
Qed.
Lemma ex_normal l : (forall s, In (NText s) l -> ~ blank s) ->
  (forall a s t b, l <> a ++ [NText s; NText t] ++ b) -> text_normal l.
Proof. now split. Qed.
Ltac ex_text := apply ex_normal;
  [ intros s Hs; cbn in Hs; intros [_ Hb];
    repeat destruct Hs as [Hs|Hs]; try discriminate; try contradiction;
    injection Hs as <-; inversion Hb; discriminate
  | intros a s t b E; repeat (destruct a as [|? a]; cbn in E; [discriminate|injection E as _ E]);
    now destruct a ].
Example C37_normal_example : tree_normal ex_tree.
Proof.
  apply tn; [cbn; ex_text|]. cbn. intros c Hc. repeat destruct Hc as [Hc|Hc]; try discriminate; try contradiction.
  - injection Hc as <-. apply tn; [cbn; ex_text|]. cbn. intros c Hc.
    repeat destruct Hc as [Hc|Hc]; try discriminate; try contradiction.
  - injection Hc as <-. apply tn; [cbn; ex_text|]. cbn. intros c Hc. contradiction.
Qed.
Example C37_resolved_example : resolved ex_tree.
Proof.
  assert (A : forall c p : elem, e_context c = [] -> e_context p = [] -> e_xmlns c = None -> e_xmlns p = None ->
            e_prefix c = None -> e_prefix p = None -> adopted p (NElem c) (NElem c)).
  { intros c p H1 H2 H3 H4 H5 H6. cbn. unfold inheritable. rewrite H1, H2, H3, H4, H5, H6. now repeat split. }
  apply rs; intros c Hc; cbn in Hc; repeat destruct Hc as [Hc|Hc]; try discriminate; try contradiction;
    injection Hc as <-; try now apply A.
  - apply rs; intros c Hc; cbn in Hc; repeat destruct Hc as [Hc|Hc]; try discriminate; contradiction.
  - apply rs; intros c Hc; contradiction.
Qed.

(** Without text normal form the claim is false: adjacent texts are joined in
    the wrong order. *)
Theorem C37_adjacent_text_refuted : exists e ops t e', events_of e ops /\
  pt_run pt_new ops = Ok t /\ pt_to_dom t = Ok e' /\
  children e = [NText (lit "x"); NText (lit "y")] /\ children e' = [NText (lit "yx")].
Proof.
  exists (ex_elem "a" [NText (lit "x"); NText (lit "y")]). do 3 eexists. split.
  - apply evs. cbn. apply be_leaf; [easy|]. apply be_leaf; [easy|]. apply be_nil.
  - split; [reflexivity|]. split; [reflexivity|]. split; reflexivity.
Qed.
Print Assumptions C36_no_logic_error.
Print Assumptions C36_calls.
Print Assumptions C37_rebuild.
Print Assumptions C37_rebuild_exact.
Print Assumptions C37_adjacent_text_refuted.

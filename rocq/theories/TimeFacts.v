(** The clock changes nothing: what the functions of Time.v return. *)
From Coq Require Import List NArith Arith Bool Ascii String Lia.
From Verif Require Import Base Escape Dom ParseTree Parse Time.
Import ListNotations.

Lemma result_tbind {A B} (x : timed A) (f : A -> timed B) : result (tbind x f) = bind (result x) (fun a => result (f a)).
Proof. unfold tbind. now destruct (result x). Qed.
Lemma bind_ext {A B} (x y : outcome A) (f g : A -> outcome B) : x = y -> (forall a, f a = g a) -> bind x f = bind y g.
Proof. intros -> H. destruct y; cbn; auto. Qed.

Create HintDb clock.
Ltac erase :=
  lazymatch goal with
  | |- result (tbind _ _) = bind _ _ => rewrite result_tbind; apply bind_ext; [erase|intro; erase]
  | |- result (tbind (after _ (Ok _)) _) = _ => rewrite result_tbind; cbn [result after bind]; erase
  | |- result (after _ _) = _ => reflexivity
  | |- result (fail_t _ _ _) = _ => reflexivity
  | |- result (spend _ ?x) = ?y => change (result x = y); erase
  | |- result (map_err_t _ _ _ _) = map_err _ _ => cbn [result map_err_t]; f_equal; erase
  | |- result (if ?c then _ else _) = _ => destruct c; erase
  | |- result (match ?x with _ => _ end) = _ => destruct x; erase
  | |- _ => cbn beta; auto with clock
  end.

Lemma string_insert_t_ok b x y i : result (string_insert_t b x y i) = string_insert b x y i.
Proof. unfold string_insert_t, string_insert. erase. Qed.
Global Hint Resolve string_insert_t_ok : clock.
Lemma unescape_entity_t_ok i j s b c : result (unescape_entity_t i j s b c) = unescape_entity i j s b c.
Proof. unfold unescape_entity_t, unescape_entity. erase. Qed.
Global Hint Resolve unescape_entity_t_ok : clock.
Lemma unescape_scan_t_ok i s : forall rest j b c, result (unescape_scan_t i s rest j b c) = unescape_scan i s rest j b c.
Proof. induction rest as [|k rest IH]; intros; cbn [unescape_scan_t unescape_scan]; erase. Qed.
Global Hint Resolve unescape_scan_t_ok : clock.
Lemma unescape_loop_t_ok : forall fuel b i, result (unescape_loop_t fuel b i) = unescape_loop fuel b i.
Proof. induction fuel as [|fuel IH]; intros; cbn [unescape_loop_t unescape_loop]; erase. Qed.
Lemma unescape_t_ok s : result (unescape_t s) = unescape s.
Proof. apply unescape_loop_t_ok. Qed.
Global Hint Resolve unescape_t_ok : clock.
Lemma real_text_t_ok s : result (real_text_t s) = real_text s.
Proof. unfold real_text_t, real_text. erase. Qed.
Global Hint Resolve real_text_t_ok : clock.
Lemma quote_aware_find_from_t_ok p : forall rest i q, result (quote_aware_find_from_t p rest i q) = Ok (quote_aware_find_from p rest i q).
Proof. induction rest as [|k rest IH]; intros; cbn [quote_aware_find_from_t quote_aware_find_from]; erase. Qed.
Global Hint Resolve quote_aware_find_from_t_ok : clock.
Lemma quote_aware_find_t_ok s p i : result (quote_aware_find_t s p i) = quote_aware_find s p i.
Proof. unfold quote_aware_find_t, quote_aware_find. erase. Qed.
Global Hint Resolve quote_aware_find_t_ok : clock.
Lemma nested_find_from_t_ok : forall rest i d q, result (nested_find_from_t rest i d q) = Ok (nested_find_from rest i d q).
Proof. induction rest as [|k rest IH]; intros; cbn [nested_find_from_t nested_find_from]; erase. Qed.
Global Hint Resolve nested_find_from_t_ok : clock.
Lemma nested_t_ok s i : result (nested_quote_aware_find_close_t s i) = nested_quote_aware_find_close s i.
Proof. unfold nested_quote_aware_find_close_t, nested_quote_aware_find_close. erase. Qed.
Global Hint Resolve nested_t_ok : clock.
Lemma next_tag_t_ok s i : result (next_tag_t s i) = next_tag s i.
Proof. unfold next_tag_t, next_tag. erase. Qed.
Global Hint Resolve next_tag_t_ok : clock.

Lemma merge_text_loop_t_ok : forall i l, result (merge_text_loop_t i l) = merge_text_loop i l.
Proof. induction i as [|i IH]; intro l; cbn [merge_text_loop_t merge_text_loop]; erase. Qed.
Global Hint Resolve merge_text_loop_t_ok : clock.
Lemma drop_blank_loop_t_ok : forall i l, result (drop_blank_loop_t i l) = drop_blank_loop i l.
Proof. induction i as [|i IH]; intro l; cbn [drop_blank_loop_t drop_blank_loop]; erase. Qed.
Global Hint Resolve drop_blank_loop_t_ok : clock.
Lemma cleanup_text_nodes_t_ok l : result (cleanup_text_nodes_t l) = cleanup_text_nodes l.
Proof. unfold cleanup_text_nodes_t, cleanup_text_nodes. erase. Qed.
Global Hint Resolve cleanup_text_nodes_t_ok : clock.
Lemma apply_xmlns_context_t_ok df ctx n : result (apply_xmlns_context_t df ctx n) = Ok (apply_xmlns_context df ctx n).
Proof. unfold apply_xmlns_context_t, apply_xmlns_context. destruct n; reflexivity. Qed.
Lemma append_t_ok e n : result (append_t e n) = append e n.
Proof. unfold append_t, append. rewrite result_tbind, apply_xmlns_context_t_ok. cbn [bind]. erase. Qed.
Global Hint Resolve append_t_ok : clock.
Lemma apply_at_t_ok df ctx : forall idx l, result (apply_at_t df ctx idx l) = apply_at df ctx idx l.
Proof.
  induction idx as [|i idx IH]; intro l; cbn [apply_at_t apply_at]; [reflexivity|].
  rewrite result_tbind. apply bind_ext; [reflexivity|]. intro n. rewrite result_tbind, apply_xmlns_context_t_ok. cbn [bind]. erase.
Qed.
Global Hint Resolve apply_at_t_ok : clock.
Lemma append_all_t_ok e l : result (append_all_t e l) = append_all e l.
Proof. unfold append_all_t, append_all. erase. Qed.
Global Hint Resolve append_all_t_ok : clock.
Lemma insert_t_ok e i n : result (insert_t e i n) = insert e i n.
Proof.
  unfold insert_t, insert. destruct (_ <? _); [reflexivity|]. rewrite result_tbind. apply bind_ext; [reflexivity|]. intro l.
  rewrite result_tbind. apply bind_ext; [reflexivity|]. intro x. rewrite result_tbind, apply_xmlns_context_t_ok. cbn [bind]. erase.
Qed.
Lemma convert_attrs_t_ok : forall g a, result (convert_attrs_t g a) = convert_attrs g a.
Proof. induction g as [|[k v] g IH]; intro a; cbn [convert_attrs_t convert_attrs]; erase. Qed.
Global Hint Resolve convert_attrs_t_ok : clock.
Lemma element_new_t_ok n t a x p c : result (element_new_t n t a x p c) = element_new n t a x p c.
Proof. unfold element_new_t, element_new. erase. Qed.
Global Hint Resolve element_new_t_ok : clock.
Lemma parse_attrs_t_ok b p : forall c a, result (parse_attrs_t c b p a) = parse_attrs c b p a.
Proof. induction c as [|kv c IH]; intro a; cbn [parse_attrs_t parse_attrs]; erase. Qed.
Global Hint Resolve parse_attrs_t_ok : clock.
Lemma parse_new_element_t_ok s b p q : result (parse_new_element_t s b p q) = parse_new_element s b p q.
Proof. unfold parse_new_element_t, parse_new_element. erase. Qed.
Global Hint Resolve parse_new_element_t_ok : clock.
Lemma to_dom_step_t_ok i d : result (to_dom_step_t i d) = to_dom_step i d.
Proof. unfold to_dom_step_t, to_dom_step. erase. Qed.
Global Hint Resolve to_dom_step_t_ok : clock.
Lemma to_dom_loop_t_ok : forall k d, result (to_dom_loop_t k d) = to_dom_loop k d.
Proof. induction k as [|k IH]; intro d; cbn [to_dom_loop_t to_dom_loop]; erase. Qed.
Global Hint Resolve to_dom_loop_t_ok : clock.
Lemma pt_to_dom_t_ok t : result (pt_to_dom_t t) = pt_to_dom t.
Proof. unfold pt_to_dom_t, pt_to_dom. erase. Qed.
Global Hint Resolve pt_to_dom_t_ok : clock.
Lemma prolog_loop_t_ok s : forall fuel d l w sp, result (prolog_loop_t fuel s d l w sp) = prolog_loop fuel s d l w sp.
Proof. induction fuel as [|fuel IH]; intros; cbn [prolog_loop_t prolog_loop]; erase. Qed.
Global Hint Resolve prolog_loop_t_ok : clock.
Lemma parse_tag_t_ok s b p t : result (parse_tag_t s b p t) = parse_tag s b p t.
Proof. unfold parse_tag_t, parse_tag. erase. Qed.
Global Hint Resolve parse_tag_t_ok : clock.
Lemma content_loop_t_ok s r : forall fuel sp t, result (content_loop_t fuel s r sp t) = content_loop fuel s r sp t.
Proof. induction fuel as [|fuel IH]; intros; cbn [content_loop_t content_loop]; erase. Qed.
Global Hint Resolve content_loop_t_ok : clock.
Theorem parse_str_t_ok s : result (parse_str_t s) = parse_str s.
Proof. unfold parse_str_t, parse_str. erase. Qed.

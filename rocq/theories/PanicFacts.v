(** Facts about the panics of programs. *)
From Coq Require Import List NArith Arith Bool Lia Ascii String.
From Verif Require Import Base Escape Dom Spec SpecDom DomFacts ParseTree Parse PosFacts Orders SpecOrders OrdersFacts SpecPanic.
Import ListNotations.

(** Either a value or an error, or one of the parsed texts or changes is to blame. *)
Definition blamed {A} (T : list str) (F : list (elem -> outcome elem)) (x : outcome A) : Prop :=
  match x with
  | Ok _ | Err _ => True
  | Panic => (exists t, In t T /\ parse_str t = Panic) \/ (exists f c, In f F /\ f c = Panic)
  | Fuel => exists f c, In f F /\ f c = Fuel
  end.
Lemma blamed_bind {A B} T F (x : outcome A) (f : A -> outcome B) :
  blamed T F x -> (forall a, x = Ok a -> blamed T F (f a)) -> blamed T F (bind x f).
Proof. destruct x; cbn; auto. Qed.
Lemma blamed_more {A} T F T' F' (x : outcome A) : incl T T' -> incl F F' -> blamed T F x -> blamed T' F' x.
Proof.
  intros HT HF. destruct x; cbn; auto.
  - intros [(t & H & E)|(f & c & H & E)]; [left; exists t|right; exists f, c]; auto.
  - intros (f & c & H & E). exists f, c. auto.
Qed.
Lemma returns_blamed {A} T F (x : outcome A) : returns x -> blamed T F x.
Proof. now intros [[a ->]|[e ->]]. Qed.
Lemma returns_bind {A B} (x : outcome A) (f : A -> outcome B) :
  returns x -> (forall a, x = Ok a -> returns (f a)) -> returns (bind x f).
Proof. intros [[a ->]|[e ->]] H; cbn; [now apply H|]. right. now exists e. Qed.
Lemma returns_ok {A} (a : A) : returns (Ok a).
Proof. left. now exists a. Qed.
Lemma returns_err {A} e : returns (@Err A e).
Proof. right. now exists e. Qed.
#[local] Hint Resolve returns_ok returns_err : core.

Lemma append_returns e n : returns (append e n).
Proof. rewrite append_eq. auto. Qed.
Lemma append_all_returns e l : returns (append_all e l).
Proof. rewrite append_all_eq. auto. Qed.
Lemma convert_returns m : forall r, returns (convert_attrs m r).
Proof.
  induction m as [|[k v] m IH]; intro r; cbn [convert_attrs]; [auto|]. apply returns_bind; [|auto].
  unfold check_attr_name. destruct (name_regex k); auto.
Qed.
Lemma check_elem_returns nm : returns (check_elem_name nm).
Proof. unfold check_elem_name. destruct (name_regex nm); auto. Qed.
Lemma element_new_returns nm text a x p l : returns (element_new nm text a x p l).
Proof.
  unfold element_new. apply returns_bind; [apply check_elem_returns|]. intros _ _.
  apply returns_bind; [destruct a; [apply convert_returns|auto]|]. intros m _. cbv zeta.
  apply returns_bind; [destruct text; [apply append_returns|auto]|]. intros e _.
  destruct l; [apply append_all_returns|auto].
Qed.
Lemma new_from_name_returns nm : returns (new_from_name nm).
Proof. unfold new_from_name. apply returns_bind; [apply check_elem_returns|auto]. Qed.
Lemma insert_returns e i n : returns (insert e i n).
Proof.
  destruct (le_lt_dec i (List.length (e_children e))) as [H|H]; [|rewrite insert_out_of_bounds; auto].
  pose proof (firstn_skipn i (e_children e)) as E. symmetry in E.
  destruct (exists_last (l := firstn i (e_children e) ++ n :: skipn i (e_children e))) as (front & last & El).
  { intro E0. now apply app_eq_nil in E0. }
  pose proof (insert_eq e _ _ n E front last El) as Hi. rewrite firstn_length_le in Hi by easy. rewrite Hi. auto.
Qed.
Lemma remove_returns e i : returns (remove e i).
Proof.
  destruct (le_lt_dec (List.length (e_children e)) i) as [H|H]; [rewrite remove_out_of_bounds; auto|].
  destruct (nth_error (e_children e) i) as [x|] eqn:E; [|apply nth_error_None in E; lia].
  apply nth_error_split in E as (a & b & E & <-). rewrite (remove_eq e a x b E). auto.
Qed.
Lemma remove_element_returns e i : returns (remove_element e i).
Proof.
  destruct (le_lt_dec (List.length (child_elements e)) i) as [H|H]; [rewrite remove_element_out_of_bounds; auto|].
  destruct (nth_error (child_elements e) i) as [c|] eqn:E; [|apply nth_error_None in E; lia].
  apply remove_element_spec in E as E'. destruct E' as (a & b & e' & E' & _). rewrite E'. auto.
Qed.
Lemma set_attr_returns e k v : returns (fst (set_attr e k v)).
Proof. unfold set_attr, check_attr_name. destruct (name_regex k); cbn; auto. Qed.
Lemma first_named_returns n l : returns (first_named n l).
Proof. rewrite first_named_find. destruct (find _ _); auto. Qed.
Lemma update_first_blamed T n f l : blamed T [f] (update_first_named n f l).
Proof.
  induction l as [|x l IH]; cbn [update_first_named]; [easy|].
  destruct x; try (apply blamed_bind; [easy|easy]).
  destruct (str_eqb (name _) n); [|now apply blamed_bind].
  apply blamed_bind; [|easy]. destruct (f _) eqn:E; cbn; auto.
  - right. eexists f, _. split; [now left|exact E].
  - eexists f, _. split; [now left|exact E].
Qed.
Lemma parse_blamed T F text : In text T -> blamed T F (parse_str text).
Proof.
  intro H. destruct (parse_str text) eqn:E; cbn; auto.
  - left. now exists text.
  - now apply parse_terminates in E.
Qed.

Lemma run_blamed : forall s, blamed (texts s) (changes s) (run list_order s).
Proof.
  enough ((forall s, blamed (texts s) (changes s) (run list_order s)) /\
    (forall n, blamed (piece_texts n) (piece_changes n) (run_piece list_order n)) /\
    (forall l, blamed (pieces_texts l) (pieces_changes l) (run_pieces list_order l))) by easy.
  apply program_ind3; intros; cbn [run run_piece run_pieces texts changes piece_texts piece_changes pieces_texts pieces_changes];
    repeat match goal with |- context [within ?k list_order] => change (within k list_order) with list_order end;
    try (apply blamed_bind;
         [first [assumption | eapply blamed_more; [| |eassumption]; auto using incl_appl, incl_appr, incl_refl]|]; intros ? ?);
    try (apply blamed_bind;
         [first [assumption | eapply blamed_more; [| |eassumption]; auto using incl_appl, incl_appr, incl_refl]|]; intros ? ?);
    try exact I.
  - rewrite element_new_list. apply returns_blamed, element_new_returns.
  - rewrite element_new_list. apply returns_blamed, element_new_returns.
  - apply returns_blamed, new_from_name_returns.
  - apply blamed_bind; [|easy]. rewrite parse_list. apply parse_blamed. now left.
  - rewrite append_list. apply returns_blamed, append_returns.
  - rewrite append_all_list. apply returns_blamed, append_all_returns.
  - rewrite insert_list. apply returns_blamed, insert_returns.
  - unfold set_text_o. rewrite append_list. apply returns_blamed, append_returns.
  - apply blamed_bind; [|easy]. apply returns_blamed, set_attr_returns.
  - apply blamed_bind; [|easy]. apply returns_blamed, remove_returns.
  - apply blamed_bind; [|easy]. apply returns_blamed, remove_element_returns.
  - apply blamed_bind; [|easy]. rewrite remove_by_eq. easy.
  - apply blamed_bind; [|easy]. rewrite remove_elements_eq. easy.
  - apply blamed_bind; [|easy]. apply returns_blamed. destruct (remove_elements_by_name_spec a n) as (e' & k & E & _). rewrite E. auto.
  - apply blamed_bind; [|easy]. destruct (remove_all_pruned p a) as (l' & k & E & _). now rewrite E.
  - apply blamed_bind; [|easy]. rewrite remove_all_elements_eq. destruct (remove_all_pruned (elem_pred p) a) as (l' & k & E & _). now rewrite E.
  - unfold first_element_by_name_mut. apply blamed_bind; [|easy].
    eapply blamed_more; [| |apply update_first_blamed]; auto using incl_appr, incl_refl.
  - apply returns_blamed, first_named_returns.
  - apply blamed_bind; [|easy]. apply returns_blamed, remove_element_returns.
Qed.

From Verif Require Import Nodes Files SpecLex SpecParse SpecDoc SpecEsc BaseFacts NodeFacts ParsedFacts DocProps PrologFacts UnescFacts SpecErr ReadFacts LoopFacts.

Lemma run_any s o : fair o -> match run o s with
  | Ok _ | Err _ => True
  | Panic => run list_order s = Panic
  | Fuel => run list_order s = Fuel
  end.
Proof.
  intro F. pose proof (run_alike s o list_order F list_order_fair) as H.
  destruct (run o s), (run list_order s); easy.
Qed.
Lemma run_panics s o : fair o -> run o s = Panic ->
  (exists text, In text (texts s) /\ crashes text) \/ (exists f e, In f (changes s) /\ f e = Panic).
Proof.
  intros F E. pose proof (run_any s o F) as H. rewrite E in H. pose proof (run_blamed s) as B. rewrite H in B.
  destruct B as [(t & Ht & Hp)|B]; [left|now right]. exists t. split; [easy|]. now apply parse_crashes.
Qed.
Lemma run_ends s o : fair o -> run o s = Fuel -> exists f e, In f (changes s) /\ f e = Fuel.
Proof.
  intros F E. pose proof (run_any s o F) as H. rewrite E in H. pose proof (run_blamed s) as B. rewrite H in B. exact B.
Qed.
Lemma run_ascii s o : fair o -> Forall (fun text => all_ascii text /\ ~ substring (lit "&#") text) (texts s) ->
  Forall (fun f => forall e, returns (f e)) (changes s) -> returns (run o s).
Proof.
  intros F T C. rewrite Forall_forall in T, C. destruct (run o s) eqn:E; auto; exfalso.
  - apply run_panics in E as [(t & Ht & Hc)|(f & e & Hf & He)]; [| |easy].
    + apply parse_crashes in Hc. destruct (T _ Ht) as [A B]. now apply ascii_no_panic in Hc.
    + destruct (C _ Hf e) as [[x Hx]|[x Hx]]; congruence.
  - apply run_ends in E as (f & e & Hf & He); [|easy]. destruct (C _ Hf e) as [[x Hx]|[x Hx]]; congruence.
Qed.
Lemma run_quiet s o : fair o -> texts s = [] -> changes s = [] -> returns (run o s).
Proof. intros F T C. apply run_ascii; [easy| |]; rewrite ?T, ?C; constructor. Qed.

Lemma bind_panic {A B} (x : outcome A) (f : A -> outcome B) : x <> Panic ->
  (bind x f = Panic <-> exists a, x = Ok a /\ f a = Panic).
Proof.
  intro H. destruct x as [a|e| |]; cbn; split; try easy.
  - intro E. now exists a.
  - intros (b & E & Hb). congruence.
  - now intros (b & E & _).
  - now intros (b & E & _).
Qed.
Lemma string_of_returns bs : returns (string_of bs).
Proof. unfold string_of. destruct (from_utf8 bs); auto. Qed.
Lemma read_to_end_returns l : returns (read_to_end l).
Proof.
  induction l as [|[[|b bs]| |] l IH]; cbn [read_to_end]; auto. apply returns_bind; auto.
Qed.
Lemma read_to_string_returns w p : returns (read_to_string w p).
Proof. unfold read_to_string. destruct (fs_denied w p); auto. destruct (lookup w p) as [[|bs]|]; auto using string_of_returns. Qed.
Lemma returns_not {A} (x : outcome A) : returns x -> x <> Panic.
Proof. now intros [[a ->]|[e ->]]. Qed.
Lemma from_panics s : (comment_from s = Panic <-> substring (lit "-->") s) /\ (cdata_from s = Panic <-> substring (lit "]]>") s).
Proof.
  unfold comment_from, cdata_from, comment_new, cdata_new.
  rewrite <- (contains_spec (lit "-->") s), <- (contains_spec (lit "]]>") s).
  destruct (contains (lit "-->") s), (contains (lit "]]>") s); cbn; easy.
Qed.
Lemma panicking_calls s :
  (parse_str s = Panic <-> crashes s) /\ (unescape s = Panic <-> unescapes s None) /\
  (comment_from s = Panic <-> substring (lit "-->") s) /\ (cdata_from s = Panic <-> substring (lit "]]>") s) /\
  (declaration_from_str s = Panic <-> exists w1 w2, ws w1 /\ ws w2 /\ s = w1 ++ lit "<?>" ++ w2) /\
  (forall l, parse_stream l = Panic <-> exists bs text, read_to_end l = Ok bs /\ string_of bs = Ok text /\ crashes text) /\
  (forall w p, parse_filepath w p = Panic <-> exists text, read_to_string w p = Ok text /\ crashes text).
Proof.
  split; [apply parse_crashes|]. split; [apply unescape_exact|]. split; [apply from_panics|]. split; [apply from_panics|].
  split; [apply declaration_panics|]. split.
  - intro l. unfold parse_stream. rewrite bind_panic by apply returns_not, read_to_end_returns. split.
    + intros (bs & Hb & H). apply bind_panic in H as (t & Ht & H); [|apply returns_not, string_of_returns].
      exists bs, t. now rewrite <- parse_crashes.
    + intros (bs & t & Hb & Ht & H). exists bs. split; [easy|]. rewrite Ht. now apply parse_crashes.
  - intros w p. unfold parse_filepath. rewrite bind_panic by apply returns_not, read_to_string_returns.
    split; intros (t & Ht & H); exists t; (split; [easy|]); now apply parse_crashes.
Qed.
Lemma constructors_return nm t a x p l s :
  returns (element_new nm t a x p l) /\ returns (new_from_name nm) /\ returns (comment_new s) /\ returns (cdata_new s) /\
  (forall old, returns (fst (comment_set_content old s)) /\ returns (fst (cdata_set_text old s))) /\
  returns (dtd_from_string s) /\ returns declaration_new.
Proof.
  split; [apply element_new_returns|]. split; [apply new_from_name_returns|].
  unfold comment_new, cdata_new, comment_set_content, cdata_set_text.
  split; [destruct (contains _ s); auto|]. split; [destruct (contains _ s); auto|].
  split; [intro; split; destruct (contains _ s); cbn; auto|]. split; [|left; eexists; vm_compute; reflexivity].
  exact (dtd_returns s).
Qed.
Lemma update_first_returns n f l : (forall c, returns (f c)) -> returns (update_first_named n f l).
Proof.
  intro H. induction l as [|x l IH]; cbn [update_first_named]; [auto|].
  destruct x; try (apply returns_bind; auto). destruct (str_eqb (name _) n); apply returns_bind; auto.
Qed.
Lemma changing_returns e n l i t k v m p q :
  returns (append e n) /\ returns (append_all e l) /\ returns (insert e i n) /\ returns (set_text e t) /\
  returns (fst (set_attr e k v)) /\ returns (remove e i) /\ returns (remove_element e i) /\
  returns (remove_by e p) /\ returns (remove_all p e) /\ returns (remove_all_elements q e) /\
  returns (remove_elements e q) /\ returns (remove_elements_by_name e m) /\
  (forall f, (forall c, returns (f c)) -> returns (first_element_by_name_mut e m f)).
Proof.
  split; [apply append_returns|]. split; [apply append_all_returns|]. split; [apply insert_returns|].
  split; [rewrite set_text_eq; auto|]. split; [apply set_attr_returns|]. split; [apply remove_returns|].
  split; [apply remove_element_returns|]. split; [rewrite remove_by_eq; auto|].
  split; [destruct (remove_all_pruned p e) as (l' & c & E & _); rewrite E; auto|].
  split; [rewrite remove_all_elements_eq; destruct (remove_all_pruned (elem_pred q) e) as (l' & c & E & _); rewrite E; auto|].
  split; [rewrite remove_elements_eq; auto|].
  split; [destruct (remove_elements_by_name_spec e m) as (e' & c & E & _); rewrite E; auto|].
  intros f H. apply returns_bind; [now apply update_first_returns|auto].
Qed.
Lemma looking_returns e n n' m p q r :
  returns (first_element_by_name e m) /\ returns (search_elements e q) /\ returns (search_elements_by_name e m) /\
  returns (search_text e p) /\ returns (search_comments e r) /\
  returns (as_element n) /\ returns (as_text n) /\ returns (as_comment n) /\ returns (as_cdata n) /\
  returns (node_type_of n) /\ returns (clone_node_lit n) /\ returns (node_eq n n') /\ (forall e', returns (elem_eq_lit e e')).
Proof.
  split; [apply first_named_returns|]. split; [rewrite search_elements_eq; auto|].
  split; [unfold search_elements_by_name; rewrite search_elements_eq; auto|].
  split; [rewrite search_text_eq; auto|]. split; [rewrite search_comments_eq; auto|].
  do 4 (split; [destruct n; cbn; auto|]). split; [destruct n; cbn; auto|].
  split; [rewrite clone_node_lit_eq; auto|]. split; [rewrite node_eq_eq; auto|]. intro e'. rewrite elem_eq_lit_eq. auto.
Qed.
Lemma write_all_returns l : forall bs, returns (snd (write_all l bs)).
Proof.
  induction l as [|[[|k]| |] l IH]; intros [|b bs]; cbn [write_all snd]; auto.
  destruct (write_all l (skipn (S k) (b :: bs))) as [w r] eqn:E. cbn [snd]. specialize (IH (skipn (S k) (b :: bs))).
  now rewrite E in IH.
Qed.
Lemma create_dirs_returns rest : forall w done, returns (snd (create_dirs w done rest)).
Proof.
  induction rest as [|c rest IH]; intros w done; cbn [create_dirs snd]; auto.
  destruct (lookup w (done ++ [c])) as [[|]|]; cbn [snd]; auto. destruct (fs_denied _ _); cbn [snd]; auto.
Qed.
Lemma fs_write_returns w p bs : returns (snd (fs_write w p bs)).
Proof.
  unfold fs_write. destruct (fs_denied w p); cbn [snd]; auto.
  destruct (lookup w p) as [[|]|]; cbn [snd]; auto; (destruct (parent p); cbn [snd]; auto);
    (destruct (lookup w _) as [[|]|]; cbn [snd]; auto);
    pose proof (write_all_returns (fs_disk w) bs) as H; now destruct (write_all _ _).
Qed.
Lemma writing_returns d out w p ind :
  returns (snd (write_to_file_with_indent d out ind)) /\ returns (snd (write_to_file d out)) /\
  returns (snd (write_to_filepath_with_indent d w p ind)) /\ returns (snd (write_to_filepath d w p)).
Proof.
  assert (forall i, returns (snd (write_to_filepath_with_indent d w p i))) as H.
  { intro i. unfold write_to_filepath_with_indent. destruct (parent p) as [dir|].
    - pose proof (create_dirs_returns dir w []) as H. unfold create_dir_all. destruct (create_dirs w [] dir) as [w1 r].
      destruct H as [[[] E]|[x E]]; cbn [snd] in E; subst r; [apply fs_write_returns|cbn [snd]; auto].
    - apply fs_write_returns. }
  split; [apply write_all_returns|]. split; [apply write_all_returns|]. split; apply H.
Qed.

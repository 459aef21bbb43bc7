(** Property C98: a stderr that cannot be written. *)
From Coq Require Import List NArith Arith Bool Ascii String Lia.
From Verif Require Import Base BaseFacts Dom Spec SpecDom Parse SpecLex SpecParse SpecDoc ParseFacts DocFacts AcceptFacts P_Parse SpecErr Files SpecFiles FilesFacts Warn SpecWarn WarnFacts Stderr SpecStderr StderrFacts Broken SerFacts.
Import ListNotations.
Local Open Scope nat_scope.

(** ** Facts *)

Lemma print_all_spec {A M} : forall (ms : list M) k (r : outcome A),
  (List.length ms <= k -> print_all k ms r = r) /\ (k < List.length ms -> print_all k ms r = Panic).
Proof.
  induction ms as [|m ms IH]; intros k r; cbn [List.length]; [split; [reflexivity|lia]|]. destruct k as [|k]; cbn [print_all].
  - split; [lia|reflexivity].
  - destruct (IH k r) as [A1 A2]. split; intro H; [apply A1|apply A2]; lia.
Qed.
(** A text with [n] tags that are ignored. *)
Definition ignored (n : nat) : list (str * str) := repeat ([], forged []) n.
Definition ignored_text (n : nat) : str := flat_map (fun x => fst x ++ snd x) (ignored n) ++ lit "<a/>".
Lemma ignored_S n : ignored (S n) = ignored n ++ [([], forged [])].
Proof. exact (repeat_cons n ([], forged [])). Qed.
Lemma no_end : ~ substring (lit "]]>") [].
Proof. intros (a & b & E). destruct a; discriminate E. Qed.
Lemma ignored_lexed n rest : lexed (flat_map (fun x => fst x ++ snd x) (ignored n) ++ rest) (ignored n) rest.
Proof.
  induction n as [|n IH]; [constructor|]. cbn [ignored repeat flat_map fst snd app]. fold (ignored n).
  rewrite <- app_assoc. eapply (lx_tag []); [easy|apply forged_at, no_end|exact IH].
Qed.
Lemma ignored_prolog n : forall st p c decl dtds, prolog st p c decl dtds (ignored n) decl dtds.
Proof.
  induction n as [|n IH]; intros st p c decl dtds; [constructor|]. cbn [ignored repeat]. apply pg_other; [constructor|eexists; reflexivity|intros [x E]; discriminate E|intros [x E]; discriminate E|apply IH].
Qed.
Lemma lexed_join s toks r : lexed s toks r -> forall toks' rest, lexed r toks' rest -> lexed s (toks ++ toks') rest.
Proof.
  induction 1 as [|txt s t rest toks tail N T L IH]; intros toks' rest' H; cbn [app]; [exact H|]. now apply (lx_tag txt s t rest); [..|apply IH].
Qed.
Lemma ignored_accepted n : exists d, parse_str (ignored_text n) = Ok d.
Proof.
  assert (A : exists d, accepts (ignored_text n) d).
  { eexists. eapply (ac _ (ignored n) [] (lit "<a/>") []).
    - unfold ignored_text. eapply lexed_join; [apply ignored_lexed|].
      apply (lx_tag [] (lit "<a/>") (lit "<a/>") []); [easy|exact a_at|constructor].
    - apply ignored_prolog.
    - constructor.
    - split; [intros [x E]; discriminate E|]. split; [intros [x E]; discriminate E|]. split; [intros [x E]; discriminate E|]. vm_compute. reflexivity.
    - vm_compute. reflexivity.
    - vm_compute. reflexivity.
    - split; [constructor|easy].
    - intros _. split; reflexivity.
    - intro N. destruct N. exists (lit "<a"). reflexivity.
    - reflexivity. }
  destruct A as [d A]. destruct (parse_str_result (ignored_text n)) as [d' _|x N|_ N]; [now exists d'|now destruct (N d)|now destruct (N d)].
Qed.
Lemma ignored_reads s m : s = flat_map (fun x => fst x ++ snd x) (ignored m) ++ lit "<a/>" -> forall n k, n + k = m ->
  reads s (Before (ignored n)) (flat_map (fun x => fst x ++ snd x) (ignored k) ++ lit "<a/>").
Proof.
  intros Es n. induction n as [|n IH]; intros k E.
  - cbn in E. subst k. rewrite <- Es. constructor.
  - assert (R := IH (S k) ltac:(lia)). cbn [ignored repeat flat_map fst snd app] in R. fold (ignored k) in R. rewrite <- app_assoc in R.
    rewrite ignored_S.
    eapply rd_prolog; [exact R|split; [reflexivity|split; [easy|apply forged_at, no_end]]|constructor|].
    split; [left; eexists; reflexivity|]. split; [intros [x B]; discriminate B|]. intros [[x B] _]. discriminate B.
Qed.
Lemma ignored_warns n : forall more l, warns (ignored n ++ more) l -> n <= List.length l.
Proof.
  intros more. induction more as [|x more IH] using rev_ind; intros l W.
  - rewrite app_nil_r in W. revert l W. induction n as [|n IHn]; intros l W; [lia|].
    rewrite ignored_S in W.
    inversion W as [E|toks txt t l1 l2 W1 W2 E]; [now destruct (ignored n)|]. apply app_inj_tail in E as [-> E]. injection E as -> ->.
    apply IHn in W1. rewrite app_length. destruct W2 as [what [[y B] _] _|_ _ _|[y B] _|[y B]|[y B]]; try discriminate B. cbn [List.length]. lia.
  - rewrite app_assoc in W. inversion W as [E|toks txt t l1 l2 W1 W2 E]; [now destruct (ignored n ++ more)|].
    apply app_inj_tail in E as [-> _]. apply IH in W1. rewrite app_length. lia.
Qed.
Lemma ignored_many n : n <= List.length (fst (parse_str_w (ignored_text n))).
Proof.
  destruct (parse_w_warns (ignored_text n)) as (toks & [_ M] & W).
  destruct (M _ _ (ignored_reads (ignored_text n) n eq_refl n 0 ltac:(lia))) as [more ->]. now apply ignored_warns in W.
Qed.
Lemma ignored_ascii n : Forall ascii (ignored_text n).
Proof.
  assert (K : forall l, forallb (fun c => (c <? 128)%N) l = true -> Forall ascii l).
  { intros l F. apply Forall_forall. intros c Hc. rewrite forallb_forall in F. apply F in Hc. now apply N.ltb_lt. }
  unfold ignored_text. apply Forall_app. split; [|apply K; reflexivity]. induction n as [|n IH]; [constructor|]. cbn [ignored repeat flat_map fst snd app].
  apply Forall_app. split; [apply K; reflexivity|exact IH].
Qed.

(** ** C98 *)

(** Reading gives the same result if all warnings can be written, and panics otherwise. *)
Theorem C98_parse : forall s toks l k, prolog_tags s toks -> warns toks l ->
  (List.length l <= k -> parse_str_on k s = parse_str s) /\ (k < List.length l -> parse_str_on k s = Panic).
Proof.
  intros s toks l k P W. pose proof (parse_warnings s toks P) as W'. rewrite (warns_fun _ _ _ W W').
  unfold parse_str_on. rewrite <- (parse_w_result s). apply print_all_spec.
Qed.
Theorem C98_file : forall w p s toks l k, text_ok s -> lookup w p = Some (File (utf8 s)) -> fs_denied w p = false ->
  prolog_tags s toks -> warns toks l ->
  (List.length l <= k -> parse_filepath_on k w p = parse_filepath w p) /\ (k < List.length l -> parse_filepath_on k w p = Panic).
Proof.
  intros w p s toks l k T L D P W. unfold parse_filepath_on, parse_filepath, read_to_string. rewrite D, L, string_of_utf8 by exact T. cbn [bind]. exact (C98_parse s toks l k P W).
Qed.
Theorem C98_stream : forall r s toks l k, text_ok s -> delivers r (utf8 s) -> prolog_tags s toks -> warns toks l ->
  (List.length l <= k -> parse_stream_on k r = parse_stream r) /\ (k < List.length l -> parse_stream_on k r = Panic).
Proof.
  intros r s toks l k T D P W. unfold parse_stream_on, parse_stream. apply read_delivers in D. rewrite D. cbn [bind]. rewrite string_of_utf8 by exact T. cbn [bind]. exact (C98_parse s toks l k P W).
Qed.
(** However many messages can be written, there is a text of ASCII characters that is
    accepted otherwise and makes reading panic. *)
Theorem C98_panics : forall k, exists s d, Forall ascii s /\ parse_str s = Ok d /\ parse_str_on k s = Panic.
Proof.
  intro k. destruct (ignored_accepted (S k)) as [d A]. exists (ignored_text (S k)), d. split; [apply ignored_ascii|]. split; [exact A|].
  unfold parse_str_on. apply print_all_spec. pose proof (ignored_many (S k)). lia.
Qed.
(** Writing panics only because of an indent that is neither a tab nor spaces. *)
Theorem C98_document : forall k d i,
  (good_indent i \/ 0 < k -> doc_to_string_on k d i = Ok (doc_to_string_with_indent d i)) /\
  (~ good_indent i -> doc_to_string_on 0 d i = Panic).
Proof.
  intros k d i. destruct (doc_to_string_w_spec d i) as (R & G & B). unfold doc_to_string_on. rewrite R. split; [|intro H; now rewrite (B H)].
  intro H. apply print_all_spec. assert (D : good_indent i \/ ~ good_indent i).
  { destruct (validate_indent i) eqn:V; [left; now apply validate_indent_spec|right; now apply validate_indent_false]. }
  destruct D as [D|D]; [rewrite (G D); cbn; lia|]. rewrite (B D). cbn. destruct H; [easy|lia].
Qed.
Theorem C98_element : forall k e i,
  (good_indent i \/ 0 < k -> elem_to_string_on k e i = Ok (elem_to_string_with_indent e i)) /\
  (~ good_indent i -> elem_to_string_on 0 e i = Panic).
Proof.
  intros k e i. destruct (elem_to_string_w_spec e i) as (R & G & B). unfold elem_to_string_on. rewrite R. split; [|intro H; now rewrite (B H)].
  intro H. apply print_all_spec. assert (D : good_indent i \/ ~ good_indent i).
  { destruct (validate_indent i) eqn:V; [left; now apply validate_indent_spec|right; now apply validate_indent_false]. }
  destruct D as [D|D]; [rewrite (G D); cbn; lia|]. rewrite (B D). cbn. destruct H; [easy|lia].
Qed.
(** Such a panic comes before the file is opened, so files stay as they were; only the
    directories above the file may have been created. *)
Theorem C98_save : forall k d w p i,
  (good_indent i \/ 0 < k -> write_to_filepath_on k d w p i = write_to_filepath_with_indent d w p i) /\
  (~ good_indent i -> forall w' r, write_to_filepath_on 0 d w p i = (w', r) -> (r = Panic \/ r = Err IOError) /\
    (forall q e, lookup w q = Some e -> lookup w' q = Some e) /\
    (forall q, lookup w q = None -> lookup w' q = None \/ (lookup w' q = Some Dir /\ exists b, removelast p = q ++ b))).
Proof.
  intros k d w p i. destruct (C98_document k d i) as [G B]. split.
  - intro H. unfold write_to_filepath_on, write_to_filepath_with_indent. now rewrite (G H).
  - intros H w' r E. unfold write_to_filepath_on in E. rewrite (B H) in E. unfold parent in E. destruct p as [|c p].
    + injection E as <- <-. split; [now left|]. split; [easy|]. intros q Hq. now left.
    + unfold create_dir_all in E. destruct (create_dirs w [] (removelast (c :: p))) as [w1 r1] eqn:C. pose proof (create_dirs_spec _ _ _ _ _ C) as (R & _ & _ & K1 & K2 & _).
      assert (K : w' = w1 /\ (r = Panic \/ r = Err IOError)) by (destruct R as [-> | ->]; injection E as <- <-; tauto).
      destruct K as [-> K]. split; [exact K|]. split; [exact K1|]. intros q Hq. destruct (K2 q Hq) as [N|(N & a & b & _ & Eb & Eq)]; [now left|].
      right. split; [exact N|]. exists b. cbn [app] in Eq. now subst q.
Qed.
(** Nothing is written to a stream. *)
Theorem C98_write : forall k d out i,
  (good_indent i \/ 0 < k -> write_to_file_on k d out i = write_to_file_with_indent d out i) /\
  (~ good_indent i -> write_to_file_on 0 d out i = ([], Panic)).
Proof.
  intros k d out i. destruct (C98_document k d i) as [G B]. unfold write_to_file_on, write_to_file_with_indent. split; intro H; [now rewrite (G H)|now rewrite (B H)].
Qed.

Example C98_example :
  parse_str_on 0 (lit "<!-- c --><a/>") = Panic /\ (exists d, parse_str_on 1 (lit "<!-- c --><a/>") = Ok d) /\
  (exists d, parse_str_on 0 (lit "<?xml version='1.0'?><a><!-- c --></a>") = Ok d) /\
  parse_str_on 1 (lit "<!-- c --><!ELEMENT a ANY><a/>") = Panic.
Proof.
  split; [vm_compute; reflexivity|]. split; [eexists; vm_compute; reflexivity|]. split; [eexists; vm_compute; reflexivity|]. vm_compute. reflexivity.
Qed.
Example C98_example_save :
  write_to_filepath_on 0 (mkDoc None [] (mkElem (lit "a") [] [] None None [])) (mkFs [([lit "f"], File [60%N])] (fun _ => false) []) [lit "f"] (lit "x") =
  (mkFs [([lit "f"], File [60%N])] (fun _ => false) [], Panic).
Proof. vm_compute. reflexivity. Qed.
Print Assumptions C98_parse.
Print Assumptions C98_file.
Print Assumptions C98_stream.
Print Assumptions C98_panics.
Print Assumptions C98_document.
Print Assumptions C98_element.
Print Assumptions C98_save.
Print Assumptions C98_write.

(** Property C86: which elements can be told apart by calls.  The calls, and what it
    means not to be told apart, are defined in SpecTell.v. *)
From Coq Require Import List NArith Arith Bool Ascii String Lia Permutation.
From Verif Require Import Base Escape Dom BaseFacts Spec SpecDom SpecApi SpecTree DomFacts ApiFacts SerFacts Parse SpecMade MadeFacts MadeDoc
  Orders SpecOrders OrdersFacts SpecTell TellFacts.
Import ListNotations.

(** Elements are told apart by no calls exactly if they are the same trees up to the
    order of attributes, tables of prefixes included. *)
Theorem C86_exact : forall e e', elem_ok e -> elem_ok e' -> (not_told_apart (blind alike) e e' <-> alike e e').
Proof. exact told_exact. Qed.
(** Such elements stay so whatever is done to both. *)
Theorem C86_alike : forall cs e e', Forall (blind alike) cs -> alike e e' -> same_outcome alike (perform cs e) (perform cs e').
Proof. exact alike_calls. Qed.

(** In trees in which each prefix has its namespace, elements that are equal by [==]
    are not told apart by calls that bring in such trees only: all calls have equal
    results, or fail with the same error, ... *)
Theorem C86_equal : forall e e', equal_bound e e' -> not_told_apart (blind equal_bound) e e'.
Proof. intros e e' H cs Hc. eapply same_weaken; [|now apply equal_calls]. now intros a b (_ & _ & _ & _ & X). Qed.
(** ... and the results are again such trees. *)
Theorem C86_stay : forall cs e e', Forall (blind equal_bound) cs -> equal_bound e e' ->
  same_outcome equal_bound (perform cs e) (perform cs e').
Proof. exact equal_calls. Qed.

(** All elements that programs with one table of namespaces make are such trees
    (C85). *)
Theorem C86_made : forall K any e, joinable K -> (forall k, k_key K k -> no_declaration k) -> made K any e ->
  elem_ok e /\ bound e /\ equal_bound e e.
Proof.
  intros K any e J D M. destruct (is_made K any e J D M) as (U & O & _). split; [easy|].
  assert (bound e) as B. { clear M O. induction U as [e _ [_ Hp] _ _ _ _ _ IH]. now constructor. }
  split; [easy|]. repeat (split; [easy|]). now apply elem_eqb_refl.
Qed.
(** So in such programs equal elements stand for each other. *)
Theorem C86_programs : forall K any e e', joinable K -> (forall k, k_key K k -> no_declaration k) ->
  made K any e -> made K any e' -> elem_eqb e e' = true -> not_told_apart (blind equal_bound) e e'.
Proof.
  intros K any e e' J D M M' E. apply C86_equal. destruct (C86_made K any e J D M) as (O & B & _).
  destruct (C86_made K any e' J D M') as (O' & B' & _). now repeat (split; [easy|]).
Qed.

(** * Witnesses *)

Definition get (o : outcome elem) : elem := match o with Ok e => e | _ => mkElem [] [] [] None None [] end.
Definition root_of (s : str) : elem := match parse_str s with Ok d => root_element d | _ => mkElem [] [] [] None None [] end.

(** An element with a prefix, read from a document, and a new one with the same
    namespace: the tables differ, and yet no call brings that to light. *)
Definition read_one : elem := get (first_element_by_name (root_of (lit "<r xmlns:p='u' xmlns:q='v'><p:a k='1' l='2'><b/></p:a></r>")) (lit "a")).
Definition new_one : elem :=
  get (element_new (lit "a") None (Some [(lit "l", lit "2"); (lit "k", lit "1")]) (Some (lit "u")) (Some (lit "p"))
    (Some [NElem (get (new_from_name (lit "b")))])).
Ltac map_small := unfold map_ok; cbn [map fst]; repeat (constructor; [cbn [In]; intros Hi; repeat (destruct Hi as [Hi|Hi]; [discriminate Hi|]); contradiction|]); constructor.
Ltac small_ok := repeat (constructor; [cbn [e_attributes e_context]; map_small|cbn [e_attributes e_context]; map_small|cbn; intros ? Hin; repeat (destruct Hin as [Hin|Hin]; [try discriminate Hin; injection Hin as <-|]); try contradiction]).
Ltac small_bound := repeat (constructor; [now cbn|cbn; intros ? Hin; repeat (destruct Hin as [Hin|Hin]; [try discriminate Hin; injection Hin as <-|]); try contradiction]).
Example C86_example : equal_bound read_one new_one /\ ~ alike read_one new_one /\
  not_told_apart (blind equal_bound) read_one new_one /\
  blind equal_bound (call_append (NElem new_one)) /\ blind equal_bound (call_insert_into read_one 1) /\
  same_outcome equal_bound
    (perform [call_append (NElem new_one); call_insert_into read_one 1; call_remove 0; call_take 0] read_one)
    (perform [call_append (NElem new_one); call_insert_into read_one 1; call_remove 0; call_take 0] new_one).
Proof.
  assert (equal_bound read_one new_one) as H.
  { let x := eval vm_compute in read_one in change read_one with x. let x := eval vm_compute in new_one in change new_one with x.
    split; [small_ok|]. split; [small_ok|]. split; [small_bound|]. split; [small_bound|]. vm_compute. reflexivity. }
  assert (equal_bound read_one read_one /\ equal_bound new_one new_one) as [R N].
  { destruct H as (H1 & H2 & H3 & H4 & _). split; (repeat (split; [easy|])); now apply elem_eqb_refl. }
  split; [exact H|]. split.
  { intro A. apply alike_inv in A as (_ & _ & _ & _ & A & _). pose proof (same_map_get _ _ A (lit "q")) as X. vm_compute in X. discriminate X. }
  split; [now apply C86_equal|]. split; [exact N|]. split; [exact R|]. apply C86_stay; [|exact H].
  constructor; [exact N|]. constructor; [exact R|]. constructor; [exact I|]. constructor; [exact I|constructor].
Qed.

(** [==] alone is not enough: two elements that are equal, have the same text and the
    same hash are told apart by putting the same new element into both.  It has a
    prefix without namespace, and one of them has kept what the prefix meant in the
    document it was read from. *)
Theorem C86_equal_refuted : exists d a b x ea eb,
  parse_str (lit "<r xmlns:p='u'><a/></r>") = Ok d /\ first_element_by_name (root_element d) (lit "a") = Ok a /\
  new_from_name (lit "a") = Ok b /\ element_new (lit "x") None None None (Some (lit "p")) None = Ok x /\
  elem_eqb a b = true /\ elem_to_string_with_indent a (lit " ") = elem_to_string_with_indent b (lit " ") /\
  elem_hash_input a = elem_hash_input b /\
  append a (NElem x) = Ok ea /\ append b (NElem x) = Ok eb /\ elem_eqb ea eb = false /\
  map namespace (child_elements ea) = [Some (lit "u")] /\ map namespace (child_elements eb) = [None].
Proof.
  eexists _, _, _, _, _, _. split; [vm_compute; reflexivity|]. split; [vm_compute; reflexivity|].
  split; [vm_compute; reflexivity|]. split; [vm_compute; reflexivity|]. split; [vm_compute; reflexivity|].
  split; [vm_compute; reflexivity|]. split; [vm_compute; reflexivity|]. split; [vm_compute; reflexivity|].
  split; [vm_compute; reflexivity|]. split; [vm_compute; reflexivity|]. split; vm_compute; reflexivity.
Qed.
Print Assumptions C86_exact.
Print Assumptions C86_alike.
Print Assumptions C86_equal.
Print Assumptions C86_stay.
Print Assumptions C86_made.
Print Assumptions C86_programs.
Print Assumptions C86_equal_refuted.

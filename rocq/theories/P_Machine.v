(** Property C74: machine integers do not overflow. *)
From Coq Require Import List NArith ZArith Arith Bool Ascii String Lia.
From Verif Require Import Base Escape Dom Parse Machine SpecDom SpecLex SpecMachine BaseFacts MachineFacts.
Import ListNotations.

(** The integers of the model of the machine are those of Rust. *)
Theorem C74_integers : forall m,
  (forall a b, (N.of_nat a < words m)%N -> (N.of_nat b < words m)%N ->
     machine_int (checks m) 0 (Z.of_N (words m)) (Z.of_nat a + Z.of_nat b) (as_int (uadd m a b)) /\
     machine_int (checks m) 0 (Z.of_N (words m)) (Z.of_nat a - Z.of_nat b) (as_int (usub m a b))) /\
  (forall z, machine_int (checks m) (- 2 ^ 31) (2 ^ 31) z (i32 m z)).
Proof. exact machine_integers. Qed.

(** Parsing on a real machine gives what parsing with unbounded integers gives, with
    and without overflow checks, for every text that fits in memory and does not
    have 2^31 (without checks: 2^32) times the character '<'. *)
Theorem C74_parse : forall m s, real_machine m -> allocated m s -> few_angles m s ->
  parse_str_m m s = parse_str s.
Proof. exact parse_str_m_eq. Qed.
(** On a 32 bit machine, for every text that fits in memory. *)
Theorem C74_parse_32 : forall m s, words m = (2 ^ 32)%N -> allocated m s -> parse_str_m m s = parse_str s.
Proof. exact parse_str_32. Qed.
(** So the result is the same on all machines and in all builds. *)
Theorem C74_same_everywhere : forall m m' s, real_machine m -> real_machine m' -> allocated m s -> allocated m' s ->
  few_angles m s -> few_angles m' s -> parse_str_m m s = parse_str_m m' s.
Proof. intros m m' s H1 H2 H3 H4 H5 H6. now rewrite !parse_str_m_eq. Qed.

(** The rest of the API. *)
Theorem C74_unescape : forall m s, real_machine m -> allocated m s -> unescape_m m s = unescape s.
Proof. intros m s H A. apply unescape_m_eq. now apply allocated_room. Qed.
Theorem C74_append : forall m e n, append_m m e n = append e n.
Proof. exact append_m_eq. Qed.
Theorem C74_append_all : forall m e nodes, (N.of_nat (List.length (children e) + List.length nodes) < words m)%N ->
  append_all_m m e nodes = append_all e nodes.
Proof. exact append_all_m_eq. Qed.
Theorem C74_insert : forall m e i n, insert_m m e i n = insert e i n.
Proof. exact insert_m_eq. Qed.
Theorem C74_set_text : forall m e t, set_text_m m e t = set_text e t.
Proof. exact set_text_m_eq. Qed.
(** The number returned by [remove_all] does not overflow, as the nodes below an
    element fit in memory. *)
Theorem C74_remove_all : forall m p e, (N.of_nat (List.length (descendants e)) < words m)%N ->
  remove_all_m m p e = remove_all p e.
Proof. intros m p e. apply remove_all_m_eq. Qed.
Theorem C74_remove_all_elements : forall m p e, (N.of_nat (List.length (descendants e)) < words m)%N ->
  remove_all_elements_m m p e = remove_all_elements p e.
Proof. exact remove_all_elements_m_eq. Qed.

(** * Beyond the limit on '<' *)

Definition debug64 : machine := mkMachine (2 ^ 64) true.
Definition release64 : machine := mkMachine (2 ^ 64) false.
Definition release32 : machine := mkMachine (2 ^ 32) false.

Lemma nested_size n tail : blen (nested n tail) = 2 + n + blen tail.
Proof. unfold nested. rewrite !blen_app, blen_repeat. cbn. lia. Qed.
Lemma fits64 c n tail : (N.of_nat n <= 2 ^ 32)%N -> blen tail <= 10 -> allocated (mkMachine (2 ^ 64) c) (nested n tail).
Proof.
  unfold allocated. cbn [words]. rewrite nested_size. change (2 ^ 32)%N with 4294967296%N. change (2 ^ 64)%N with 18446744073709551616%N. lia.
Qed.
(** "<!" followed by 2^31 times '<' fits in memory; parsing panics with overflow
    checks, although there is just a tag without end. *)
Theorem C74_debug_refuted : forall n, N.of_nat n = (2 ^ 31)%N -> exists s x, s = lit "<!" ++ repeat lt_ n /\
  allocated debug64 s /\ parse_str_m debug64 s = Panic /\ parse_str s = Err x.
Proof.
  intros n H. exists (lit "<!" ++ repeat lt_ n), (perr PNoClose (nested n []) 0). split; [reflexivity|].
  replace (lit "<!" ++ repeat lt_ n) with (nested n []) by (unfold nested; now rewrite app_nil_r).
  split; [apply fits64; [rewrite H; now vm_compute|cbn; lia]|]. split.
  - apply checked_panics; [now vm_compute|reflexivity|now rewrite H].
  - apply nested_rejected; [|reflexivity]. change (2 ^ 31)%N with 2147483648%N in H. lia.
Qed.
(** Without overflow checks the '>' after 2^32 times '<' ends the tag, which is
    skipped; what follows is read as the document. *)
Theorem C74_release_refuted : forall n, N.of_nat n = (2 ^ 32)%N -> exists s d x,
  s = lit "<!" ++ repeat lt_ n ++ lit "><a/>" /\ allocated release64 s /\
  parse_str_m release64 s = Ok d /\ name (d_root d) = lit "a" /\ parse_str s = Err x.
Proof.
  intros n H. eexists (swallowed n), _, (perr PNoClose (swallowed n) 0). split; [reflexivity|].
  split; [apply fits64; [rewrite H; now vm_compute|cbn; lia]|]. split.
  - rewrite (wrapped_accepts release64 n eq_refl eq_refl H). vm_compute. reflexivity.
  - split; [reflexivity|]. change (2 ^ 32)%N with 4294967296%N in H. apply nested_rejected; [lia|].
    destruct n as [|[|[|n]]]; [discriminate H..|]. reflexivity.
Qed.
(** Such numbers exist. *)
Example C74_numbers : exists n, N.of_nat n = (2 ^ 31)%N.
Proof. exists (N.to_nat (2 ^ 31)). apply N2Nat.id. Qed.

Definition ex_text : str := lit "<!DOCTYPE a [<!ENTITY b '>'>]><!--x--><a b='&lt;'>x &amp; y<c/></a>".
Example C74_example : Forall (fun m => real_machine m /\ allocated m ex_text /\ few_angles m ex_text) [debug64; release64; release32] /\
  exists d, parse_str_m debug64 ex_text = Ok d /\ parse_str ex_text = Ok d /\ List.length (children (d_root d)) = 2.
Proof.
  split.
  - repeat constructor; now vm_compute.
  - eexists. repeat split; vm_compute; reflexivity.
Qed.
Example C74_remove_example : exists d e', parse_str ex_text = Ok d /\
  remove_all_m release32 (fun n => match n with NText _ => true | _ => false end) (d_root d) = Ok (e', 1) /\
  List.length (children e') = 1.
Proof. eexists _, _. split; [vm_compute; reflexivity|]. split; vm_compute; reflexivity. Qed.
Print Assumptions C74_integers.
Print Assumptions C74_parse.
Print Assumptions C74_parse_32.
Print Assumptions C74_same_everywhere.
Print Assumptions C74_unescape.
Print Assumptions C74_append.
Print Assumptions C74_append_all.
Print Assumptions C74_insert.
Print Assumptions C74_set_text.
Print Assumptions C74_remove_all.
Print Assumptions C74_remove_all_elements.
Print Assumptions C74_debug_refuted.
Print Assumptions C74_release_refuted.

(** C72: what closures handed to the API are asked, and what happens when they
    panic. *)
From Coq Require Import List NArith Arith Bool Ascii String Lia.
From Verif Require Import Base Dom SpecDom NodeFacts Calls SpecCalls CallsFacts.
Import ListNotations.

(** ** Searching *)

(** An iterator asks nothing beyond the item it gives. *)
Theorem C72_search_lazy : forall St (p : question St node) e st xs l st',
  pulls (search_next p) (search_start e) st xs l st' -> pulled p (all_children e) st xs l st'.
Proof. intros St p e st xs l st' H. rewrite all_children_eq. now apply pulls_pulled. Qed.
(** One call of [next]: it goes on from where it stopped, to the first value for
    which the answer is yes, to the end, or to the first panic; after a panic the
    iterator can be used again, and goes on behind the value in question. *)
Theorem C72_search_next : forall St (p : question St node) l st,
  (exists a x b st', search_next p l st = (Yields x, b, st') /\ l = a ++ [x] ++ b /\ asks p st (map (fun y => (y, false)) a ++ [(x, true)]) st') \/
  (exists st', search_next p l st = (Finished, [], st') /\ asks p st (map (fun y => (y, false)) l) st') \/
  (exists a x b st', search_next p l st = (Unwinds, b, st') /\ l = a ++ [x] ++ b /\ breaks p st (map (fun y => (y, false)) a) x st').
Proof. intros St p l st. apply filter_next_cases. Qed.
(** The searches for one kind of node do the same to the nodes of that kind, and
    ask about no others. *)
Theorem C72_search_kinds : forall St l (st : St),
  (forall p, exists i l' st', search_elements_next p l st = Ok (i, l', st') /\ filter_next p (elements_in l) st = (i, elements_in l', st')) /\
  (forall p, exists i l' st', search_text_next p l st = Ok (i, l', st') /\ filter_next p (texts_in l) st = (i, texts_in l', st')) /\
  (forall p, exists i l' st', search_comments_next p l st = Ok (i, l', st') /\ filter_next p (comments_in l) st = (i, comments_in l', st')).
Proof.
  intros St l st. split; [intro; apply search_elements_next_eq|]. split; intro; [apply search_text_next_eq|apply search_comments_next_eq].
Qed.

(** ** Removing children *)

(** [remove_by] asks about each child once, the last one first, and removes nothing
    before all have been asked about. If the closure panics, nothing is removed. *)
Theorem C72_remove_by : forall St (p : question St node) e st, exists e' r st',
  remove_by_st e p st = Ok (e', r, st') /\ only_children_change e e' /\
  ((exists t, asks p st t st' /\ map fst t = rev (children e) /\ children e' = rev (said_no t) /\ r = Some (List.length (said_yes t))) \/
   (exists t x rest, breaks p st t x st' /\ map fst t ++ [x] ++ rest = rev (children e) /\ e' = e /\ r = None)).
Proof.
  intros St p e st. unfold remove_by_st.
  destruct (remove_by_vec_cases p (e_children e) st) as [(t & st1 & -> & A & F)|(t & x & rest & st1 & -> & B & F)]; cbn [bind fst snd]; eexists _, _, st1; split; try reflexivity.
  - split; [now destruct e|]. left. exists t. split; [exact A|]. split; [exact F|]. split; [now destruct e|reflexivity].
  - split; [now destruct e|]. right. exists t, x, rest. split; [exact B|]. split; [now symmetry|]. split; [now destruct e|reflexivity].
Qed.
(** [remove_all] asks about everything once, in the order and with the exceptions of
    [protocol], and removes what [acted] says. *)
Theorem C72_remove_all : forall St (p : question St node) e st, exists e' r st' t stop k,
  remove_all_st p e st = Ok (e', r, st') /\ only_children_change e e' /\
  answers p (children e) st t stop st' /\ protocol (children e) t stop /\
  pruned_at (acted t stop) 0 (children e) (children e') k /\
  r = match stop with None => Some k | Some _ => None end.
Proof.
  intros St p e st. destruct (remove_all_good p e st) as (ch' & r & st' & E & t & stop & k & A & P & Q & R).
  exists (set_children e ch'), r, st', t, stop, k. split; [exact E|]. split; [now destruct e|]. split; [exact A|]. split; [exact P|]. split; [now destruct e|exact R].
Qed.
(** Nothing is asked about twice. *)
Theorem C72_protocol_once : forall l t stop, protocol l t stop -> NoDup (heard t stop).
Proof. exact protocol_nodup. Qed.
(** The calls for elements ask about elements only. *)
Theorem C72_elements : forall St (p : question St elem) e st,
  remove_elements_st e p st = remove_by_st e (elem_question p) st /\
  remove_all_elements_st p e st = remove_all_st (elem_question p) e st.
Proof. intros. split; [apply remove_elements_st_eq|apply remove_all_elements_st_eq]. Qed.
Theorem C72_elements_only : forall St (p : question St elem) t st st', asks (elem_question p) st t st' <->
  asks p st (element_part t) st' /\ forall n b, In (n, b) t -> (exists c, n = NElem c) \/ b = false.
Proof. intros. apply asks_elements. Qed.

(** ** Closures whose answer depends on the argument only *)

(** For these the calls are those of the other theorems (C16 to C18, C21). *)
Theorem C72_steady : forall St (p : question St node) f, steady p f -> forall e st,
  (exists e' k st', remove_by_st e p st = Ok (e', Some k, st') /\ remove_by e f = Ok (e', k)) /\
  (exists e' k st', remove_all_st p e st = Ok (e', Some k, st') /\ remove_all f e = Ok (e', k)).
Proof. intros. split; [now apply remove_by_steady|now apply remove_all_steady]. Qed.
Theorem C72_steady_elements : forall St (p : question St elem) f, steady p f -> forall e st,
  (exists e' k st', remove_elements_st e p st = Ok (e', Some k, st') /\ remove_elements e f = Ok (e', k)) /\
  (exists e' k st', remove_all_elements_st p e st = Ok (e', Some k, st') /\ remove_all_elements f e = Ok (e', k)).
Proof. exact steady_elements. Qed.

(** ** Examples *)

(** [<r>a<x><y/><z/></x><y/>b</r>] *)
Definition leaf (s : string) : node := NElem (mkElem (lit s) [] [] None None []).
Definition tree : elem :=
  mkElem (lit "r") [NText (lit "a"); NElem (mkElem (lit "x") [leaf "y"; leaf "z"] [] None None []); leaf "y"; NText (lit "b")] [] None None [].
(** The closure counts its calls, says yes to "y" and panics at call number [k]. *)
Definition counting (k : nat) : question nat node := fun n i =>
  if i =? k then Panics (S i) else Says (match n with NElem c => str_eqb (e_name c) (lit "y") | _ => false end) (S i).
Example C72_example :
  remove_all_st (counting 9) tree 0 =
    Ok (mkElem (lit "r") [NText (lit "a"); NElem (mkElem (lit "x") [leaf "z"] [] None None []); NText (lit "b")] [] None None [], Some 2, 6) /\
  search_next (counting 9) (search_start tree) 0 = (Yields (leaf "y"), [NText (lit "b"); leaf "y"; leaf "z"], 3).
Proof. split; vm_compute; reflexivity. Qed.
Example C72_steady_example : steady (fun n (log : list node) => Says (is_text n) (n :: log)) is_text.
Proof. intros n st. now eexists. Qed.
Example C72_pulls_example : pulls (search_next (counting 9)) (search_start tree) 0 [leaf "y"; leaf "y"] [leaf "z"] 5.
Proof. econstructor; [vm_compute; reflexivity|]. econstructor; [vm_compute; reflexivity|]. constructor. Qed.
(** "Remove the first child" with a closure that says yes once removes the last. *)
Theorem C72_first_refuted : exists (p : question bool node), (forall n b, p n b = Says (negb b) true) /\
  exists e', remove_by_st tree p false = Ok (e', Some 1, true) /\ children e' = removelast (children tree).
Proof. exists (fun _ b => Says (negb b) true). split; [easy|]. eexists. split; vm_compute; reflexivity. Qed.
(** After a panic inside [remove_all] part of the work has been done: here the child
    "y" is gone, but not the "y" inside "x", although the answer for it may have been
    yes: it is not removed before its siblings have been asked about. *)
Theorem C72_unwinding_refuted :
  remove_all_st (counting 4) tree 0 =
    Ok (mkElem (lit "r") [NText (lit "a"); NElem (mkElem (lit "x") [leaf "y"; leaf "z"] [] None None []); NText (lit "b")] [] None None [], None, 5) /\
  remove_all_st (counting 3) tree 0 = Ok (tree, None, 4).
Proof. split; vm_compute; reflexivity. Qed.
Print Assumptions C72_search_lazy.
Print Assumptions C72_search_next.
Print Assumptions C72_search_kinds.
Print Assumptions C72_remove_by.
Print Assumptions C72_remove_all.
Print Assumptions C72_protocol_once.
Print Assumptions C72_elements.
Print Assumptions C72_elements_only.
Print Assumptions C72_steady.
Print Assumptions C72_steady_elements.
Print Assumptions C72_first_refuted.
Print Assumptions C72_unwinding_refuted.

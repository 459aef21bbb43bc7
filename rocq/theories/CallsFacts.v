(** Facts about closures handed to the API. *)
From Coq Require Import List NArith Arith Bool Ascii String Lia Sorted.
From Verif Require Import Base Dom Spec SpecDom BaseFacts DomFacts Calls SpecCalls.
Import ListNotations.

Section Ask.
  Context {St A : Type} (p : question St A).
  Lemma asks_app st t st1 t2 st2 : asks p st t st1 -> asks p st1 t2 st2 -> asks p st (t ++ t2) st2.
  Proof. induction 1 as [|x b st sta t stb E H IH]; intro K; [easy|]. cbn [app]. econstructor; [exact E|]. now apply IH. Qed.
  Lemma asks_app_inv t : forall st t2 st2, asks p st (t ++ t2) st2 -> exists st1, asks p st t st1 /\ asks p st1 t2 st2.
  Proof.
    induction t as [|[x b] t IH]; intros st t2 st2 H; [exists st; split; [constructor|easy]|].
    cbn [app] in H. inversion H as [|? ? ? sta ? ? E K]; subst. apply IH in K. destruct K as (st1 & K1 & K2). exists st1. split; [|easy]. econstructor; eassumption.
  Qed.
  Lemma asks_det st t st1 : asks p st t st1 -> forall st2, asks p st t st2 -> st1 = st2.
  Proof. induction 1 as [|x b st sta t stb E H IH]; intros st2 K; inversion K as [|? ? ? stc ? ? E2 K2]; subst; [easy|]. apply IH. congruence. Qed.

  Lemma filter_next_cases l : forall st,
    (exists a x b st', filter_next p l st = (Yields x, b, st') /\ l = a ++ x :: b /\ asks p st (map (fun y => (y, false)) a ++ [(x, true)]) st') \/
    (exists st', filter_next p l st = (Finished, [], st') /\ asks p st (map (fun y => (y, false)) l) st') \/
    (exists a x b st', filter_next p l st = (Unwinds, b, st') /\ l = a ++ x :: b /\ breaks p st (map (fun y => (y, false)) a) x st').
  Proof.
    induction l as [|x l IH]; intro st.
    - right; left. exists st. split; [easy|constructor].
    - cbn [filter_next]. destruct (p x st) as [[] st1|st1] eqn:E.
      + left. exists [], x, l, st1. split; [easy|]. split; [easy|]. econstructor; [exact E|constructor].
      + destruct (IH st1) as [(a & y & b & st' & F & -> & K)|[(st' & F & K)|(a & y & b & st' & F & -> & st2 & K & K2)]].
        * left. exists (x :: a), y, b, st'. split; [easy|]. split; [easy|]. cbn [map app]. econstructor; eassumption.
        * right; left. exists st'. split; [easy|]. cbn [map]. econstructor; eassumption.
        * right; right. exists (x :: a), y, b, st'. split; [easy|]. split; [easy|]. exists st2. split; [|easy]. cbn [map]. econstructor; eassumption.
      + right; right. exists [], x, l, st1. split; [easy|]. split; [easy|]. exists st. split; [constructor|easy].
  Qed.

  Lemma matching_core l : forall suf st,
    (exists t st' rm, asks p st t st' /\ map fst t = rev l /\ matching_st p (l ++ suf) (rev (seq 0 (List.length l))) st = Ok (Some rm, st') /\
       (forall suf', remove_indices (l ++ suf') rm = Ok (rev (said_no t) ++ suf')) /\ List.length rm = List.length (said_yes t)) \/
    (exists t x rest st', breaks p st t x st' /\ rev l = map fst t ++ x :: rest /\
       matching_st p (l ++ suf) (rev (seq 0 (List.length l))) st = Ok (None, st')).
  Proof.
    induction l as [|x l IH] using rev_ind; intros suf st.
    - left. exists [], st, []. repeat split; constructor.
    - rewrite app_length. cbn [List.length]. rewrite (rev_app_distr l [x]), seq_app, rev_app_distr. cbn [seq rev app plus].
      rewrite <- app_assoc. cbn [app matching_st]. rewrite vget_app. cbn [bind].
      destruct (p x st) as [b st1|st1] eqn:E.
      + destruct (IH (x :: suf) st1) as [(t & st' & rm & K & F & M & R & C)|(t & y & rest & st' & (st2 & K & K2) & F & M)]; rewrite M; cbn [bind fst snd option_map].
        * left. exists ((x, b) :: t), st', (if b then List.length l :: rm else rm). split; [econstructor; eassumption|]. split; [cbn [map fst]; now rewrite F|]. split; [reflexivity|].
          unfold said_no, said_yes in *. cbn [filter snd]. destruct b; cbn [negb].
          -- split; [|cbn [map List.length]; now rewrite C]. intro suf'. rewrite <- app_assoc. cbn [app remove_indices]. rewrite vremove_app. cbn [bind snd]. apply R.
          -- split; [|easy]. intro suf'. rewrite <- app_assoc. cbn [app map rev fst]. rewrite R, <- app_assoc. reflexivity.
        * right. exists ((x, b) :: t), y, rest, st'. split; [exists st2; split; [econstructor; eassumption|easy]|]. split; [cbn [map fst app]; now rewrite F|reflexivity].
      + right. exists [], x, (rev l), st1. split; [exists st; split; [constructor|easy]|]. split; reflexivity.
  Qed.
  Lemma remove_by_vec_cases l st :
    (exists t st', remove_by_vec_st p l st = Ok (rev (said_no t), Some (List.length (said_yes t)), st') /\ asks p st t st' /\ map fst t = rev l) \/
    (exists t x rest st', remove_by_vec_st p l st = Ok (l, None, st') /\ breaks p st t x st' /\ rev l = map fst t ++ x :: rest).
  Proof.
    unfold remove_by_vec_st. destruct (matching_core l [] st) as [(t & st' & rm & K & F & M & R & C)|(t & y & rest & st' & K & F & M)]; rewrite app_nil_r in M; rewrite M; cbn [bind fst snd].
    - left. exists t, st'. specialize (R []). rewrite !app_nil_r in R. rewrite R. cbn [bind]. rewrite C. now split.
    - right. exists t, y, rest, st'. now split.
  Qed.
End Ask.

(** * The literal equation of [remove_all] *)

Lemma vget_map {A B} (g : A -> B) l i : vget (map g l) i = match vget l i with Ok x => Ok (g x) | Err e => Err e | Panic => Panic | Fuel => Fuel end.
Proof. unfold vget. rewrite nth_error_map. now destruct (nth_error l i). Qed.
Lemma vremove_map {A B} (g : A -> B) l : forall i, vremove (map g l) i = do r <- vremove l i; Ok (g (fst r), map g (snd r)).
Proof. induction l as [|x l IH]; intros [|i]; try reflexivity. cbn [map vremove]. rewrite IH. now destruct (vremove l i). Qed.
Lemma remove_indices_map {A B} (g : A -> B) idx : forall l, remove_indices (map g l) idx = do r <- remove_indices l idx; Ok (map g r).
Proof. induction idx as [|i idx IH]; intro l; [reflexivity|]. cbn [remove_indices]. rewrite vremove_map. destruct (vremove l i); cbn [bind fst snd]; [apply IH|easy..]. Qed.
Section Eq.
  Context {St : Type} (p : question St node).
  Lemma matching_map {A} (g : node -> A) (f : A -> node) (G : forall x, f (g x) = x) l idx : forall st,
    matching_st (fun a => p (f a)) (map g l) idx st = matching_st p l idx st.
  Proof.
    induction idx as [|i idx IH]; intro st; [reflexivity|]. cbn [matching_st]. rewrite vget_map. destruct (vget l i) as [x| | |]; cbn [bind]; [|easy..].
    rewrite G. destruct (p x st) as [b st1|st1]; [|easy]. now rewrite IH.
  Qed.
  Lemma remove_by_vec_map {A} (g : node -> A) (f : A -> node) (G : forall x, f (g x) = x) l st :
    remove_by_vec_st (fun a => p (f a)) (map g l) st = do r <- remove_by_vec_st p l st; Ok (map g (fst (fst r)), snd (fst r), snd r).
  Proof.
    unfold remove_by_vec_st. rewrite map_length, matching_map by exact G. destruct (matching_st p l _ st) as [[[rm|] st']| | |]; cbn [bind fst snd]; try easy.
    rewrite remove_indices_map. now destruct (remove_indices l rm).
  Qed.
  Definition ann (c : node) : node * (St -> outcome (elem * option nat * St)) :=
    (c, match c with NElem c' => remove_all_st p c' | _ => fun _ => Panic end).
  Lemma remove_all_st_eq e st : remove_all_st p e st =
    do r <- remove_by_st e p st;
    match snd (fst r) with
    | None => Ok r
    | Some k =>
        do rec <- collect_st (map ann (e_children (fst (fst r)))) (snd r);
        Ok (set_children (fst (fst r)) (fst (fst rec)), option_map (plus k) (snd (fst rec)), snd rec)
    end.
  Proof.
    destruct e as [nm ch at_ ns px cx]. cbn [remove_all_st].
    match goal with |- bind (remove_by_vec_st _ ?x _) _ = _ => assert (x = map ann ch) as -> end.
    { induction ch as [|c ch IH]; [easy|]. cbn [map]. now rewrite IH. }
    rewrite (remove_by_vec_map ann fst) by easy. unfold remove_by_st. cbn [e_children set_children].
    destruct (remove_by_vec_st p ch st) as [[[l [k|]] st']| | |]; cbn [bind fst snd set_children e_children]; try easy.
    do 2 f_equal. rewrite map_map. cbn [ann fst]. now rewrite map_id.
  Qed.
End Eq.
Lemma remove_all_elements_st_eq {St} (p : question St elem) e st : remove_all_elements_st p e st = remove_all_st (elem_question p) e st.
Proof. rewrite remove_all_st_eq. reflexivity. Qed.

(** * Positions *)

Section Run.
  Context {St : Type} (p : question St node).

  Lemma answers_app l st t st1 t2 stop st2 : answers p l st t None st1 -> answers p l st1 t2 stop st2 -> answers p l st (t ++ t2) stop st2.
  Proof.
    intro H. remember None as o eqn:Eo. induction H as [st|st q n st' F E|st q n b sta t stop' st' F E H IH]; intro K; [easy|discriminate|].
    cbn [app]. econstructor; [exact F|exact E|]. now apply IH.
  Qed.
  Definition shift (i : nat) (x : position * bool) : position * bool := (i :: fst x, snd x).
  Lemma at_path_shift L i n q m : nth_error L i = Some n -> at_path (kids n) q = Some m -> at_path L (i :: q) = Some m.
  Proof. intros E F. cbn [at_path]. rewrite E. now destruct q. Qed.
  Lemma answers_shift L i n st t stop st' : nth_error L i = Some n -> answers p (kids n) st t stop st' ->
    answers p L st (map (shift i) t) (option_map (cons i) stop) st'.
  Proof.
    intro E. induction 1 as [st|st q m st' F K|st q m b sta t stop st' F K H IH]; cbn [map option_map].
    - constructor.
    - econstructor; [|exact K]. now apply (at_path_shift L i n).
    - unfold shift at 1. cbn [fst snd]. econstructor; [|exact K|exact IH]. now apply (at_path_shift L i n).
  Qed.
  Lemma answers_paths l st t stop st' : answers p l st t stop st' -> forall q, In q (heard t stop) -> exists n, at_path l q = Some n.
  Proof.
    induction 1 as [st|st q m st' F K|st q m b sta t stop st' F K H IH]; intros r I; cbn in I.
    - easy.
    - destruct I as [<-|[]]. now exists m.
    - destruct I as [<-|I]; [now exists m|]. now apply IH.
  Qed.

  (** One round of questions about the children. *)
  Fixpoint batch (i : nat) (bs : list bool) : list (position * bool) :=
    match bs with [] => [] | b :: r => batch (S i) r ++ [([i], b)] end.
  Fixpoint kept {A} (l : list A) (bs : list bool) : list A :=
    match l, bs with
    | x :: l', b :: bs' => if b then kept l' bs' else x :: kept l' bs'
    | _, _ => []
    end.
  Definition trues (bs : list bool) : nat := List.length (filter (fun b => b) bs).
  Definition replies {A} (t : list (A * bool)) : list bool := rev (map snd t).

  Lemma rev_said_no {A} l : forall t : list (A * bool), map fst t = rev l -> rev (said_no t) = kept l (replies t) /\ List.length (said_yes t) = trues (replies t) /\
    List.length (replies t) = List.length l.
  Proof.
    induction l as [|x l IH]; intros t E.
    - destruct t; [easy|discriminate].
    - cbn [rev] in E. destruct (exists_last (l := t)) as (t1 & [y b] & ->); [intros ->; now destruct (rev l)|].
      rewrite map_app in E. cbn [map fst] in E. apply app_inj_tail in E. destruct E as (E & ->).
      destruct (IH t1 E) as (A1 & A2 & A3). unfold replies, said_no, said_yes, trues in *. rewrite !filter_app, !map_app, !rev_app_distr. cbn [map rev app snd fst filter kept].
      destruct b; cbn [filter snd negb map rev app fst]; rewrite ?app_nil_r, ?app_length; cbn [List.length]; rewrite A1, A2, A3; repeat split; lia.
  Qed.
  Lemma asks_batch l : forall pre suf t st st', asks p st t st' -> map fst t = rev l ->
    answers p (pre ++ l ++ suf) st (batch (List.length pre) (replies t)) None st'.
  Proof.
    induction l as [|x l IH]; intros pre suf t st st' H E.
    - destruct t; [|discriminate]. inversion H; subst. constructor.
    - cbn [rev] in E. destruct (exists_last (l := t)) as (t1 & [y b] & ->); [intros ->; now destruct (rev l)|].
      rewrite map_app in E. cbn [map fst] in E. apply app_inj_tail in E. destruct E as (E & ->).
      apply asks_app_inv in H. destruct H as (st1 & H1 & H2). inversion H2 as [|? ? ? st2 ? ? Q H3]; subst. inversion H3; subst.
      unfold replies. rewrite map_app, rev_app_distr. cbn [map rev app snd batch].
      eapply answers_app.
      + specialize (IH (pre ++ [x]) suf t1 st st1 H1 E). rewrite <- app_assoc in IH. rewrite app_length, Nat.add_1_r in IH. exact IH.
      + econstructor; [|exact Q|constructor]. cbn [at_path]. now rewrite nth_error_app2, Nat.sub_diag by lia.
  Qed.
  Lemma batch_in bs : forall i q b, In (q, b) (batch i bs) <-> exists k, q = [i + k] /\ nth_error bs k = Some b.
  Proof.
    induction bs as [|c bs IH]; intros i q b; cbn [batch].
    - split; [easy|]. intros ([|k] & _ & K); discriminate.
    - rewrite in_app_iff, IH. split.
      + intros [(k & -> & K)|[K|[]]].
        * exists (S k). split; [f_equal; lia|easy].
        * injection K as <- <-. exists 0. split; [f_equal; lia|easy].
      + intros ([|k] & -> & K).
        * right. left. injection K as <-. do 2 f_equal. lia.
        * left. exists k. split; [f_equal; lia|easy].
  Qed.
  Lemma batch_heard bs i q : In q (map fst (batch i bs)) <-> exists k, q = [i + k] /\ k < List.length bs.
  Proof.
    rewrite in_map_iff. split.
    - intros ([r b] & <- & I). apply batch_in in I. destruct I as (k & -> & K). exists k. split; [easy|]. apply nth_error_Some. now rewrite K.
    - intros (k & -> & L). apply nth_error_Some in L. destruct (nth_error bs k) as [b|] eqn:E; [|easy]. exists ([i + k], b). split; [easy|]. apply batch_in. now exists k.
  Qed.
  Lemma sorted_app {A} (R : A -> A -> Prop) l1 l2 : StronglySorted R l1 -> StronglySorted R l2 -> (forall x y, In x l1 -> In y l2 -> R x y) -> StronglySorted R (l1 ++ l2).
  Proof.
    intros H1 H2 H. induction H1 as [|x l H1 IH F]; [easy|]. cbn [app]. constructor.
    - apply IH. intros a b I J. apply H; [now right|easy].
    - apply Forall_app. split; [easy|]. apply Forall_forall. intros y I. apply H; [now left|easy].
  Qed.
  Lemma batch_sorted bs : forall i, StronglySorted asked_before (map fst (batch i bs)).
  Proof.
    induction bs as [|c bs IH]; intro i; cbn [batch]; [constructor|]. rewrite map_app. apply sorted_app; [apply IH|repeat constructor|].
    intros x y I [<-|[]]. apply batch_heard in I. destruct I as (k & -> & _). cbn. lia.
  Qed.

  (** * Pruning *)

  Lemma pruned_at_ext cut i l l' k : pruned_at cut i l l' k -> forall cut', (forall q, cut q <-> cut' q) -> pruned_at cut' i l l' k.
  Proof.
    induction 1 as [cut i|cut i n l l' k C H IH|cut i n l l' k C N H IH|cut i e ch' l l' k1 k2 C H1 IH1 H2 IH2]; intros cut' X.
    - constructor.
    - constructor; [now apply X|now apply IH].
    - constructor; [intro K; now apply C, X|easy|now apply IH].
    - constructor; [intro K; now apply C, X| |now apply IH2]. apply IH1. intro q. apply X.
  Qed.
  Lemma set_children_same e : set_children e (e_children e) = e.
  Proof. now destruct e. Qed.
  Lemma pruned_at_id e : forall cut i, (forall q, ~ cut q) -> pruned_at cut i (e_children e) (e_children e) 0.
  Proof.
    induction e as [e IH] using elem_ind'. revert IH. generalize (e_children e) as l. clear e. intros l IH. induction l as [|n l IHl]; intros cut i N; [constructor|].
    assert (T : pruned_at cut (S i) l l 0) by (apply IHl; [intros c I; apply IH; now right|exact N]).
    destruct n as [c|t|t|t]; [|now constructor..].
    rewrite <- (set_children_same c) at 2. change 0 with (0 + 0). constructor; [apply N| |exact T]. apply (IH c); [now left|]. intro q. apply N.
  Qed.
  Lemma pruned_at_round l : forall bs i (cut : position -> Prop), List.length bs = List.length l ->
    (forall j b, nth_error bs j = Some b -> (cut [i + j] <-> b = true)) -> (forall j u, u <> [] -> ~ cut ((i + j) :: u)) ->
    pruned_at cut i l (kept l bs) (trues bs).
  Proof.
    induction l as [|n l IH]; intros [|b bs] i cut L B N; try discriminate; [constructor|].
    assert (T : pruned_at cut (S i) l (kept l bs) (trues bs)).
    { apply IH; [now injection L| |]; intros j; replace (S i + j) with (i + S j) by lia; [intros c E; now apply B|apply N]. }
    assert (B0 : cut [i] <-> b = true) by (specialize (B 0 b eq_refl); now rewrite Nat.add_0_r in B). cbn [kept]. unfold trues in *. cbn [filter]. destruct b.
    - cbn [List.length]. constructor; [now apply B0|exact T].
    - assert (C : ~ cut [i]) by (intro K; now apply B0 in K). destruct n as [c|t|t|t]; [|now constructor..].
      rewrite <- (set_children_same c) at 2. constructor 4 with (k1 := 0); [exact C| |exact T]. apply pruned_at_id. intros [|j q]; [exact C|]. specialize (N 0 (j :: q)). rewrite Nat.add_0_r in N. now apply N.
  Qed.

  (** * All of [remove_all] *)

  Definition good (l : list node) (st : St) (l' : list node) (r : option nat) (st' : St) : Prop :=
    exists t stop k, answers p l st t stop st' /\ protocol l t stop /\ pruned_at (acted t stop) 0 l l' k /\
      r = match stop with None => Some k | Some _ => None end.
  Lemma in_heard t stop q : In q (heard t stop) <-> (exists b, In (q, b) t) \/ stop = Some q.
  Proof.
    unfold heard. rewrite in_app_iff, in_map_iff. split.
    - intros [([r b] & <- & I)|I]; [left; now exists b|]. destruct stop; [|easy]. destruct I as [->|[]]. now right.
    - intros [(b & I)|E]; [left; now exists (q, b)|]. right. rewrite E. now left.
  Qed.
  Lemma shift_heard i t stop : heard (map (shift i) t) (option_map (cons i) stop) = map (cons i) (heard t stop).
  Proof. unfold heard. rewrite map_app, !map_map. f_equal. now destruct stop. Qed.
  Lemma shift_in i t q b : In (q, b) (map (shift i) t) <-> exists u, q = i :: u /\ In (u, b) t.
  Proof.
    rewrite in_map_iff. split.
    - intros ([u c] & E & I). injection E as <- <-. now exists u.
    - intros (u & -> & I). now exists (u, b).
  Qed.
  Lemma heard_app t1 t2 stop : heard (t1 ++ t2) stop = map fst t1 ++ heard t2 stop.
  Proof. unfold heard. now rewrite map_app, app_assoc. Qed.
  Lemma sorted_shift i l : StronglySorted asked_before l -> ~ In [] l -> StronglySorted asked_before (map (cons i) l).
  Proof.
    induction 1 as [|q l H IH F]; intro N; cbn [map]; constructor.
    - apply IH. intro I. apply N. now right.
    - apply Forall_map. rewrite Forall_forall in F |- *. intros r I. specialize (F r I). destruct q as [|a q]; [destruct N; now left|]. destruct r as [|b r]; [destruct N; now right|].
      cbn [asked_before]. right. split; [easy|exact F].
  Qed.
  Lemma at_path_nil l : at_path l [] = None.
  Proof. reflexivity. Qed.
  Lemma at_path_cons l i n u : nth_error l i = Some n -> u <> [] -> at_path l (i :: u) = at_path (kids n) u.
  Proof. intros E N. cbn [at_path]. rewrite E. now destruct u. Qed.

  (** The positions below the children, from the child with index [i] on. *)
  Definition lower (i : nat) (l : list node) (bs : list bool) (t : list (position * bool)) (stop : option position) : Prop :=
    StronglySorted asked_before (heard t stop) /\
    (forall q, In q (heard t stop) -> exists k u, q = (i + k) :: u /\ u <> []) /\
    forall k u, u <> [] -> (In ((i + k) :: u) (heard t stop) <->
      (exists n m, nth_error l k = Some n /\ nth_error bs k = Some false /\ at_path (kids n) u = Some m) /\
      (forall a r, u = a ++ r -> r <> [] -> ~ In ((i + k) :: a, true) t) /\
      (forall s, stop = Some s -> (i + k) :: u = s \/ asked_before ((i + k) :: u) s)).
  Definition lowered (i : nat) (l : list node) (bs : list bool) (t : list (position * bool)) (stop : option position) (l' : list node) (k : nat) : Prop :=
    forall cut : position -> Prop, (forall j b, nth_error bs j = Some b -> (cut [i + j] <-> b = true)) ->
      (forall j u, u <> [] -> (cut ((i + j) :: u) <-> acted t stop ((i + j) :: u))) -> pruned_at cut i l l' (trues bs + k).

  (** Nothing is asked about what is below the first child. *)
  Lemma lower_skip i n l b bs t stop : lower (S i) l bs t stop -> (b = true \/ kids n = []) -> lower i (n :: l) (b :: bs) t stop.
  Proof.
    intros (So & F & H) B. split; [exact So|]. split.
    - intros q I. destruct (F q I) as (k & u & -> & N). exists (S k), u. split; [f_equal; lia|easy].
    - intros [|k] u N.
      + split.
        * intro I. destruct (F _ I) as (k & v & E & _). injection E as E _. lia.
        * intros ((m & m' & E1 & E2 & E3) & _). cbn [nth_error] in E1, E2. injection E1 as <-. injection E2 as ->. destruct B as [B|B]; [discriminate|]. rewrite B in E3. destruct u as [|[|j] u]; discriminate.
      + replace (i + S k) with (S i + k) by lia. cbn [nth_error]. now apply H.
  Qed.
  Lemma lowered_skip i n l b bs t stop l' k : lowered (S i) l bs t stop l' k -> (b = true \/ forall e, n <> NElem e) ->
    lowered i (n :: l) (b :: bs) t stop (if b then l' else n :: l') k.
  Proof.
    intros H B cut C1 C2. assert (T : pruned_at cut (S i) l l' (trues bs + k)).
    { apply H; intros j; replace (S i + j) with (i + S j) by lia; [intros c E; now apply C1|apply C2]. }
    assert (B0 : cut [i] <-> b = true) by (specialize (C1 0 b eq_refl); now rewrite Nat.add_0_r in C1). unfold trues in *. cbn [filter]. destruct b.
    - cbn [List.length plus]. constructor; [now apply B0|exact T].
    - destruct B as [B|B]; [discriminate|]. constructor; [intro K; now apply B0 in K|easy|exact T].
  Qed.

  Lemma protocol_nonempty l t stop : protocol l t stop -> ~ In [] (heard t stop).
  Proof. intros (_ & H) I. apply H in I. destruct I as ((n & E) & _). discriminate. Qed.
  Lemma lower_stop i c l bs t s : protocol (e_children c) t (Some s) -> lower i (NElem c :: l) (false :: bs) (map (shift i) t) (Some (i :: s)).
  Proof.
    intro P. pose proof (protocol_nonempty _ _ _ P) as NE. destruct P as (So & H).
    assert (Ns : s <> []) by (intros ->; apply NE, in_heard; now right).
    change (Some (i :: s)) with (option_map (cons i) (Some s)). split; [rewrite shift_heard; now apply sorted_shift|]. split.
    - intros q I. rewrite shift_heard in I. apply in_map_iff in I. destruct I as (u & <- & I). exists 0, u. split; [f_equal; lia|]. intros ->. now apply NE.
    - intros k u N. rewrite shift_heard, in_map_iff. destruct k as [|k].
      + rewrite Nat.add_0_r. cbn [nth_error]. split.
        * intros (v & E & I). injection E as ->. apply H in I. destruct I as ((m & E) & A & B). split; [now exists (NElem c), m|]. split.
          -- intros a r E1 Nr J. apply shift_in in J. destruct J as (w & E2 & J). injection E2 as <-. now apply (A a r).
          -- cbn [option_map]. intros s' E1. injection E1 as <-. destruct (B s eq_refl) as [->|K]; [now left|right]. cbn [asked_before]. destruct u; [easy|]. destruct s; [easy|]. now right.
        * intros ((n & m & E1 & _ & E2) & A & B). injection E1 as <-. exists u. split; [easy|]. apply H. split; [now exists m|]. split.
          -- intros a r E1 Nr J. apply (A a r E1 Nr). apply shift_in. now exists a.
          -- intros s' E1. injection E1 as <-. destruct (B _ eq_refl) as [E1|K]; [injection E1 as ->; now left|right]. cbn [asked_before] in K. destruct u; [easy|]. destruct s; [easy|]. destruct K as [K|(_ & K)]; [lia|exact K].
      + split.
        * intros (v & E & _). injection E as E _. lia.
        * intros (_ & _ & B). exfalso. cbn [option_map] in B. destruct (B _ eq_refl) as [E1|K]; [injection E1 as E1 _; lia|]. cbn [asked_before] in K. destruct u; [easy|]. destruct s; [easy|]. lia.
  Qed.
  Lemma lower_more i c l bs t t2 stop : protocol (e_children c) t None -> lower (S i) l bs t2 stop -> lower i (NElem c :: l) (false :: bs) (map (shift i) t ++ t2) stop.
  Proof.
    intros P (So2 & F2 & H2). pose proof (protocol_nonempty _ _ _ P) as NE. destruct P as (So & H).
    assert (E0 : map fst (map (shift i) t) = map (cons i) (heard t None)) by (rewrite <- shift_heard; unfold heard; cbn [option_map]; now rewrite app_nil_r).
    assert (T2 : forall u b, ~ In (i :: u, b) t2).
    { intros u b J. destruct (F2 (i :: u)) as (k & v & E & _); [apply in_heard; left; now exists b|]. injection E as E _. lia. }
    split; [|split].
    - rewrite heard_app, E0. apply sorted_app; [now apply sorted_shift|exact So2|]. intros x y I J. apply in_map_iff in I. destruct I as (u & <- & I). destruct (F2 y J) as (k & v & -> & Nv).
      destruct u as [|a u]; [easy|]. destruct v as [|b v]; [easy|]. cbn [asked_before]. lia.
    - intros q I. rewrite heard_app, E0, in_app_iff, in_map_iff in I. destruct I as [(u & <- & I)|I].
      + exists 0, u. split; [f_equal; lia|]. now intros ->.
      + destruct (F2 q I) as (k & u & -> & N). exists (S k), u. split; [f_equal; lia|easy].
    - intros k u N. rewrite heard_app, E0, in_app_iff, in_map_iff. destruct k as [|k].
      + rewrite Nat.add_0_r. cbn [nth_error]. split.
        * intros [(v & E & I)|I]; [|destruct (F2 _ I) as (k & v & E & _); injection E as E _; lia]. injection E as ->. apply H in I. destruct I as ((m & E) & A & _). split; [now exists (NElem c), m|]. split.
          -- intros a r E1 Nr J. apply in_app_iff in J. destruct J as [J|J]; [|now apply T2 in J]. apply shift_in in J. destruct J as (w & E2 & J). injection E2 as <-. now apply (A a r).
          -- intros s ->. right. destruct (F2 s) as (k & v & -> & Nv); [apply in_heard; now right|]. cbn [asked_before]. destruct u; [easy|]. destruct v; [easy|]. lia.
        * intros ((n & m & E1 & _ & E2) & A & B). injection E1 as <-. left. exists u. split; [easy|]. apply H. split; [now exists m|]. split; [|easy].
          intros a r E1 Nr J. apply (A a r E1 Nr). apply in_app_iff. left. apply shift_in. now exists a.
      + replace (i + S k) with (S i + k) by lia. cbn [nth_error]. rewrite H2 by exact N. assert (X : forall v b, In (S i + k :: v, b) (map (shift i) t ++ t2) <-> In (S i + k :: v, b) t2).
        { intros v b. rewrite in_app_iff, shift_in. split; [|now right]. intros [(w & E & _)|J]; [injection E as E _; lia|exact J]. }
        split.
        * intros [(v & E & _)|(A & B & C)]; [injection E as E _; lia|]. split; [exact A|]. split; [|exact C]. intros a r E1 Nr J. apply X in J. now apply (B a r).
        * intros (A & B & C). right. split; [exact A|]. split; [|exact C]. intros a r E1 Nr J. apply (B a r E1 Nr), X, J.
  Qed.
  Lemma removelast_cons {A} (x : A) l : l <> [] -> removelast (x :: l) = x :: removelast l.
  Proof. now destruct l. Qed.
  Lemma lowered_stop i c l bs t s ch' k : List.length bs = List.length l -> protocol (e_children c) t (Some s) -> pruned_at (acted t (Some s)) 0 (e_children c) ch' k ->
    lowered i (NElem c :: l) (false :: bs) (map (shift i) t) (Some (i :: s)) (NElem (set_children c ch') :: kept l bs) k.
  Proof.
    intros L P Q cut C1 C2. pose proof (protocol_nonempty _ _ _ P) as NE. assert (Ns : s <> []) by (intros ->; apply NE, in_heard; now right).
    assert (C0 : ~ cut [i]) by (intro K; specialize (C1 0 false eq_refl); rewrite Nat.add_0_r in C1; now apply C1 in K).
    unfold trues. cbn [filter]. fold (trues bs). rewrite Nat.add_comm. constructor; [exact C0| |].
    - apply (pruned_at_ext (acted t (Some s))); [exact Q|]. intro q. destruct q as [|j q].
      + split; [|easy]. intros (I & _). exfalso. apply NE, in_heard. left. now exists true.
      + specialize (C2 0 (j :: q)). rewrite Nat.add_0_r in C2. rewrite C2 by easy. unfold acted. rewrite shift_in. split.
        * intros (I & J). split; [now exists (j :: q)|]. intros s' E. injection E as <-. rewrite !(removelast_cons i) by easy. intro K. injection K as K. now apply (J s).
        * intros ((u & E & I) & J). injection E as <-. split; [exact I|]. intros s' E. injection E as <-. intro K. apply (J (i :: s) eq_refl). rewrite !(removelast_cons i) by easy. now rewrite K.
    - apply pruned_at_round; [exact L| |].
      + intros j b E. replace (S i + j) with (i + S j) by lia. now apply C1.
      + intros j u N K. replace (S i + j) with (i + S j) in K by lia. apply C2 in K; [|exact N]. destruct K as (K & _). apply shift_in in K. destruct K as (v & E & _). injection E as E _. lia.
  Qed.
  Lemma lowered_more i c l bs t t2 stop ch' l' k k2 : protocol (e_children c) t None -> lower (S i) l bs t2 stop ->
    pruned_at (acted t None) 0 (e_children c) ch' k -> lowered (S i) l bs t2 stop l' k2 ->
    lowered i (NElem c :: l) (false :: bs) (map (shift i) t ++ t2) stop (NElem (set_children c ch') :: l') (k + k2).
  Proof.
    intros P (_ & F2 & _) Q R cut C1 C2. pose proof (protocol_nonempty _ _ _ P) as NE.
    assert (C0 : ~ cut [i]) by (intro K; specialize (C1 0 false eq_refl); rewrite Nat.add_0_r in C1; now apply C1 in K).
    assert (T2 : forall u b, ~ In (i :: u, b) t2).
    { intros u b J. destruct (F2 (i :: u)) as (k' & v & E & _); [apply in_heard; left; now exists b|]. injection E as E _. lia. }
    unfold trues. cbn [filter]. fold (trues bs). replace (trues bs + (k + k2)) with (k + (trues bs + k2)) by lia. constructor; [exact C0| |].
    - apply (pruned_at_ext (acted t None)); [exact Q|]. intro q. destruct q as [|j q].
      + split; [|easy]. intros (I & _). exfalso. apply NE, in_heard. left. now exists true.
      + specialize (C2 0 (j :: q)). rewrite Nat.add_0_r in C2. rewrite C2 by easy. unfold acted. rewrite in_app_iff, shift_in. split.
        * intros (I & J). split; [left; now exists (j :: q)|]. intros s ->. destruct (F2 s) as (k' & v & -> & Nv); [apply in_heard; now right|]. rewrite (removelast_cons i), (removelast_cons _ v) by easy. intro K. assert (Z : i = S i + k') by congruence. lia.
        * intros ([(u & E & I)|I] & J); [|now apply T2 in I]. injection E as <-. split; [exact I|easy].
    - apply R; intro j; replace (S i + j) with (i + S j) by lia; [intros b E; now apply C1|]. intros u N. rewrite C2 by exact N. unfold acted. rewrite in_app_iff, shift_in. split.
      + intros ([(v & E & _)|I] & J); [injection E as E _; lia|now split].
      + intros (I & J). split; [now right|exact J].
  Qed.
  Lemma below l : (forall c, In (NElem c) l -> forall st, exists ch' r st', remove_all_st p c st = Ok (set_children c ch', r, st') /\ good (e_children c) st ch' r st') ->
    forall bs pre st, List.length bs = List.length l ->
    exists l' st' t stop k, collect_st (map (ann p) (kept l bs)) st = Ok (l', match stop with None => Some k | Some _ => None end, st') /\
      answers p (pre ++ l) st t stop st' /\ lower (List.length pre) l bs t stop /\ lowered (List.length pre) l bs t stop l' k.
  Proof.
    induction l as [|n l IHl]; intros IH [|b bs] pre st L; try discriminate.
    - exists [], st, [], None, 0. split; [reflexivity|]. split; [constructor|]. split.
      + split; [constructor|]. split; [easy|]. intros k u N. split; [easy|]. intros ((m & m' & E & _) & _). destruct k; discriminate.
      + intros cut C1 C2. constructor.
    - assert (IHl' := IHl (fun c I => IH c (or_intror I)) bs (pre ++ [n])). rewrite app_length, Nat.add_1_r in IHl'. injection L as L. cbn [kept].
      assert (Skip : (b = true \/ forall e, n <> NElem e) -> forall st, exists l' st' t stop k,
        collect_st (map (ann p) (kept l bs)) st = Ok (l', match stop with None => Some k | Some _ => None end, st') /\
        answers p (pre ++ n :: l) st t stop st' /\ lower (List.length pre) (n :: l) (b :: bs) t stop /\
        lowered (List.length pre) (n :: l) (b :: bs) t stop (if b then l' else n :: l') k).
      { intros B st0. destruct (IHl' st0 L) as (l' & st' & t & stop & k & E & A & Lo & Lw). exists l', st', t, stop, k. split; [exact E|]. rewrite <- app_assoc in A. split; [exact A|]. split.
        - apply lower_skip; [exact Lo|]. destruct B as [->|B]; [now left|right]. destruct n; [now destruct (B e)|easy..].
        - now apply lowered_skip. }
      destruct b; [destruct (Skip (or_introl eq_refl) st) as (l' & st' & t & stop & k & K); now exists l', st', t, stop, k|].
      destruct n as [c|s|s|s]; cycle 1.
      1-3: match type of Skip with (?Q -> _) => assert (Nn : Q) by (right; intros ? Hn; discriminate Hn) end; destruct (Skip Nn st) as (l' & st' & t & stop & k & E & K); cbn [map ann collect_st]; rewrite E; cbn [bind fst snd]; eexists _, st', t, stop, k; split; [reflexivity|exact K].
      clear Skip. cbn [map ann collect_st]. destruct (IH c (or_introl eq_refl) st) as (ch' & r & st1 & E & t & stop & k & A & P & Q & ->). rewrite E. cbn [bind fst snd].
      assert (X : nth_error (pre ++ NElem c :: l) (List.length pre) = Some (NElem c)) by (now rewrite nth_error_app2, Nat.sub_diag by lia).
      pose proof (answers_shift _ _ _ _ _ _ _ X A) as A'. destruct stop as [s|]; cbn [option_map] in A'.
      + exists (NElem (set_children c ch') :: kept l bs), st1, (map (shift (List.length pre)) t), (Some (List.length pre :: s)), k. split.
        * do 4 f_equal. rewrite map_map. cbn [ann fst]. apply map_id.
        * split; [exact A'|]. split; [now apply lower_stop|now apply lowered_stop].
      + destruct (IHl' st1 L) as (l' & st' & t2 & stop2 & k2 & E2 & A2 & Lo & Lw). rewrite E2. cbn [bind fst snd]. rewrite <- app_assoc in A2.
        exists (NElem (set_children c ch') :: l'), st', (map (shift (List.length pre)) t ++ t2), stop2, (k + k2). split; [now destruct stop2|].
        split; [now apply (answers_app _ _ _ st1)|]. split; [now apply lower_more|now apply lowered_more].
  Qed.
  (** Everything together. *)
  Lemma remove_all_good e : forall st, exists ch' r st', remove_all_st p e st = Ok (set_children e ch', r, st') /\ good (e_children e) st ch' r st'.
  Proof.
    induction e as [e IH] using elem_ind'. intro st. rewrite remove_all_st_eq. unfold remove_by_st.
    destruct (remove_by_vec_cases p (e_children e) st) as [(t & st1 & -> & A & F)|(t & x & rest & st1 & -> & (st0 & A & Px) & F)]; cbn [bind fst snd].
    - destruct (rev_said_no _ _ F) as (-> & -> & L). pose proof (asks_batch (e_children e) [] [] t st st1 A F) as B. rewrite app_nil_r in B. cbn [app List.length] in B.
      revert B. generalize (replies t) as bs, L. clear t A F L. intros bs L B.
      destruct (below (e_children e) IH bs [] st1 L) as (l' & st' & t & stop & k & E & A & Lo & Lw). cbn [app List.length] in A, Lo, Lw.
      replace (e_children (set_children e (kept (e_children e) bs))) with (kept (e_children e) bs) by (now destruct e). rewrite E. cbn [bind fst snd].
      exists l', (match stop with None => Some (trues bs + k) | Some _ => None end), st'. split; [destruct e; now destruct stop|].
      exists (batch 0 bs ++ t), stop, (trues bs + k). split; [now apply (answers_app _ _ _ st1)|]. destruct Lo as (So & F & H).
      assert (Hb : forall q b, In (q, b) (batch 0 bs ++ t) <-> (exists k, q = [k] /\ nth_error bs k = Some b) \/ In (q, b) t).
      { intros q b. now rewrite in_app_iff, batch_in. }
      assert (Ht : forall q b, In (q, b) t -> exists j u, q = j :: u /\ u <> []).
      { intros q b I. apply F, in_heard. left. now exists b. }
      assert (Hs : forall s, stop = Some s -> exists j u, s = j :: u /\ u <> []).
      { intros s ->. apply F, in_heard. now right. }
      split; [|split].
      + split.
        * rewrite heard_app. apply sorted_app; [apply batch_sorted|exact So|]. intros x y I J. apply batch_heard in I. destruct I as (j & -> & _). destruct (F y J) as (j' & u & -> & N). cbn. now destruct u.
        * intro q. rewrite heard_app, in_app_iff, batch_heard. destruct q as [|j [|j' u]].
          -- split.
             ++ intros [(j & E1 & _)|I]; [discriminate|]. destruct (F _ I) as (j & u & E1 & _). discriminate.
             ++ intros ((n & E1) & _). discriminate.
          -- split.
             ++ intros [(j' & E1 & Lj)|I]; [|destruct (F _ I) as (j' & u & E1 & N); injection E1 as _ <-; easy]. injection E1 as ->. cbn [plus] in *. rewrite L in Lj. split; [|split].
                ** cbn [at_path]. destruct (nth_error (e_children e) j') as [n|] eqn:En; [now exists n|]. apply nth_error_None in En. lia.
                ** intros a r E1 Nr I. destruct a as [|x a]; [|destruct a; [|discriminate]; injection E1 as _ E1; now destruct Nr]. apply Hb in I. destruct I as [(y & E2 & _)|I]; [discriminate|]. destruct (Ht _ _ I) as (y & u & E2 & _). discriminate.
                ** intros s Es. right. destruct (Hs s Es) as (y & u & -> & N). cbn. now destruct u.
             ++ intros ((n & E1) & _). left. exists j. split; [easy|]. rewrite L. apply nth_error_Some. cbn [at_path] in E1. now destruct (nth_error (e_children e) j).
          -- split.
             ++ intros [(y & E1 & _)|I]; [discriminate|]. apply (H j (j' :: u)) in I; [|easy]. cbn [plus] in I. destruct I as ((n & m & E1 & E2 & E3) & K1 & K2). split; [exists m; rewrite (at_path_cons _ j n) by easy; exact E3|]. split; [|exact K2].
                intros a r E4 Nr I. apply Hb in I. destruct I as [(y & -> & E5)|I].
                ** injection E4 as <- E4. rewrite E5 in E2. discriminate.
                ** destruct (Ht _ _ I) as (y & v & -> & Nv). injection E4 as <- E4. now apply (K1 v r).
             ++ intros ((m & E1) & K1 & K2). right. apply (H j (j' :: u)); [easy|]. cbn [plus].
                assert (exists n, nth_error (e_children e) j = Some n) as (n & En) by (cbn [at_path] in E1; destruct (nth_error (e_children e) j) as [n|]; [now exists n|discriminate]).
                rewrite (at_path_cons _ j n) in E1 by easy. split; [|split; [|exact K2]].
                ** exists n, m. split; [exact En|]. split; [|exact E1]. destruct (nth_error bs j) as [[]|] eqn:Eb; [|easy|].
                   --- exfalso. apply (K1 [j] (j' :: u)); [easy|easy|]. apply Hb. left. now exists j.
                   --- apply nth_error_None in Eb. assert (j < List.length (e_children e)) by (apply nth_error_Some; now rewrite En). lia.
                ** intros a r E2 Nr I. apply (K1 (j :: a) r); [now rewrite E2|exact Nr|]. apply Hb. now right.
      + apply Lw; cbn [plus].
        * intros j b Eb. unfold acted. rewrite Hb. split.
          -- intros ([(y & E1 & E2)|I] & _); [injection E1 as <-; congruence|]. destruct (Ht _ _ I) as (y & u & E1 & N). injection E1 as _ <-. easy.
          -- intros ->. split; [left; now exists j|]. intros s Es. destruct (Hs s Es) as (y & u & -> & N). rewrite (removelast_cons y) by exact N. discriminate.
        * intros j u N. unfold acted. rewrite Hb. split.
          -- intros ([(y & E1 & _)|I] & K); [injection E1 as _ ->; easy|now split].
          -- intros (I & K). split; [now right|exact K].
      + now destruct stop.
    - exists (e_children e), None, st1. split; [destruct e; reflexivity|].
      assert (exists pre l, e_children e = pre ++ x :: l /\ map fst t = rev l) as (pre & l & El & Fl).
      { exists (rev rest), (rev (map fst t)). split; [|now rewrite rev_involutive]. rewrite <- (rev_involutive (e_children e)), F, rev_app_distr. cbn [rev]. now rewrite <- app_assoc. }
      destruct (rev_said_no _ _ Fl) as (_ & _ & L). pose proof (asks_batch l (pre ++ [x]) [] t st st0 A Fl) as B. rewrite app_nil_r, <- app_assoc in B. cbn [app] in B. rewrite <- El, app_length, Nat.add_1_r in B.
      exists (batch (S (List.length pre)) (replies t)), (Some [List.length pre]), 0. split; [|split; [|split]].
      + rewrite <- (app_nil_r (batch _ _)). eapply answers_app; [exact B|]. econstructor; [|exact Px]. cbn [at_path]. now rewrite El, nth_error_app2, Nat.sub_diag by lia.
      + split.
        * apply sorted_app; [apply batch_sorted|repeat constructor|]. intros u v I [<-|[]]. apply batch_heard in I. destruct I as (k & -> & _). cbn. lia.
        * intro q. rewrite in_heard. assert (Hb : (exists b, In (q, b) (batch (S (List.length pre)) (replies t))) <-> exists k, q = [S (List.length pre) + k] /\ k < List.length l).
          { rewrite <- L, <- batch_heard, in_map_iff. split; [intros (b & I); now exists (q, b)|]. intros ([r b] & <- & I). now exists b. }
          rewrite Hb. split.
          -- intros [(k & -> & Lk)|Eq].
             ++ split; [|split].
                ** cbn [at_path]. destruct (nth_error (e_children e) (S (List.length pre) + k)) as [n|] eqn:En; [now exists n|]. apply nth_error_None in En. rewrite El, app_length in En. cbn [List.length] in En. lia.
                ** intros a r E1 Nr I. apply batch_in in I. destruct I as (j & -> & _). injection E1 as _ E1. now destruct Nr.
                ** intros s Es. injection Es as <-. right. cbn. lia.
             ++ injection Eq as <-. split; [|split].
                ** exists x. cbn [at_path]. now rewrite El, nth_error_app2, Nat.sub_diag by lia.
                ** intros a r E1 Nr I. apply batch_in in I. destruct I as (j & -> & _). injection E1 as _ E1. now destruct Nr.
                ** intros s Es. injection Es as <-. now left.
          -- intros ((n & E1) & _ & K). destruct (K _ eq_refl) as [->|K1]; [now right|]. left. destruct q as [|j [|j' u]]; try easy. cbn [asked_before] in K1. exists (j - S (List.length pre)). split; [f_equal; lia|].
             assert (j < List.length (e_children e)) by (apply nth_error_Some; cbn [at_path] in E1; now destruct (nth_error (e_children e) j)). rewrite El, app_length in H. cbn [List.length] in H. lia.
      + apply pruned_at_id. intros q (I & K). apply batch_in in I. destruct I as (j & -> & _). now apply (K _ eq_refl).
      + reflexivity.
  Qed.
End Run.

(** * Iterators *)

Lemma said_yes_app {A} (t1 t2 : list (A * bool)) : said_yes (t1 ++ t2) = said_yes t1 ++ said_yes t2.
Proof. unfold said_yes. now rewrite filter_app, map_app. Qed.
Lemma said_yes_no {A} (a : list A) : said_yes (map (fun y => (y, false)) a) = [].
Proof. unfold said_yes. induction a; [easy|exact IHa]. Qed.
Lemma map_fst_no {A} (b : bool) (a : list A) : map fst (map (fun y => (y, b)) a) = a.
Proof. rewrite map_map. apply map_id. Qed.
Lemma pulls_pulled {St A} (p : question St A) l st xs l' st' : pulls (filter_next p) l st xs l' st' -> pulled p l st xs l' st'.
Proof.
  induction 1 as [l st|l st x l1 st1 xs l' st' N H (t & E & K & Y & L)].
  - exists []. split; [easy|]. split; [constructor|]. split; [easy|]. intros t1 x b E. now destruct t1.
  - destruct (filter_next_cases p l st) as [(a & y & b & st2 & N2 & El & K2)|[(st2 & N2 & _)|(a & y & b & st2 & N2 & _)]]; rewrite N2 in N; try discriminate. injection N as -> -> ->.
    exists ((map (fun y => (y, false)) a ++ [(x, true)]) ++ t). split; [|split; [|split]].
    + rewrite !map_app, map_fst_no, El, <- E, <- !app_assoc. reflexivity.
    + eapply asks_app; eassumption.
    + rewrite !said_yes_app, said_yes_no, Y. reflexivity.
    + intros t1 z c E2. destruct t as [|w t] using rev_ind.
      * rewrite app_nil_r in E2. apply app_inj_tail in E2. destruct E2 as (_ & E2). congruence.
      * rewrite app_assoc in E2. apply app_inj_tail in E2. destruct E2 as (_ & ->). now apply (L t z).
Qed.
Lemma kind_next_eq {St A} (is : node -> bool) (as_ : node -> outcome A) (parts : node -> list A) (p : question St A) :
  (forall n, (is n = true /\ exists x, as_ n = Ok x /\ parts n = [x]) \/ (is n = false /\ parts n = [])) ->
  forall l st, exists i l' st', kind_next is as_ p l st = Ok (i, l', st') /\ filter_next p (flat_map parts l) st = (i, flat_map parts l', st').
Proof.
  intro H. induction l as [|n l IH]; intro st; [now exists Finished, [], st|]. cbn [kind_next flat_map]. destruct (H n) as [(-> & x & -> & ->)|(-> & ->)]; cbn [app expect bind].
  - cbn [filter_next]. destruct (p x st) as [[] st1|st1]; [now eexists _, l, st1|apply IH|now eexists _, l, st1].
  - apply IH.
Qed.
Lemma search_elements_next_eq {St} (p : question St elem) l st : exists i l' st',
  search_elements_next p l st = Ok (i, l', st') /\ filter_next p (elements_in l) st = (i, elements_in l', st').
Proof. apply kind_next_eq. intros [e|s|s|s]; [left; split; [easy|now exists e]|right; now split..]. Qed.
Lemma search_text_next_eq {St} (p : question St str) l st : exists i l' st',
  search_text_next p l st = Ok (i, l', st') /\ filter_next p (texts_in l) st = (i, texts_in l', st').
Proof. apply kind_next_eq. intros [e|s|s|s]; [right; now split|left; split; [easy|now exists s]|right; now split..]. Qed.
Lemma search_comments_next_eq {St} (p : question St str) l st : exists i l' st',
  search_comments_next p l st = Ok (i, l', st') /\ filter_next p (comments_in l) st = (i, comments_in l', st').
Proof. apply kind_next_eq. intros [e|s|s|s]; [right; now split|right; now split|left; split; [easy|now exists s]|right; now split]. Qed.

(** * Closures whose answer depends on the argument only *)

Lemma asks_steady {St A} (p : question St A) f : steady p f -> forall st t st', asks p st t st' -> t = map (fun x => (x, f x)) (map fst t).
Proof.
  intros H st t st'. induction 1 as [|x b st st1 t st' E K IH]; [easy|]. cbn [map fst]. destruct (H x st) as (st2 & E2). rewrite E2 in E. injection E as -> _. now rewrite <- IH.
Qed.
Lemma said_steady {A} (f : A -> bool) l : said_no (map (fun x => (x, f x)) l) = filter (fun x => negb (f x)) l /\ said_yes (map (fun x => (x, f x)) l) = filter f l.
Proof.
  unfold said_no, said_yes. induction l as [|x l (IH1 & IH2)]; [easy|]. cbn [map filter snd]. destruct (f x); cbn [negb map fst]; rewrite IH1, IH2; now split.
Qed.
Lemma filter_rev {A} (f : A -> bool) l : filter f (rev l) = rev (filter f l).
Proof. induction l as [|x l IH]; [easy|]. cbn [rev filter]. rewrite filter_app, IH. cbn [filter]. destruct (f x); [easy|apply app_nil_r]. Qed.
Lemma remove_by_vec_steady {St A} (p : question St A) f : steady p f -> forall l st, exists st',
  remove_by_vec_st p l st = Ok (filter (fun x => negb (f x)) l, Some (List.length (filter f l)), st').
Proof.
  intros H l st. destruct (remove_by_vec_cases p l st) as [(t & st' & -> & K & E)|(t & x & rest & st' & -> & (st1 & _ & K) & _)].
  - exists st'. apply (asks_steady p f H) in K. rewrite E in K. rewrite K. destruct (said_steady f (rev l)) as (-> & ->). now rewrite !filter_rev, rev_involutive, rev_length.
  - destruct (H x st1) as (st2 & K2). congruence.
Qed.
Lemma remove_by_steady {St} (p : question St node) f : steady p f -> forall e st, exists e' k st',
  remove_by_st e p st = Ok (e', Some k, st') /\ remove_by e f = Ok (e', k).
Proof.
  intros H e st. unfold remove_by_st. destruct (remove_by_vec_steady p f H (e_children e) st) as (st' & ->). cbn [bind fst snd]. rewrite remove_by_eq.
  now eexists _, _, st'.
Qed.
Lemma remove_all_steady {St} (p : question St node) f : steady p f -> forall e st, exists e' k st',
  remove_all_st p e st = Ok (e', Some k, st') /\ remove_all f e = Ok (e', k).
Proof.
  intros H. induction e as [e IH] using elem_ind'. intro st. rewrite remove_all_st_eq, remove_all_eq. destruct (remove_by_steady p f H e st) as (e1 & k1 & st1 & -> & E1). rewrite E1. cbn [bind fst snd].
  assert (C : forall c, In (NElem c) (e_children e1) -> In (NElem c) (e_children e)).
  { rewrite remove_by_eq in E1. injection E1 as <- _. destruct e as [nm ch at_ ns px cx]. cbn [e_children set_children]. intros c I. now apply filter_In in I. }
  assert (R : forall l st, (forall c, In (NElem c) l -> In (NElem c) (e_children e)) -> exists l' k st',
    collect_st (map (ann p) l) st = Ok (l', Some k, st') /\ collect_removed (map (annotate f) l) = Ok (l', k)).
  { clear - IH. induction l as [|n l IHl]; intros st C; [now exists [], 0, st|]. destruct n as [c|s|s|s]; cbn [map ann annotate collect_st collect_removed].
    - destruct (IH c (C c (or_introl eq_refl)) st) as (c' & k & st1 & -> & ->). cbn [bind fst snd].
      destruct (IHl st1 (fun c I => C c (or_intror I))) as (l' & k2 & st2 & -> & ->). cbn [bind fst snd option_map]. now eexists _, _, st2.
    - destruct (IHl st (fun c I => C c (or_intror I))) as (l' & k2 & st2 & -> & ->). cbn [bind fst snd option_map]. now eexists _, _, st2.
    - destruct (IHl st (fun c I => C c (or_intror I))) as (l' & k2 & st2 & -> & ->). cbn [bind fst snd option_map]. now eexists _, _, st2.
    - destruct (IHl st (fun c I => C c (or_intror I))) as (l' & k2 & st2 & -> & ->). cbn [bind fst snd option_map]. now eexists _, _, st2. }
  destruct (R (e_children e1) st1 C) as (l' & k2 & st2 & -> & ->). cbn [bind fst snd option_map]. now eexists _, _, st2.
Qed.
Lemma elem_question_steady {St} (p : question St elem) f : steady p f -> steady (elem_question p) (elem_pred f).
Proof. intros H [c|s|s|s] st; cbn; [apply H|now exists st..]. Qed.
Lemma remove_elements_st_eq {St} (p : question St elem) e st : remove_elements_st e p st = remove_by_st e (elem_question p) st.
Proof.
  unfold remove_elements_st, remove_by_st. assert (X : forall l idx st, matching_st (fun n st => if is_element n then elem_question p n st else Says false st) l idx st = matching_st (elem_question p) l idx st).
  { clear. intros l idx. induction idx as [|i idx IH]; intro st; [easy|]. cbn [matching_st]. destruct (vget l i) as [n| | |]; cbn [bind]; try easy.
    destruct n as [c|s|s|s]; cbn [is_element elem_question]; [destruct (p c st); [|easy]|..]; now rewrite IH. }
  unfold remove_by_vec_st. now rewrite X.
Qed.
(** Only elements reach a closure that is about elements. *)
Lemma asks_elements {St} (p : question St elem) t : forall st st', asks (elem_question p) st t st' <->
  asks p st (element_part t) st' /\ forall n b, In (n, b) t -> (exists c, n = NElem c) \/ b = false.
Proof.
  induction t as [|[n b] t IH]; intros st st'.
  - split; [intro H; inversion H; subst; split; [constructor|easy]|]. intros (H & _). inversion H; subst. constructor.
  - unfold element_part. cbn [flat_map fst snd]. split.
    + intro H. inversion H as [|? ? ? st1 ? ? E K]; subst. apply IH in K. destruct K as (K & L). destruct n as [c|s|s|s]; cbn [elem_question app] in *.
      1: { split; [econstructor; eassumption|]. intros m d [I|I]; [injection I as <- <-; left; now exists c|now apply L]. }
      all: injection E as <- <-; split; [exact K|]; intros m d [I|I]; [injection I as <- <-; now right|now apply L].
    + intros (K & L). assert (L' : forall m d, In (m, d) t -> (exists c, m = NElem c) \/ d = false) by (intros m d I; apply L; now right).
      destruct n as [c|s|s|s]; cbn [app] in K.
      1: { inversion K as [|? ? ? st1 ? ? E K1]; subst. econstructor; [exact E|]. now apply IH. }
      all: destruct (L _ _ (or_introl eq_refl)) as [(c & Ec)| ->]; [discriminate|]; econstructor; [reflexivity|]; now apply IH.
Qed.
Lemma asked_before_irrefl q : ~ asked_before q q.
Proof. induction q as [|i q IH]; [easy|]. cbn [asked_before]. destruct q; [lia|]. intros [K|(_ & K)]; [lia|now apply IH]. Qed.
Lemma protocol_nodup l t stop : protocol l t stop -> NoDup (heard t stop).
Proof.
  intros (H & _). induction H as [|q h H IH F]; constructor; [|exact IH]. intro I. rewrite Forall_forall in F. now apply (asked_before_irrefl q), F.
Qed.
Lemma steady_elements : forall St (p : question St elem) f, steady p f -> forall e st,
  (exists e' k st', remove_elements_st e p st = Ok (e', Some k, st') /\ remove_elements e f = Ok (e', k)) /\
  (exists e' k st', remove_all_elements_st p e st = Ok (e', Some k, st') /\ remove_all_elements f e = Ok (e', k)).
Proof.
  intros St p f H e st. apply elem_question_steady in H. rewrite remove_elements_st_eq, remove_all_elements_st_eq. split.
  - destruct (remove_by_steady _ _ H e st) as (e' & k & st' & -> & E). exists e', k, st'. split; [easy|]. rewrite <- E. unfold remove_elements, remove_by. rewrite !remove_by_vec_eq. cbn [bind fst snd].
    assert (X : forall n, (if is_element n then elem_pred f n else false) = elem_pred f n) by (now intros []).
    rewrite (filter_ext _ (fun n => negb (elem_pred f n)) (fun n => f_equal negb (X n))), (filter_ext _ _ X). reflexivity.
  - destruct (remove_all_steady _ _ H e st) as (e' & k & st' & -> & E). exists e', k, st'. split; [easy|]. now rewrite remove_all_elements_eq.
Qed.

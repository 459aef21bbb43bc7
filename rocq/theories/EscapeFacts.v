(** Proofs about the escaping functions. *)
From Coq Require Import List NArith Arith Bool Ascii String Lia.
From Verif Require Import Base Escape BaseFacts Spec.
Import ListNotations.

(** * escape is a character map *)

Lemma escape_char_map t : escape t = flat_map (escape_char all_special) t.
Proof.
  unfold escape, sAmp, sLt, sGt, sApos, sQuot. rewrite !replace_char, !flat_map_flat_map.
  apply flat_map_ext. intro c. unfold escape_char, all_special, eAmp, eLt, eGt, eApos, eQuot.
  destruct (N.eqb_spec c 38) as [->|H1]; [reflexivity|].
  destruct (N.eqb_spec c 60) as [->|H2]; [reflexivity|].
  destruct (N.eqb_spec c 62) as [->|H3]; [reflexivity|].
  destruct (N.eqb_spec c 39) as [->|H4]; [reflexivity|].
  destruct (N.eqb_spec c 34) as [->|H5]; [reflexivity|].
  cbn [existsb flat_map app].
  apply N.eqb_neq in H1, H2, H3, H4, H5.
  rewrite ?H1, ?H2, ?H3, ?H4, ?H5. cbn [orb flat_map app].
  rewrite ?H1, ?H2, ?H3, ?H4, ?H5. cbn [flat_map app].
  rewrite ?H1, ?H2, ?H3, ?H4, ?H5. cbn [flat_map app].
  rewrite ?H1, ?H2, ?H3, ?H4, ?H5. cbn [flat_map app].
  rewrite ?H1, ?H2, ?H3, ?H4, ?H5. reflexivity.
Qed.

Lemma text_escape_char_map t : text_escape t = flat_map (escape_char text_special) t.
Proof.
  unfold text_escape, sAmp, sLt, sGt, sApos, sQuot. rewrite !replace_char, !flat_map_flat_map.
  apply flat_map_ext. intro c. unfold escape_char, text_special, eAmp, eLt, eGt, eApos, eQuot.
  destruct (N.eqb_spec c 38) as [->|H1]; [reflexivity|].
  destruct (N.eqb_spec c 60) as [->|H2]; [reflexivity|].
  destruct (N.eqb_spec c 62) as [->|H3]; [reflexivity|].
  cbn [existsb flat_map app].
  apply N.eqb_neq in H1, H2, H3.
  rewrite ?H1, ?H2, ?H3. cbn [orb flat_map app].
  rewrite ?H1, ?H2, ?H3. cbn [flat_map app].
  rewrite ?H1, ?H2, ?H3. reflexivity.
Qed.

Lemma escape_app a b : escape (a ++ b) = escape a ++ escape b.
Proof. now rewrite !escape_char_map, flat_map_app. Qed.
Lemma text_escape_app a b : text_escape (a ++ b) = text_escape a ++ text_escape b.
Proof. now rewrite !text_escape_char_map, flat_map_app. Qed.

(** The two shapes of an escaped character, for a set of special characters
    that all have a predefined entity. *)
Definition good_set (set : list char) : Prop :=
  In amp set /\ forall c, In c set -> exists nm, In (nm, c) predefined /\
    forall rest, escape_char set c ++ rest = [amp] ++ nm ++ [semi] ++ rest.

Lemma good_all : good_set all_special.
Proof.
  split; [now left|]. intros c H.
  destruct H as [<-|H]; [exists (lit "amp"); split; [cbn; tauto|reflexivity]|].
  destruct H as [<-|H]; [exists (lit "lt"); split; [cbn; tauto|reflexivity]|].
  destruct H as [<-|H]; [exists (lit "gt"); split; [cbn; tauto|reflexivity]|].
  destruct H as [<-|H]; [exists (lit "apos"); split; [cbn; tauto|reflexivity]|].
  destruct H as [<-|H]; [exists (lit "quot"); split; [cbn; tauto|reflexivity]|].
  easy.
Qed.
Lemma good_text : good_set text_special.
Proof.
  split; [now left|]. intros c H.
  destruct H as [<-|H]; [exists (lit "amp"); split; [cbn; tauto|reflexivity]|].
  destruct H as [<-|H]; [exists (lit "lt"); split; [cbn; tauto|reflexivity]|].
  destruct H as [<-|H]; [exists (lit "gt"); split; [cbn; tauto|reflexivity]|].
  easy.
Qed.

Lemma escape_char_other set c : ~ In c set -> escape_char set c = [c].
Proof.
  intro H. unfold escape_char. destruct (existsb (N.eqb c) set) eqn:E; [|easy].
  apply existsb_exists in E as (x & Hx & E). apply N.eqb_eq in E. now subst.
Qed.

Lemma esc_decodes set t : good_set set -> decodes (flat_map (escape_char set) t) t.
Proof.
  intros [Ha Hg]. induction t as [|c t IH]; [constructor|]. cbn [flat_map].
  destruct (in_dec N.eq_dec c set) as [Hin|Hn].
  - destruct (Hg c Hin) as (nm & Hnm & ->). now constructor; [constructor|].
  - rewrite escape_char_other by easy. apply dec_char; [|easy]. intros ->. easy.
Qed.

(** * Entities *)

(** Shape of the slice "&..." up to (not including) a ';' that the code tests. *)
Definition ref_char (slc : str) : option char :=
  if str_eqb slc (lit "&amp") then Some 38%N
  else if str_eqb slc (lit "&lt") then Some 60%N
  else if str_eqb slc (lit "&gt") then Some 62%N
  else if str_eqb slc (lit "&apos") then Some 39%N
  else if str_eqb slc (lit "&quot") then Some 34%N
  else if starts_with (lit "&#") slc then
    match from_str_radix16 (skipn 2 slc) with
    | Some n => char_from_u32 n
    | None => None
    end
  else None.

Lemma hex_digits_snoc h d acc : hex_digits (h ++ [d]) acc =
  match hex_digits h acc with
  | None => None
  | Some n => match hex_digit d with
              | None => None
              | Some v => if (n * 16 + v <? 4294967296)%N then Some (n * 16 + v)%N else None
              end
  end.
Proof.
  revert acc. induction h as [|c h IH]; intro acc; cbn [app hex_digits].
  - reflexivity.
  - destruct (hex_digit c); [|easy]. destruct (_ <? _)%N; [apply IH|easy].
Qed.
Lemma hex_digit_value d v : hex_digit d = Some v <-> hex_value d v.
Proof.
  split.
  - unfold hex_digit, in_range. intro H.
    assert (Hd : (d <= 102)%N).
    { destruct (N.leb_spec d 102) as [L|L]; [easy|]. destruct (N.leb_spec d 57); [lia|]. rewrite andb_false_r in H.
      rewrite andb_false_r in H. destruct (N.leb_spec d 70); [lia|]. now rewrite andb_false_r in H. }
    rewrite <- (N2Nat.id d) in *. assert (L : N.to_nat d <= 102) by lia. clear Hd. revert H L. generalize (N.to_nat d). intros k H L.
    do 103 (destruct k as [|k]; [vm_compute in H; first [discriminate H|injection H as <-; vm_compute; tauto]|]). lia.
  - intro H. assert (L : N.to_nat v < 16).
    { destruct H as [H|H]; (match type of H with nth_error ?l ?k = _ => assert (X : k < List.length l) by (apply nth_error_Some; congruence) end; exact X). }
    rewrite <- (N2Nat.id v). unfold hex_value in H. revert H L. generalize (N.to_nat v). intros k H L.
    do 16 (destruct k as [|k]; [destruct H as [H|H]; vm_compute in H; injection H as <-; reflexivity|]). lia.
Qed.
Lemma hex_digits_number h : h <> [] -> forall n,
  hex_digits h 0 = Some n <-> (hex_number h n /\ n < 4294967296)%N.
Proof.
  induction h as [|d h IH] using rev_ind; [easy|]. intros _ n.
  rewrite hex_digits_snoc. destruct h as [|c h].
  - cbn [hex_digits app].
    split.
    + destruct (hex_digit d) as [v|] eqn:E; [|easy].
      rewrite N.mul_0_l, N.add_0_l.
      destruct (v <? 4294967296)%N eqn:L; [|easy].
      intro H; injection H as <-. apply N.ltb_lt in L. split; [|easy].
      constructor. now apply hex_digit_value.
    + intros [H L]. inversion H as [d0 v0 Hd E0|h0 m d0 v0 Hh Hd E0].
      * subst. apply hex_digit_value in Hd. rewrite Hd, N.mul_0_l, N.add_0_l.
        apply N.ltb_lt in L. now rewrite L.
      * destruct h0 as [|? [|? ?]]; try easy. inversion Hh as [|h1 ? ? ? ? ? E1].
        now destruct h1.
  - assert (c :: h <> []) as Hne by easy. split.
    + destruct (hex_digits (c :: h) 0) as [m|] eqn:E; [|easy].
      destruct (hex_digit d) as [v|] eqn:Ed; [|easy].
      destruct (m * 16 + v <? 4294967296)%N eqn:L; [|easy].
      intro H; injection H as <-. apply N.ltb_lt in L. split; [|easy].
      destruct (proj1 (IH Hne m) eq_refl) as [E' _].
      replace (m * 16 + v)%N with (16 * m + v)%N by lia. constructor; [easy|]. now apply hex_digit_value.
    + intros [H L]. inversion H as [d0 v0 Hd E0|h0 m d0 v0 Hh Hd E0]; [now destruct h|].
      change (c :: h ++ [d]) with ((c :: h) ++ [d]) in E0.
      apply app_inj_tail in E0 as [-> ->]. subst.
      assert (hex_digits (c :: h) 0 = Some m) as ->.
      { apply IH; [easy|]. split; [easy|]. lia. }
      apply hex_digit_value in Hd. rewrite Hd. replace (m * 16 + v0)%N with (16 * m + v0)%N by lia.
      apply N.ltb_lt in L. now rewrite L.
Qed.

Lemma hex_digit_plus : hex_digit 43%N = None.
Proof. reflexivity. Qed.
Lemma hex_number_not_plus h n : hex_number h n -> ~ In 43%N h /\ h <> [].
Proof.
  induction 1 as [d v H|h n d v H [IH _] Hd].
  - split; [|easy]. intros [->|[]]. apply hex_digit_value in H. now rewrite hex_digit_plus in H.
  - split; [|now destruct h]. intro Hin. apply in_app_or in Hin as [Hin|[->|[]]]; [easy|].
    apply hex_digit_value in Hd. now rewrite hex_digit_plus in Hd.
Qed.

Lemma char_from_u32_spec n c : char_from_u32 n = Some c <-> n = c /\ scalar c.
Proof.
  unfold char_from_u32, scalar, in_range.
  destruct (N.leb_spec 55296 n), (N.leb_spec n 57343); cbn [andb];
  try destruct (N.leb_spec n 1114111);
  (split; [intro E; first [discriminate E|injection E as <-; split; [reflexivity|lia]]
          |intros [-> Hs]; try reflexivity; exfalso; lia]).
Qed.

Lemma from_str_radix16_spec s c :
  (exists n, from_str_radix16 s = Some n /\ char_from_u32 n = Some c) <->
  scalar c /\ (hex_number s c \/ exists h, s = 43%N :: h /\ hex_number h c).
Proof.
  assert (scalar c -> (c < 4294967296)%N) as Hs by (unfold scalar; lia).
  split.
  - intros (n & Hn & Hc). apply char_from_u32_spec in Hc as [-> Hc]. split; [easy|].
    unfold from_str_radix16 in Hn. destruct s as [|x s]; [easy|].
    destruct (N.eqb_spec x 43) as [->|Hx].
    + right. exists s. split; [easy|]. destruct s as [|y s]; [easy|].
      apply hex_digits_number in Hn; [|easy]. easy.
    + left. apply hex_digits_number in Hn; [|easy]. easy.
  - intros [Hc H]. exists c. split; [|now apply char_from_u32_spec].
    destruct H as [H|(h & -> & H)].
    + destruct (hex_number_not_plus _ _ H) as [Hp Hne].
      unfold from_str_radix16. destruct s as [|x s]; [easy|].
      destruct (N.eqb_spec x 43) as [->|Hx]; [destruct Hp; now left|].
      apply hex_digits_number; auto.
    + destruct (hex_number_not_plus _ _ H) as [Hp Hne].
      cbn [from_str_radix16]. destruct h as [|y h]; [easy|]. rewrite N.eqb_refl.
      apply hex_digits_number; auto.
Qed.

Lemma ref_char_spec nm c : ref_char (amp :: nm) = Some c <-> entity nm c.
Proof.
  unfold ref_char. split.
  - repeat match goal with
    | |- context [str_eqb (amp :: nm) ?x] => let E := fresh "E" in destruct (str_eqb (amp :: nm) x) eqn:E;
        [apply str_eqb_eq in E; inversion E; subst; intro F; inversion F; subst; constructor; cbn; tauto|]
    end.
    destruct (starts_with (lit "&#") (amp :: nm)) eqn:S; [|easy].
    apply starts_with_spec in S as [h S]. cbn in S. inversion S; subst.
    cbn [skipn]. intro H.
    assert (scalar c /\ (hex_number h c \/ exists h', h = 43%N :: h' /\ hex_number h' c)) as [Hc F].
    { apply from_str_radix16_spec. destruct (from_str_radix16 h); [|easy]. now eexists. }
    destruct F as [F|(h' & -> & F)].
    + now apply (ent_hex h).
    + now apply (ent_hex_plus h').
  - intro H. destruct H as [nm c Hin|h c Hh Hc|h c Hh Hc].
    + cbn in Hin. repeat (destruct Hin as [E|Hin]; [inversion E; reflexivity|]). easy.
    + cbn [lit list_ascii_of_string map app]. cbn.
      assert (exists n, from_str_radix16 h = Some n /\ char_from_u32 n = Some c) as (n & -> & E)
        by (apply from_str_radix16_spec; auto). exact E.
    + cbn.
      assert (exists n, from_str_radix16 (43%N :: h) = Some n /\ char_from_u32 n = Some c) as (n & E1 & E)
        by (apply from_str_radix16_spec; split; [easy|]; right; now exists h).
      cbn [from_str_radix16] in E1. cbn in E1. rewrite E1. exact E.
Qed.

Lemma hex_digit_not_semi d v : hex_value d v -> d <> semi.
Proof. intros H ->. apply hex_digit_value in H. discriminate H. Qed.
Lemma hex_number_no_semi h n : hex_number h n -> ~ In semi h.
Proof.
  induction 1 as [d v H|h n d v H IH Hd]; intro Hin.
  - destruct Hin as [->|[]]. now apply hex_digit_not_semi in H.
  - apply in_app_or in Hin as [Hin|[->|[]]]; [easy|]. now apply hex_digit_not_semi in Hd.
Qed.
Lemma entity_no_semi nm c : entity nm c -> ~ In semi nm.
Proof.
  intros [nm' c' H|h c' H _|h c' H _] Hin.
  - cbn in H. repeat (destruct H as [E|H]; [inversion E; subst; cbn in Hin;
      repeat (destruct Hin as [Hin|Hin]; [discriminate|]); easy|]). easy.
  - cbn in Hin. destruct Hin as [Hin|Hin]; [discriminate|]. now apply hex_number_no_semi in H.
  - cbn in Hin. destruct Hin as [Hin|[Hin|Hin]]; try discriminate. now apply hex_number_no_semi in H.
Qed.
Lemma entity_scalar nm c : entity nm c -> scalar c.
Proof.
  intros [nm' c' H|h c' _ H|h c' _ H]; [|easy|easy].
  cbn in H. repeat (destruct H as [E|H]; [inversion E; unfold scalar; lia|]). easy.
Qed.
Lemma entity_fun nm c c' : entity nm c -> entity nm c' -> c = c'.
Proof. rewrite <- !ref_char_spec. congruence. Qed.

Lemma no_semi_split (a b x y : str) : ~ In semi a -> ~ In semi b ->
  a ++ semi :: x = b ++ semi :: y -> a = b /\ x = y.
Proof.
  revert b. induction a as [|c a IH]; intros [|d b] Ha Hb E; cbn [app] in E.
  - now inversion E.
  - inversion E; subst. destruct Hb. now left.
  - inversion E; subst. destruct Ha. now left.
  - inversion E; subst. destruct (IH b) as [-> ->]; auto; intro; [apply Ha|apply Hb]; now right.
Qed.

(** Decoding is a function of the text. *)
Lemma decodes_fun s r1 : decodes s r1 -> forall r2, decodes s r2 -> r1 = r2.
Proof.
  induction 1 as [|c s r Hc H IH|nm c s r He H IH|s r Hn H IH]; intros r2 D.
  - now inversion D.
  - inversion D; subst.
    + f_equal. auto.
    + now destruct Hc.
    + now destruct Hc.
  - inversion D as [|c' s' r' Hc' H' E1 E2|nm' c' s' r' He' H' E1 E2|s' r' Hn' H' E1 E2].
    + subst. now destruct Hc'.
    + subst. apply no_semi_split in E1 as [-> ->]; [|eapply entity_no_semi; eauto..].
      f_equal; [eapply entity_fun; eauto|auto].
    + subst. now destruct (Hn' nm c s He).
  - inversion D as [|c' s' r' Hc' H' E1 E2|nm' c' s' r' He' H' E1 E2|s' r' Hn' H' E1 E2]; subst.
    + now destruct Hc'.
    + now destruct (Hn nm' c' s' He').
    + f_equal. auto.
Qed.

(** Every text can be decoded. *)
Lemma split_semi s : {ab | s = fst ab ++ semi :: snd ab /\ ~ In semi (fst ab)} + {~ In semi s}.
Proof.
  destruct (split_once semi s) as [[a b]|] eqn:E.
  - left. exists (a, b). now apply split_once_some.
  - right. now apply split_once_none.
Qed.
Lemma decodes_total s : exists r, decodes s r.
Proof.
  remember (List.length s) as n eqn:Hn. revert s Hn.
  induction n as [n IH] using lt_wf_ind. intros s ->.
  destruct s as [|c s]; [exists []; constructor|].
  destruct (N.eq_dec c amp) as [->|Hc].
  - destruct (split_semi s) as [[[a b] [E Hn]]|Hn]; cbn [fst snd] in *.
    + destruct (ref_char (amp :: a)) as [c|] eqn:R.
      * apply ref_char_spec in R. subst.
        destruct (IH (List.length b)) with (s := b) as [r Hr]; [|easy|].
        { cbn [List.length]. rewrite app_length. cbn [List.length]. lia. }
        exists (c :: r). now apply (dec_ref a).
      * destruct (IH (List.length s)) with (s := s) as [r Hr]; [cbn; lia|easy|].
        exists (amp :: r). apply dec_lone; [|easy].
        intros nm c s' He E'. rewrite E in E'. cbn [app] in E'.
        apply no_semi_split in E' as [-> _]; [|easy|now apply entity_no_semi in He].
        apply ref_char_spec in He. congruence.
    + destruct (IH (List.length s)) with (s := s) as [r Hr]; [cbn; lia|easy|].
      exists (amp :: r). apply dec_lone; [|easy].
      intros nm c s' _ ->. apply Hn. apply in_or_app. right. now left.
  - destruct (IH (List.length s)) with (s := s) as [r Hr]; [cbn; lia|easy|].
    exists (c :: r). now apply dec_char.
Qed.

(** * One step of unescape *)

(** [char_size] after the inner loop: length of the last character read. *)
Fixpoint last_size (rest : str) (cs : nat) : nat :=
  match rest with [] => cs | k :: r => last_size r (len_utf8 k) end.

Lemma last_size_pos rest : forall cs, 1 <= cs -> 1 <= last_size rest cs.
Proof.
  induction rest as [|k r IH]; intros cs H; [easy|]. cbn [last_size].
  apply IH, len_utf8_pos.
Qed.
Lemma last_size_snoc rest k cs : last_size (rest ++ [k]) cs = len_utf8 k.
Proof.
  revert cs. induction rest as [|x r IH]; intro cs; [easy|]. cbn [app last_size]. apply IH.
Qed.

Lemma from_radix_semi s : In semi s -> from_str_radix16 s = None.
Proof.
  assert (forall s acc, In semi s -> hex_digits s acc = None) as Hd.
  { intro t. induction t as [|c t IH]; intros acc Hin; [easy|]. cbn [hex_digits].
    destruct Hin as [->|Hin]; [reflexivity|].
    destruct (hex_digit c); [|easy]. destruct (_ <? _)%N; auto. }
  intro H. destruct s as [|c s]; [easy|]. cbn [from_str_radix16].
  destruct (N.eqb_spec c 43) as [->|Hc].
  - destruct H as [H|H]; [discriminate|]. destruct s; [easy|]. now apply Hd.
  - now apply Hd.
Qed.

(** After the first ';' nothing is replaced any more. *)
Lemma entity_after i pre s slc buf cs : slc = pre ++ s -> In semi pre ->
  unescape_entity i (blen pre) slc buf cs = Ok (buf, cs).
Proof.
  intros -> Hin. unfold unescape_entity. rewrite slice_to_app. cbn [bind].
  assert (forall x, ~ In semi x -> str_eqb pre x = false) as Hx.
  { intros x Hx. apply str_eqb_neq. intros ->. easy. }
  rewrite !Hx by (cbn; intuition discriminate). cbn [bind].
  destruct (starts_with (lit "&#") pre) eqn:E; [|easy].
  apply starts_with_spec in E as [h ->].
  change 2 with (blen (lit "&#")). rewrite slice_from_app. cbn [bind].
  apply in_app_or in Hin as [Hin|Hin]; [cbn in Hin; intuition discriminate|].
  now rewrite from_radix_semi.
Qed.
Lemma scan_after i slc buf : forall rest pre cs, slc = pre ++ rest -> In semi pre ->
  unescape_scan i slc rest (blen pre) buf cs = Ok (buf, last_size rest cs).
Proof.
  induction rest as [|k rest IH]; intros pre cs E Hin; [easy|].
  cbn [unescape_scan last_size].
  replace (if (k =? cSemi)%N then unescape_entity i (blen pre) slc buf (len_utf8 k)
           else Ok (buf, len_utf8 k)) with (Ok (buf, len_utf8 k)).
  - cbn [bind fst snd]. replace (blen pre + len_utf8 k) with (blen (pre ++ [k]))
      by (rewrite blen_app; cbn [blen]; lia).
    apply IH; [rewrite <- app_assoc; exact E|]. apply in_or_app. now left.
  - destruct (k =? cSemi)%N; [|easy]. symmetry. now apply entity_after with (s := k :: rest).
Qed.
Lemma scan_no_semi i slc buf : forall rest j cs, ~ In semi rest ->
  unescape_scan i slc rest j buf cs = Ok (buf, last_size rest cs).
Proof.
  induction rest as [|k rest IH]; intros j cs H; [easy|]. cbn [unescape_scan last_size].
  destruct (N.eqb_spec k cSemi) as [->|Hk]; [destruct H; now left|].
  cbn [bind fst snd]. apply IH. intro. apply H. now right.
Qed.

Lemma string_insert_app d mid s ins :
  string_insert (d ++ mid ++ s) (blen d) (blen d + blen mid) ins = Ok (d ++ ins ++ s).
Proof.
  unfold string_insert.
  rewrite app_assoc. rewrite <- blen_app, slice_from_app. cbn [bind].
  rewrite <- app_assoc. unfold truncate.
  destruct (blen (d ++ mid ++ s) <=? blen d) eqn:E.
  - apply Nat.leb_le in E. rewrite !blen_app in E.
    assert (mid ++ s = []) as E' by (apply blen_nil; rewrite blen_app; lia).
    rewrite E', app_nil_r. reflexivity.
  - now rewrite slice_to_app.
Qed.

(** The first ';' after '&'. *)
Lemma entity_first d pre s cs : starts_with [amp] pre = true ->
  unescape_entity (blen d) (blen pre) (pre ++ semi :: s) (d ++ pre ++ semi :: s) cs =
  match ref_char pre with
  | Some c => Ok (d ++ c :: s, if starts_with (lit "&#") pre then len_utf8 c else cs)
  | None => Ok (d ++ pre ++ semi :: s, cs)
  end.
Proof.
  intro Hamp. unfold unescape_entity. rewrite slice_to_app. cbn [bind].
  replace (blen d + blen pre + 1) with (blen d + blen (pre ++ [semi]))
    by (rewrite blen_app; cbn; lia).
  assert (forall ins, string_insert (d ++ pre ++ semi :: s) (blen d)
    (blen d + blen (pre ++ [semi])) ins = Ok (d ++ ins ++ s)) as Hins.
  { intro ins. rewrite <- string_insert_app with (mid := pre ++ [semi]).
    now rewrite <- !app_assoc. }
  unfold ref_char.
  destruct (str_eqb pre (lit "&amp")) eqn:E1.
  { apply str_eqb_eq in E1. subst pre. rewrite Hins. reflexivity. }
  destruct (str_eqb pre (lit "&lt")) eqn:E2.
  { apply str_eqb_eq in E2. subst pre. cbn [bind]. rewrite Hins. reflexivity. }
  destruct (str_eqb pre (lit "&gt")) eqn:E3.
  { apply str_eqb_eq in E3. subst pre. cbn [bind]. rewrite Hins. reflexivity. }
  destruct (str_eqb pre (lit "&apos")) eqn:E4.
  { apply str_eqb_eq in E4. subst pre. cbn [bind]. rewrite Hins. reflexivity. }
  destruct (str_eqb pre (lit "&quot")) eqn:E5.
  { apply str_eqb_eq in E5. subst pre. cbn [bind]. rewrite Hins. reflexivity. }
  cbn [bind]. destruct (starts_with (lit "&#") pre) eqn:E6; [|easy].
  apply starts_with_spec in E6 as [h ->].
  change 2 with (blen (lit "&#")) at 1. rewrite slice_from_app. cbn [bind].
  change (skipn 2 (lit "&#" ++ h)) with h.
  destruct (from_str_radix16 h) as [n|]; [|easy].
  destruct (char_from_u32 n) as [c|]; [|easy].
  rewrite Hins. reflexivity.
Qed.

(** The whole inner loop on a slice starting with '&'. *)
Lemma scan_first d : forall pre s cs, ~ In semi pre -> starts_with [amp] pre = true ->
  unescape_scan (blen d) (pre ++ semi :: s) (pre ++ semi :: s) 0 (d ++ pre ++ semi :: s) cs =
  match ref_char pre with
  | Some c => Ok (d ++ c :: s, last_size s (len_utf8 c))
  | None => Ok (d ++ pre ++ semi :: s, last_size s 1)
  end.
Proof.
  intros pre s cs Hn Hamp.
  assert (forall p2 p1 cs, pre = p1 ++ p2 ->
    unescape_scan (blen d) (pre ++ semi :: s) (p2 ++ semi :: s) (blen p1) (d ++ pre ++ semi :: s) cs =
    unescape_scan (blen d) (pre ++ semi :: s) (semi :: s) (blen pre) (d ++ pre ++ semi :: s) (last_size p2 cs)) as Hskip.
  { induction p2 as [|k p2 IH]; intros p1 cs' E.
    - rewrite app_nil_r in E. now subst.
    - cbn [app unescape_scan last_size].
      destruct (N.eqb_spec k cSemi) as [->|Hk].
      { destruct Hn. rewrite E. apply in_or_app. right. now left. }
      cbn [bind fst snd].
      replace (blen p1 + len_utf8 k) with (blen (p1 ++ [k])) by (rewrite blen_app; cbn [blen]; lia).
      rewrite IH by (rewrite <- app_assoc; exact E). reflexivity. }
  change 0 with (blen []). rewrite (Hskip pre [] cs eq_refl).
  cbn [unescape_scan]. change (semi =? cSemi)%N with true. cbv iota.
  rewrite entity_first by easy. change (len_utf8 semi) with 1.
  assert (forall buf cs', unescape_scan (blen d) (pre ++ semi :: s) s (blen pre + 1) buf cs'
    = Ok (buf, last_size s cs')) as Hafter.
  { intros buf cs'. replace (blen pre + 1) with (blen (pre ++ [semi])) by (rewrite blen_app; cbn; lia).
    apply scan_after; [now rewrite <- app_assoc|]. apply in_or_app. right. now left. }
  destruct (ref_char pre) as [c|] eqn:R; cbn [bind fst snd]; rewrite Hafter; [|easy].
  destruct (starts_with (lit "&#") pre) eqn:E6; [easy|].
  unfold ref_char in R. rewrite E6 in R.
  repeat match type of R with (if ?b then _ else _) = _ => destruct b;
    [injection R as <-; reflexivity|] end. easy.
Qed.

(** One iteration of the outer loop.  [d] is what has been read already. *)
Lemma unescape_step fuel d t : ~ In amp t ->
  unescape_loop (S fuel) (d ++ t) (blen d) = Ok (d ++ t).
Proof.
  intro H. cbn [unescape_loop]. destruct (blen (d ++ t) <=? blen d); [easy|].
  rewrite slice_from_app. cbn [bind]. change sAmp with [amp].
  apply find_char_none in H. now rewrite H.
Qed.
Lemma unescape_step_amp fuel d p t : ~ In amp p ->
  unescape_loop (S fuel) (d ++ p ++ amp :: t) (blen d) =
  do bc <- unescape_scan (blen (d ++ p)) (amp :: t) (amp :: t) 0 ((d ++ p) ++ amp :: t) 1;
  unescape_loop fuel (fst bc) (blen (d ++ p) + snd bc).
Proof.
  intro H. cbn [unescape_loop].
  replace (blen (d ++ p ++ amp :: t) <=? blen d) with false.
  2: { symmetry. apply Nat.leb_gt. rewrite !blen_app. cbn [blen].
       pose proof (len_utf8_pos amp). lia. }
  rewrite slice_from_app. cbn [bind]. change sAmp with [amp].
  rewrite find_char_app by easy. rewrite Nat.add_comm, <- blen_app.
  rewrite app_assoc, slice_from_app. reflexivity.
Qed.

Lemma split_amp s : (exists p t, s = p ++ amp :: t /\ ~ In amp p) \/ ~ In amp s.
Proof.
  destruct (split_once amp s) as [[a b]|] eqn:E.
  - left. exists a, b. now apply split_once_some.
  - right. now apply split_once_none.
Qed.

(** * The guarded theorem: unescape = decodes *)

Lemma last_ascii_tail a b : last_ascii (a ++ b) -> b <> [] -> last_ascii b.
Proof.
  intros H Hb. destruct H as [H|(x & c & H & Hc)].
  - apply app_eq_nil in H as [_ H]. easy.
  - destruct b as [|y b] using rev_ind; [easy|]. right.
    rewrite app_assoc in H. apply app_inj_tail in H as [_ ->]. now exists b, c.
Qed.
Lemma last_size_ascii s cs : last_ascii s -> cs = 1 -> last_size s cs = 1.
Proof.
  intros [->|(a & c & -> & Hc)] H; [easy|]. rewrite last_size_snoc. now apply len_utf8_ascii.
Qed.

(** Decoding where all references denote ASCII characters. *)
Inductive decodesA : str -> str -> Prop :=
| decA_nil : decodesA [] []
| decA_char c s r : c <> amp -> decodesA s r -> decodesA (c :: s) (c :: r)
| decA_ref nm c s r : entity nm c -> ascii c -> decodesA s r ->
    decodesA ([amp] ++ nm ++ [semi] ++ s) (c :: r)
| decA_lone s r : (forall nm c s', entity nm c -> s <> nm ++ [semi] ++ s') ->
    decodesA s r -> decodesA (amp :: s) (amp :: r).

Lemma decodesA_decodes s r : decodesA s r -> decodes s r.
Proof. induction 1; [constructor|apply dec_char|apply dec_ref|apply dec_lone]; easy. Qed.

Lemma ascii_refs_tail a b : ascii_refs (a ++ b) -> ascii_refs b.
Proof. intros H nm c He (x & y & ->). apply (H nm c He). exists (a ++ x), y. now rewrite <- !app_assoc. Qed.
Lemma decodes_decodesA s r : decodes s r -> ascii_refs s -> decodesA s r.
Proof.
  induction 1 as [|c s r Hc H IH|nm c s r He H IH|s r Hn H IH]; intro Ha.
  - constructor.
  - apply decA_char; [easy|]. apply IH. now apply (ascii_refs_tail [c]).
  - apply decA_ref; [easy| |].
    + apply (Ha nm c He). exists [], s. now rewrite <- !app_assoc.
    + apply IH. apply (ascii_refs_tail ([amp] ++ nm ++ [semi])). now rewrite <- !app_assoc.
  - apply decA_lone; [easy|]. apply IH. now apply (ascii_refs_tail [amp]).
Qed.

Lemma decodesA_no_amp p : ~ In amp p -> forall t r, decodesA (p ++ t) r ->
  exists r', r = p ++ r' /\ decodesA t r'.
Proof.
  induction p as [|c p IH]; intros Hn t r H; [now exists r|].
  cbn [app] in H. inversion H; subst.
  - destruct (IH ltac:(intro; apply Hn; now right) t r0) as (r' & -> & D); [easy|].
    now exists r'.
  - destruct Hn. now left.
  - destruct Hn. now left.
Qed.

Lemma unescape_loop_decodesA : forall fuel s r d, decodesA s r -> last_ascii s ->
  blen s < fuel -> unescape_loop fuel (d ++ s) (blen d) = Ok (d ++ r).
Proof.
  induction fuel as [|fuel IH]; intros s r d D L Hf; [lia|].
  destruct (split_amp s) as [(p & t & -> & Hp)|Hn].
  2: { rewrite unescape_step by easy. f_equal. f_equal.
       rewrite <- (app_nil_r s) in D. destruct (decodesA_no_amp s Hn [] r D) as (r' & -> & D').
       inversion D'; subst. now rewrite app_nil_r. }
  destruct (decodesA_no_amp p Hp _ _ D) as (r' & -> & D').
  rewrite unescape_step_amp by easy.
  apply last_ascii_tail in L; [|easy].
  rewrite blen_app in Hf. cbn [blen] in Hf. change (len_utf8 amp) with 1 in Hf.
  inversion D' as [|c s0 r0 Hc D0 E1 E2|nm c s0 r0 He Hc D0 E1 E2|s0 r0 Hlone D0 E1 E2].
  - subst. easy.
  - subst. cbn [app] in *.
    change (amp :: nm ++ semi :: s0) with ((amp :: nm) ++ semi :: s0) in *.
    rewrite scan_first.
    2: { intros [F|F]; [discriminate|]. now apply entity_no_semi in He. }
    2: { reflexivity. }
    assert (ref_char (amp :: nm) = Some c) as -> by now apply ref_char_spec.
    cbn [bind fst snd].
    rewrite last_size_ascii.
    2: { destruct s0 as [|x s0]; [now left|]. apply (last_ascii_tail ((amp :: nm) ++ [semi])); [|easy].
         now rewrite <- app_assoc. }
    2: { now apply len_utf8_ascii. }
    replace (blen (d ++ p) + 1) with (blen ((d ++ p) ++ [c])).
    2: { rewrite (blen_app (d ++ p)). cbn [blen]. rewrite len_utf8_ascii by easy. lia. }
    change (c :: s0) with ([c] ++ s0). rewrite app_assoc. rewrite IH with (r := r0).
    + now rewrite <- !app_assoc.
    + easy.
    + destruct s0 as [|x s0]; [now left|]. apply (last_ascii_tail ((amp :: nm) ++ [semi])); [|easy].
      now rewrite <- app_assoc.
    + rewrite blen_app in Hf. cbn [blen] in Hf. lia.
  - subst.
    assert (unescape_scan (blen (d ++ p)) (amp :: t) (amp :: t) 0 ((d ++ p) ++ amp :: t) 1 =
            Ok ((d ++ p) ++ amp :: t, 1)) as ->.
    { destruct (split_semi t) as [[[a b] [E Hns]]|Hns]; cbn [fst snd] in *.
      - subst t. change (amp :: a ++ semi :: b) with ((amp :: a) ++ semi :: b) in *.
        rewrite scan_first; [|intros [F|F]; [discriminate|easy]|reflexivity].
        destruct (ref_char (amp :: a)) as [c|] eqn:R.
        { apply ref_char_spec in R. now destruct (Hlone a c b R). }
        f_equal. f_equal. apply last_size_ascii; [|easy].
        destruct b as [|x b]; [now left|]. apply (last_ascii_tail ((amp :: a) ++ [semi])); [|easy].
        now rewrite <- app_assoc.
      - rewrite scan_no_semi by (intros [F|F]; [discriminate|easy]).
        f_equal. f_equal. now apply last_size_ascii. }
    cbn [bind fst snd].
    replace (blen (d ++ p) + 1) with (blen ((d ++ p) ++ [amp]))
      by (rewrite (blen_app (d ++ p)); reflexivity).
    change (amp :: t) with ([amp] ++ t). rewrite app_assoc. rewrite IH with (r := r0).
    + now rewrite <- !app_assoc.
    + easy.
    + destruct t as [|x t]; [now left|]. now apply (last_ascii_tail [amp]).
    + lia.
Qed.

Lemma unescape_decodesA s r : decodesA s r -> last_ascii s -> unescape s = Ok r.
Proof.
  intros D L. unfold unescape. rewrite <- (app_nil_l s) at 2. change 0 with (blen []).
  rewrite unescape_loop_decodesA with (r := r); auto.
Qed.

(** * Consequences *)

Lemma esc_decodesA set t : good_set set -> decodesA (flat_map (escape_char set) t) t.
Proof.
  intros [Ha Hg]. induction t as [|c t IH]; [constructor|]. cbn [flat_map].
  destruct (in_dec N.eq_dec c set) as [Hin|Hn].
  - destruct (Hg c Hin) as (nm & Hnm & ->). apply decA_ref; [now constructor| |easy].
    cbn in Hnm. repeat (destruct Hnm as [E|Hnm]; [inversion E; reflexivity|]). easy.
  - rewrite escape_char_other by easy. apply decA_char; [|easy]. intros ->. easy.
Qed.

Lemma esc_last_ascii set t : good_set set -> last_ascii t ->
  last_ascii (flat_map (escape_char set) t).
Proof.
  intros [Ha Hg] [->|(a & c & -> & Hc)]; [now left|]. right.
  rewrite flat_map_app. cbn [flat_map].
  destruct (in_dec N.eq_dec c set) as [Hin|Hn].
  - destruct (Hg c Hin) as (nm & Hnm & E). rewrite E.
    exists (flat_map (escape_char set) a ++ [amp] ++ nm), semi.
    split; [|reflexivity]. now rewrite <- !app_assoc.
  - rewrite escape_char_other by easy. exists (flat_map (escape_char set) a), c. easy.
Qed.

Lemma esc_no_special set t : (forall c, In c set -> ~ In c t) -> flat_map (escape_char set) t = t.
Proof.
  intro H. induction t as [|c t IH]; [easy|]. cbn [flat_map].
  rewrite escape_char_other, IH; [easy| |].
  - intros x Hx Hin. apply (H x Hx). now right.
  - intro Hin. apply (H c Hin). now left.
Qed.

Lemma unescape_no_amp t : ~ In amp t -> unescape t = Ok t.
Proof. intro H. unfold unescape. exact (unescape_step (blen t) [] t H). Qed.

Lemma unescape_esc set t : good_set set ->
  last_ascii t \/ (forall c, In c set -> ~ In c t) ->
  unescape (flat_map (escape_char set) t) = Ok t.
Proof.
  intros Hg [H|H].
  - apply unescape_decodesA; [now apply esc_decodesA|now apply esc_last_ascii].
  - rewrite esc_no_special by easy. apply unescape_no_amp. apply H. apply Hg.
Qed.

Lemma unescape_escape t : last_ascii t \/ (forall c, In c all_special -> ~ In c t) ->
  unescape (escape t) = Ok t.
Proof. rewrite escape_char_map. apply unescape_esc, good_all. Qed.
Lemma unescape_text_escape t : last_ascii t \/ (forall c, In c text_special -> ~ In c t) ->
  unescape (text_escape t) = Ok t.
Proof. rewrite text_escape_char_map. apply unescape_esc, good_text. Qed.

Lemma esc_injective set a b : good_set set ->
  flat_map (escape_char set) a = flat_map (escape_char set) b -> a = b.
Proof.
  intros Hg E. pose proof (esc_decodes set a Hg) as Da. pose proof (esc_decodes set b Hg) as Db.
  rewrite E in Da. eapply decodes_fun; eauto.
Qed.
Lemma escape_injective a b : escape a = escape b -> a = b.
Proof. rewrite !escape_char_map. apply esc_injective, good_all. Qed.
Lemma text_escape_injective a b : text_escape a = text_escape b -> a = b.
Proof. rewrite !text_escape_char_map. apply esc_injective, good_text. Qed.

Lemma unescape_decodes t r : last_ascii t -> ascii_refs t -> decodes t r -> unescape t = Ok r.
Proof. intros L R D. apply unescape_decodesA; [|easy]. now apply decodes_decodesA. Qed.

(** * No markup in escaped text *)

Lemma esc_no_markup set t c : good_set set -> In c set -> c <> amp ->
  ~ In c (flat_map (escape_char set) t).
Proof.
  intros [Ha Hg] Hin Hne F. apply in_flat_map in F as (x & Hx & F).
  destruct (in_dec N.eq_dec x set) as [Hxs|Hn].
  - destruct (Hg x Hxs) as (nm & Hnm & E). specialize (E []). rewrite app_nil_r in E.
    rewrite E in F. destruct F as [F|F]; [now subst|].
    destruct (Hg c Hin) as (nm' & Hnm' & _).
    cbn in Hnm, Hnm'.
    repeat (destruct Hnm' as [G|Hnm']; [inversion G; subst|]); try easy;
    repeat (destruct Hnm as [G'|Hnm]; [inversion G'; subst; cbn in F; intuition discriminate|]); easy.
  - rewrite escape_char_other in F by easy. destruct F as [->|[]]. easy.
Qed.

(** Every '&' of an escaped text begins the entity of an escaped character. *)
Lemma esc_amp set t a b : good_set set -> flat_map (escape_char set) t = a ++ amp :: b ->
  exists nm c b', In (nm, c) predefined /\ In c set /\ b = nm ++ [semi] ++ b'.
Proof.
  intros [Ha Hg]. revert a. induction t as [|x t IH]; intros a E; cbn [flat_map] in E.
  - now destruct a.
  - destruct (in_dec N.eq_dec x set) as [Hxs|Hn].
    + destruct (Hg x Hxs) as (nm & Hnm & F). rewrite F in E.
      destruct a as [|y a].
      * cbn [app] in E. inversion E; subst. now exists nm, x, (flat_map (escape_char set) t).
      * cbn [app] in E. inversion E; subst.
        assert (~ In amp (nm ++ [semi])) as Hno.
        { cbn in Hnm. repeat (destruct Hnm as [G|Hnm]; [inversion G; cbn; intuition discriminate|]). easy. }
        assert (exists a', flat_map (escape_char set) t = a' ++ amp :: b) as (a' & E').
        { clear -H1 Hno. change (semi :: flat_map (escape_char set) t) with ([semi] ++ flat_map (escape_char set) t) in H1.
          rewrite app_assoc in H1. revert a H1.
          induction (nm ++ [semi]) as [|z l IHl]; intros a H1; [now exists a|].
          destruct a as [|w a]; cbn [app] in H1.
          - inversion H1; subst. destruct Hno. now left.
          - inversion H1; subst. apply (IHl ltac:(intro; apply Hno; now right) a). easy. }
        now apply (IH a').
    + rewrite escape_char_other in E by easy. destruct a as [|y a]; cbn [app] in E; inversion E; subst.
      * easy.
      * now apply (IH a).
Qed.

(** * General behaviour of the loop: termination, panics, size *)

(** One iteration in general: either it stops, or it continues with a buffer
    that is no longer and a strictly larger offset. *)
Lemma entity_len nm c : entity nm c -> len_utf8 c <= 2 + blen nm.
Proof.
  intros [nm' c' H|h c' Hh Hs|h c' Hh Hs].
  - cbn in H. repeat (destruct H as [E|H]; [inversion E; subst; cbn; lia|]). easy.
  - pose proof (len_utf8_le4 c'). rewrite blen_app. cbn [blen lit list_ascii_of_string map].
    change (len_utf8 (N_of_ascii "#")) with 1.
    assert (1 <= blen h).
    { destruct (hex_number_not_plus _ _ Hh) as [_ Hne]. destruct h as [|x h]; [easy|]. cbn [blen].
      pose proof (len_utf8_pos x). lia. }
    lia.
  - pose proof (len_utf8_le4 c'). rewrite blen_app. cbn. lia.
Qed.

Lemma scan_general d t : exists buf cs,
  unescape_scan (blen d) (amp :: t) (amp :: t) 0 (d ++ amp :: t) 1 = Ok (buf, cs) /\
  1 <= cs /\ blen buf <= blen (d ++ amp :: t).
Proof.
  destruct (split_semi t) as [[[a b] [E Hns]]|Hns]; cbn [fst snd] in *.
  - subst t. change (amp :: a ++ semi :: b) with ((amp :: a) ++ semi :: b) in *.
    rewrite scan_first; [|intros [F|F]; [discriminate|easy]|reflexivity].
    destruct (ref_char (amp :: a)) as [c|] eqn:R.
    + exists (d ++ c :: b), (last_size b (len_utf8 c)). split; [easy|]. split.
      * apply last_size_pos, len_utf8_pos.
      * apply ref_char_spec, entity_len in R. rewrite !blen_app. cbn [blen].
        change (len_utf8 semi) with 1. change (len_utf8 amp) with 1. lia.
    + do 2 eexists. split; [reflexivity|]. split; [now apply last_size_pos|easy].
  - rewrite scan_no_semi by (intros [F|F]; [discriminate|easy]).
    do 2 eexists. split; [reflexivity|]. split; [|easy]. now apply last_size_pos.
Qed.

Lemma unescape_loop_general : forall fuel buffer last_i, 1 <= fuel ->
  blen buffer < last_i + fuel ->
  (exists r, unescape_loop fuel buffer last_i = Ok r /\ blen r <= blen buffer) \/
  unescape_loop fuel buffer last_i = Panic.
Proof.
  induction fuel as [|fuel IH]; intros buffer last_i H1 H; [lia|].
  destruct (blen buffer <=? last_i) eqn:L.
  - left. exists buffer. cbn [unescape_loop]. rewrite L. easy.
  - destruct (bskip last_i buffer) as [tl|] eqn:E.
    2: { right. cbn [unescape_loop]. rewrite L. unfold slice_from. now rewrite E. }
    apply bskip_inv in E as (d & -> & <-).
    destruct (split_amp tl) as [(p & t & -> & Hp)|Hn].
    + rewrite unescape_step_amp by easy.
      destruct (scan_general (d ++ p) t) as (buf & cs & -> & Hcs & Hb).
      cbn [bind fst snd]. rewrite <- app_assoc in Hb.
      apply Nat.leb_gt in L.
      destruct (IH buf (blen (d ++ p) + cs)) as [(r & E & Hr)|E].
      * lia.
      * rewrite (blen_app d p). lia.
      * left. exists r. split; [easy|]. lia.
      * now right.
    + left. exists (d ++ tl). now rewrite unescape_step.
Qed.

Lemma unescape_total t : (exists r, unescape t = Ok r /\ blen r <= blen t) \/ unescape t = Panic.
Proof. unfold unescape. apply unescape_loop_general; lia. Qed.

(** * Where it panics *)

Lemma unescape_amp_panics c : ~ ascii c -> unescape [amp; c] = Panic.
Proof.
  unfold ascii. intro H. assert (128 <= c)%N as Hc by lia. apply len_utf8_not_ascii in Hc.
  unfold unescape. rewrite <- (app_nil_l [amp; c]) at 2. change 0 with (blen []).
  pose proof (unescape_step_amp (blen [amp; c]) [] [] [c] (fun x => x)) as E.
  cbn [app] in E |- *. rewrite E. clear E.
  rewrite scan_no_semi.
  2: { intros [F|[F|[]]]; [discriminate|]. subst. unfold semi in H. lia. }
  cbn [bind fst snd last_size blen]. change (len_utf8 amp) with 1.
  cbn [plus]. replace (len_utf8 c + 0) with (len_utf8 c) by lia.
  destruct (len_utf8 c) as [|k] eqn:E; [lia|].
  cbn [unescape_loop blen]. change (len_utf8 amp) with 1. rewrite E.
  replace (1 + (S k + 0) <=? S k) with false by (symmetry; apply Nat.leb_gt; lia).
  unfold slice_from. cbn [bskip]. change (len_utf8 amp) with 1.
  replace (1 <=? S k) with true by (symmetry; apply Nat.leb_le; lia).
  destruct (S k - 1) as [|m] eqn:E2; [lia|]. rewrite E.
  replace (S k <=? S m) with false by (symmetry; apply Nat.leb_gt; lia). reflexivity.
Qed.

Lemma unescape_ref_panics h c s : hex_number h c -> scalar c -> ~ ascii c ->
  s <> [] -> last_ascii s -> unescape (lit "&#" ++ h ++ [semi] ++ s) = Panic.
Proof.
  intros Hh Hs Hc Hne L.
  assert (entity (lit "#" ++ h) c) as He by now constructor.
  set (nm := lit "#" ++ h) in *.
  change (lit "&#" ++ h ++ [semi] ++ s) with ((amp :: nm) ++ semi :: s).
  unfold unescape. rewrite <- (app_nil_l ((amp :: nm) ++ semi :: s)) at 2. change 0 with (blen []).
  pose proof (unescape_step_amp (blen ((amp :: nm) ++ semi :: s)) [] [] (nm ++ semi :: s) (fun x => x)) as E.
  cbn [app] in E |- *. rewrite E. clear E.
  pose proof (scan_first [] (amp :: nm) s 1) as E. cbn [app] in E. rewrite E; clear E.
  2: { intros [F|F]; [discriminate|]. now apply entity_no_semi in He. }
  2: { reflexivity. }
  assert (ref_char (amp :: nm) = Some c) as -> by now apply ref_char_spec.
  cbn [bind fst snd].
  assert (last_size s (len_utf8 c) = 1) as ->.
  { destruct L as [->|(a & x & -> & Hx)]; [easy|]. rewrite last_size_snoc. now apply len_utf8_ascii. }
  unfold ascii in Hc. assert (128 <= c)%N as Hc' by lia. apply len_utf8_not_ascii in Hc'.
  cbn [blen app]. destruct (len_utf8 amp + blen (nm ++ semi :: s)) as [|f] eqn:F;
    [change (len_utf8 amp) with 1 in F; lia|].
  cbn [unescape_loop blen plus].
  replace (len_utf8 c + blen s <=? 1) with false by (symmetry; apply Nat.leb_gt; lia).
  unfold slice_from. cbn [bskip].
  replace (len_utf8 c <=? 1) with false by (symmetry; apply Nat.leb_gt; lia). reflexivity.
Qed.

(** No panic on ASCII text without numeric references. *)
Lemma all_ascii_last t : all_ascii t -> last_ascii t.
Proof.
  intro H. destruct t as [|c t] using rev_ind; [now left|]. right. exists t, c. split; [easy|].
  apply Forall_app in H as [_ H]. now inversion H.
Qed.
Lemma no_hash_ascii_refs t : ~ substring (lit "&#") t -> ascii_refs t.
Proof.
  intros H nm c He (a & b & ->). destruct He as [nm c Hin|h c Hh Hs|h c Hh Hs].
  - cbn in Hin. repeat (destruct Hin as [E|Hin]; [inversion E; reflexivity|]). easy.
  - destruct H. exists a, (h ++ [semi] ++ b). now rewrite <- !app_assoc.
  - destruct H. exists a, (lit "+" ++ h ++ [semi] ++ b). now rewrite <- !app_assoc.
Qed.
Lemma unescape_ascii t : all_ascii t -> ~ substring (lit "&#") t ->
  exists r, unescape t = Ok r.
Proof.
  intros Ha Hn. destruct (decodes_total t) as [r D]. exists r.
  apply unescape_decodes; [now apply all_ascii_last|now apply no_hash_ascii_refs|easy].
Qed.

(** * Statements used by P_Escape.v *)

Lemma unescape_returns t : (exists r, unescape t = Ok r) \/ unescape t = Panic.
Proof. destruct (unescape_total t) as [(r & H & _)|H]; [left; now exists r|now right]. Qed.
Lemma unescape_size t r : unescape t = Ok r -> blen r <= blen t.
Proof.
  intro H. destruct (unescape_total t) as [(r' & H' & L)|H']; rewrite H in H'; [|discriminate].
  now injection H' as ->.
Qed.
Lemma decodes_unique t : exists! r, decodes t r.
Proof.
  destruct (decodes_total t) as [r D]. exists r. split; [easy|]. intros r' D'.
  now apply (decodes_fun t).
Qed.

Lemma escape_no_markup t :
  (forall c, In c (escape t) -> c <> 60 /\ c <> 62 /\ c <> 39 /\ c <> 34)%N /\
  (forall a b, escape t = a ++ amp :: b ->
     exists nm c b', In (nm, c) predefined /\ b = nm ++ [semi] ++ b').
Proof.
  rewrite escape_char_map. split.
  - intros c Hin. repeat split; intros ->;
      (revert Hin; apply esc_no_markup; [apply good_all|cbn; tauto|discriminate]).
  - intros a b E. destruct (esc_amp _ _ _ _ good_all E) as (nm & c & b' & H1 & _ & H2).
    now exists nm, c, b'.
Qed.
Lemma text_escape_no_markup t :
  (forall c, In c (text_escape t) -> c <> 60 /\ c <> 62)%N /\
  (forall a b, text_escape t = a ++ amp :: b ->
     exists nm b', In nm [lit "amp"; lit "lt"; lit "gt"] /\ b = nm ++ [semi] ++ b').
Proof.
  rewrite text_escape_char_map. split.
  - intros c Hin. repeat split; intros ->;
      (revert Hin; apply esc_no_markup; [apply good_text|cbn; tauto|discriminate]).
  - intros a b E. destruct (esc_amp _ _ _ _ good_text E) as (nm & c & b' & H1 & H0 & H2).
    exists nm, b'. split; [|easy].
    cbn in H1, H0. repeat (destruct H1 as [G|H1]; [inversion G; subst; cbn; first [tauto|intuition discriminate]|]). easy.
Qed.

Lemma unescape_escape_amp_nonascii set c : good_set set -> ~ ascii c ->
  (forall x, In x set -> ascii x) ->
  unescape (flat_map (escape_char set) [amp; c]) = Panic.
Proof.
  intros Hg Hc Hset. cbn [flat_map].
  destruct (proj2 Hg amp (proj1 Hg)) as (nm & Hnm & ->).
  rewrite app_nil_r. rewrite (escape_char_other set c) by (intro H; now apply Hset in H).
  assert (nm = lit "amp") as ->.
  { cbn in Hnm. repeat (destruct Hnm as [G|Hnm]; [inversion G; reflexivity|]). easy. }
  assert (128 <= c)%N as Hc' by (unfold ascii in Hc; lia). apply len_utf8_not_ascii in Hc'.
  assert (c <> semi) as Hs by (intros ->; now apply Hc).
  set (nm := lit "amp"). unfold unescape. change 0 with (blen []).
  pose proof (unescape_step_amp (blen ([amp] ++ nm ++ [semi] ++ [c])) [] [] (nm ++ [semi] ++ [c]) (fun x => x)) as E.
  cbn [app] in E |- *. rewrite E. clear E.
  pose proof (scan_first [] (amp :: nm) [c] 1) as E. cbn [app] in E. rewrite E; clear E.
  2: { cbn. intuition discriminate. }
  2: { reflexivity. }
  change (ref_char (amp :: nm)) with (Some amp).
  cbn [bind fst snd last_size blen plus]. change (len_utf8 amp) with 1.
  set (f := blen (nm ++ semi :: [c])).
  assert (f = 4 + len_utf8 c) as Hf by (unfold f; rewrite blen_app; cbn [blen]; change (blen nm) with 3; change (len_utf8 semi) with 1; lia).
  cbn [plus]. cbn [unescape_loop blen]. change (len_utf8 amp) with 1.
  replace (1 + (len_utf8 c + 0) <=? len_utf8 c) with false by (symmetry; apply Nat.leb_gt; lia).
  unfold slice_from. destruct (len_utf8 c) as [|k] eqn:E; [lia|]. cbn [bskip]. change (len_utf8 amp) with 1.
  replace (1 <=? S k) with true by (symmetry; apply Nat.leb_le; lia).
  destruct (S k - 1) as [|m] eqn:E2; [lia|]. rewrite E.
  replace (S k <=? S m) with false by (symmetry; apply Nat.leb_gt; lia). reflexivity.
Qed.
Lemma unescape_escape_panics c : ~ ascii c -> unescape (escape [amp; c]) = Panic.
Proof.
  intro H. rewrite escape_char_map. apply unescape_escape_amp_nonascii; [apply good_all|easy|].
  intros x Hx. cbn in Hx. repeat (destruct Hx as [<-|Hx]; [reflexivity|]). easy.
Qed.

Lemma unescape_not_decodes : exists t r r' : str, decodes t r /\ unescape t = Ok r' /\ r <> r'.
Proof.
  exists (escape (lit "&<" ++ [9788%N])), (lit "&<" ++ [9788%N]), (lit "&&lt;" ++ [9788%N]).
  split; [|split].
  - rewrite escape_char_map. apply esc_decodes, good_all.
  - vm_compute. reflexivity.
  - discriminate.
Qed.

(** Running the tag finder to split concrete inputs (used by examples). *)
From Coq Require Import List NArith Arith Bool Ascii String Lia.
From Verif Require Import Base BaseFacts Spec Parse SpecLex LexFacts ParseFacts DocFacts.
Import ListNotations.

Fixpoint lex_run (f : nat) (s : str) : option (list (str * str) * str) :=
  match f with
  | O => None
  | S f' =>
      match next_tag s 0 with
      | Ok (None, _) => Some ([], s)
      | Ok (Some a, Some b) =>
          match slice s 0 a, slice s a b, slice_from s b with
          | Ok txt, Ok t, Ok rest =>
              match lex_run f' rest with
              | Some (toks, tail) => Some ((txt, t) :: toks, tail)
              | None => None
              end
          | _, _, _ => None
          end
      | _ => None
      end
  end.
Lemma lex_run_sound f : forall s toks tail, lex_run f s = Some (toks, tail) -> splits s toks tail.
Proof.
  induction f as [|f IH]; intros s toks tail H; [discriminate|]. cbn [lex_run] in H.
  destruct (lex_cases s) as [Hn|[Hb|(txt & s' & t & rest & -> & Hn & T & Hlt)]].
  - pose proof (next_tag_none [] s Hn) as E. cbn [app blen] in E. rewrite E in H. injection H as <- <-.
    split; [apply lx_nil|easy].
  - destruct Hb as [txt s' Hn L Hno]. pose proof (next_tag_spec [] (txt ++ s')) as R. cbn [app blen Nat.add] in R.
    inversion R as [Hs E|txt' s'' E Hn' L' Hno' E'|txt' s'' t' rest' E Hn' T' E'].
    + exfalso. apply Hs. destruct L as [x ->]. apply in_or_app. right. now left.
    + rewrite <- E' in H. discriminate.
    + exfalso. destruct (split_lt _ _ _ _ Hn Hn' L (tag_at_lt _ _ _ T') E) as [-> ->]. now apply (Hno t' rest').
  - pose proof (next_tag_at [] txt s' t rest Hn T) as E. cbn [app blen Nat.add] in E. rewrite E in H.
    destruct (tag_at_nonempty _ _ _ T) as [-> _].
    pose proof (slice_app [] txt (t ++ rest)) as E1. cbn [app blen Nat.add] in E1. rewrite E1 in H.
    rewrite slice_app in H. replace (txt ++ t ++ rest) with ((txt ++ t) ++ rest) in H by now rewrite <- app_assoc.
    rewrite <- blen_app, slice_from_app in H. destruct (lex_run f rest) as [[toks' tail']|] eqn:Er; [|discriminate].
    injection H as <- <-. apply IH in Er. destruct Er as [L N]. split; [|easy].
    apply lx_tag with rest; easy.
Qed.
Ltac lex_by := apply (lex_run_sound 100); vm_compute; reflexivity.

(** Props_Cll.v -- property C61: the cmavo of the reference grammar.
    Vocabulary: SpecCll.v ([cll_member k x]: the reference grammar has the cmavo
    [x] in selma'o [k]), SpecCmavo.v ([spelling t]: [t] without commas, h
    written as the apostrophe; [is_word_class]).  [as_repr] is the display name
    of a selma'o. *)
From Verif Require Import Base Utf8 Selmaho ClassifyTable Classify SpecText SpecCmavo SpecCll SpecMorph ClassifyFacts ClassifyThms MorphThms CllFacts.
From Coq Require Import Lia.

(** C61 Every cmavo of the reference grammar except [ja'i] and [po'i] is
    classified in its selma'o and not marked as experimental. *)
Theorem C61_cll_cmavo w k x : cll_member k x -> ~ In x ["ja'i"; "po'i"]%string -> spelling (txt w) = lit x ->
  exists s, classify w = Ret (s, false) /\ as_repr s = k.
Proof. exact (cll_classified w k x). Qed.
Print Assumptions C61_cll_cmavo.

(** Conversely a word with a cmavo class that is not marked as experimental is
    one of them, [ci'a], a digit, or a hesitation. *)
Theorem C61_only_cll w s : scalars (txt w) -> classify w = Ret (s, false) -> ~ is_word_class s ->
  (exists x, cll_member (as_repr s) x /\ spelling (txt w) = lit x) \/
  (exists x, In x ["ci'a"; "0"; "1"; "2"; "3"; "4"; "5"; "6"; "7"; "8"; "9"]%string /\ spelling (txt w) = lit x) \/
  (as_repr s = "Y"%string /\ exists n, spelling (txt w) = repeat 121 (S n)).
Proof. exact (cll_only w s). Qed.
Print Assumptions C61_only_cll.

Lemma spelling_4 t a b d : a <> 39 -> b <> 39 -> d <> 39 -> spelling t = [a; b; 39; d] -> exists h, In h (lit "'h") /\ letters t = [a; b; h; d].
Proof.
  unfold spelling. intros Ha Hb Hd H. destruct (letters t) as [|x1 [|x2 [|x3 [|x4 [|x5 l]]]]]; cbn [map] in H; try discriminate.
  injection H as H1 H2 H3 H4. exists x3.
  assert (G : forall x y, y <> 39 -> (if x =? 104 then 39 else x) = y -> x = y).
  { intros x y Hy. destruct (N.eqb_spec x 104); intros E; congruence. }
  rewrite (G _ _ Ha H1), (G _ _ Hb H2), (G _ _ Hd H4). split; [|reflexivity].
  destruct (N.eqb_spec x3 104) as [->|]; [right; left; reflexivity|left; symmetry; exact H3].
Qed.

(** The claim fails for [ja'i] (by the rule of) and [po'i] (in the sequence of),
    which the source does not know: they are unknown cmavo. *)
Theorem C61_missing_refuted w : spelling (txt w) = lit "ja'i" \/ spelling (txt w) = lit "po'i" -> last (txt w) 0 <> 44 ->
  classify w = Ret (S_UnknownCmavo, true).
Proof.
  intros H Hl.
  assert (X : exists c v h, In c (lit "jp") /\ In v (lit "ao") /\ In h (lit "'h") /\ letters (txt w) = [c; v; h; 105] /\ spelling (txt w) = [c; v; 39; 105] /\
                            forall s e, ~ listed (spelling (txt w)) s e).
  { destruct H as [H|H].
    - destruct (spelling_4 (txt w) 106 97 105 ltac:(discriminate) ltac:(discriminate) ltac:(discriminate) H) as (h & Hh & E).
      exists 106, 97, h. split; [cbn; tauto|]. split; [cbn; tauto|]. split; [exact Hh|]. split; [exact E|]. split; [exact H|].
      intros s e L; rewrite H in L; apply listed_lookup in L; vm_compute in L; discriminate.
    - destruct (spelling_4 (txt w) 112 111 105 ltac:(discriminate) ltac:(discriminate) ltac:(discriminate) H) as (h & Hh & E).
      exists 112, 111, h. split; [cbn; tauto|]. split; [cbn; tauto|]. split; [exact Hh|]. split; [exact E|]. split; [exact H|].
      intros s e L; rewrite H in L; apply listed_lookup in L; vm_compute in L; discriminate. }
  destruct X as (c & v & h & Hc & Hv & Hh & E & Es & Hn).
  assert (S : scalars (txt w)).
  { apply spelling_scalars. rewrite Es. cbn in Hc, Hv. repeat constructor; intuition (subst; reflexivity). }
  apply (proj2 (classify_unknown_cmavo w true S)). split; [reflexivity|]. split; [exact Hl|]. split; [|left; exact Hn].
  rewrite E. right. right. right. exists c, [v; h; 105]. split; [reflexivity|]. split; [|left; destruct Hc as [<-|[<-|[]]]; vm_compute; tauto].
  apply (nuclei_more [v] h [105]); [left; exists v; split; [reflexivity|destruct Hv as [<-|[<-|[]]]; vm_compute; tauto]|exact Hh|]. apply nuclei_one. left. exists 105. split; [reflexivity|vm_compute; tauto].
Qed.
Print Assumptions C61_missing_refuted.

Example C61_example : cll_member "KOhA" "zo'e" /\ cll_member "BAI" "ja'i" /\ spelling (lit "z,oh,e") = lit "zo'e" /\
  classify (mkstr 0 (lit "z,oh,e")) = Ret (S_Koha, false) /\ as_repr S_Koha = "KOhA"%string /\
  classify (mkstr 0 (lit "pohi")) = Ret (S_UnknownCmavo, true).
Proof.
  split; [eexists; split; [unfold cll_cmavo; cbn; tauto|cbn; tauto]|]. split; [eexists; split; [unfold cll_cmavo; cbn; tauto|cbn; tauto]|].
  repeat split; vm_compute; reflexivity.
Qed.

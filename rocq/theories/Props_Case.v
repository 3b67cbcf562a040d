(** Props_Case.v -- C75: the case of consonants and of y.  Vocabulary: SpecCase.v
    ([case_edit], [capital]), SpecReading.v ([read_alike], [quote_free]). *)
From Verif Require Import Base Span Utf8 Selmaho Decompose Classify Lex SpecText SpecLex SpecWords SpecCmavo SpecMorph Cst CstRules CstApi SpecCst SpecReading SpecCase.
From Verif Require Import PegSim ClassifyThms ClassifyFacts MorphThms DecWords Caseless Props_Reading.
From Coq Require Import Lia Arith.
Local Open Scope list_scope.

(** C75 Words are found at the same places. *)
Theorem C75_same_words bm s s' ws : case_edit (txt s) (txt s') -> s_len s < 4294967296 -> decompose_all bm s = Ret ws ->
  decompose_all bm s' = Ret ws.
Proof. exact (case_edit_words bm s s' ws). Qed.
Print Assumptions C75_same_words.

(** A brivla or a name keeps its class. *)
Theorem C75_words_keep_class w w' c e : case_edit (txt w) (txt w') -> scalars (txt w) ->
  In c [S_Cmevla; S_Gismu; S_Fuhivla; S_Lujvo] -> classify w = Ret (c, e) -> classify w' = Ret (c, e).
Proof.
  intros H S Hc Hw. pose proof (case_scalars _ _ H S) as S'. pose proof (general_class_case _ _ H) as G.
  assert (Gc : general_class (txt w) = c /\ e = is_fundamentally_experimental c).
  { destruct (classify_cases w S) as [(s & e0 & L & E)|E]; rewrite Hw in E.
    - exfalso. injection E as -> _. apply (listed_not_general _ _ _ L). cbn in Hc |- *. tauto.
    - injection E as -> ->. split; reflexivity. }
  destruct Gc as [Gc ->]. destruct (classify_cases w' S') as [(s & e0 & L & _)|E].
  - exfalso. destruct (listed_general _ _ _ L) as [I _]. rewrite <- G, Gc in I. clear - Hc I. cbn in Hc, I. intuition congruence.
  - rewrite E, <- G, Gc. reflexivity.
Qed.
Print Assumptions C75_words_keep_class.

(** A word with a capital letter is never one of the cmavo of the list .. *)
Theorem C75_capital_not_listed w c s e : In c (txt w) -> capital c -> scalars (txt w) -> classify w = Ret (s, e) ->
  In s [S_Cmevla; S_UnknownCmavo; S_Gismu; S_Fuhivla; S_Lujvo; S_AnyText].
Proof.
  intros Hc K S Hw. apply (classify_unknown w s e Hw S). left. intros s' e' L.
  exact (listed_lower _ _ _ c L (capital_spelling _ _ Hc K) K).
Qed.
Print Assumptions C75_capital_not_listed.

(** .. so a cmavo of the list with such a capital is an unknown cmavo. *)
Theorem C75_cmavo_lost w w' s e c : case_edit (txt w) (txt w') -> scalars (txt w) -> no_sep (txt w) -> last (txt w) 0 <> 44 ->
  classify w = Ret (s, e) -> ~ In s [S_Cmevla; S_Gismu; S_Fuhivla; S_Lujvo; S_AnyText] ->
  In c (txt w') -> capital c -> classify w' = Ret (S_UnknownCmavo, true).
Proof.
  intros H S N L Hw Hn Hc K. pose proof (case_scalars _ _ H S) as S'. pose proof (general_class_case _ _ H) as G.
  apply ends_comma_last in L.
  assert (Gc : general_class (txt w) = S_UnknownCmavo).
  { destruct (classify_cases w S) as [(s1 & e1 & L1 & E)|E].
    - exact (proj2 (listed_general _ _ _ L1) N L).
    - rewrite Hw in E. injection E as -> _. pose proof (general_class_in (txt w)) as I. clear - I Hn. unfold general_classes in I. cbn in I, Hn. intuition congruence. }
  destruct (classify_cases w' S') as [(s1 & e1 & L1 & _)|E].
  - destruct (listed_lower _ _ _ c L1 (capital_spelling _ _ Hc K) K).
  - rewrite E, <- G, Gc. reflexivity.
Qed.
Print Assumptions C75_cmavo_lost.

(** If only brivla and names change, the text is read alike. *)
Theorem C75_read_alike bm s s' ws : case_edit (txt s) (txt s') -> s_len s < 4294967296 -> scalars (txt s) ->
  decompose_all bm s = Ret ws -> quote_free s ws ->
  (forall x w w', In x ws -> span_slice x s = Some w -> span_slice x s' = Some w' ->
     txt w = txt w' \/ exists c e, classify w = Ret (c, e) /\ In c [S_Cmevla; S_Gismu; S_Fuhivla; S_Lujvo]) ->
  read_alike bm s s'.
Proof.
  intros H L S D Q F. pose proof (C75_same_words bm s s' ws H L D) as D'.
  assert (B : s_len s' = s_len s) by (unfold s_len; symmetry; apply cvar_blen, H).
  apply (C74_words bm s s' ws ws); [exact L|rewrite B; exact L|exact S|exact (case_scalars _ _ H S)|exact D|exact D'| |exact Q].
  assert (A : forall x, In x ws -> exists w, span_slice x s = Some w).
  { intros x Hx. pose proof (DecomposeSim.text_words_cut (txt s)) as C.
    pose proof (DecWords.decompose_spec bm s ws D L) as E.
    subst ws. clear - C Hx. induction C as [|y u l l' Hy C IH]; [destruct Hx|]. destruct Hx as [->|Hx]; [|exact (IH Hx)].
    eexists. apply DecomposeSim.cuts_slice. exact Hy. }
  assert (G : forall x, In x ws -> same_word s s' x x).
  { intros x Hx. destruct (A x Hx) as (w & Hw). destruct (case_edit_slice s s' x w H Hw) as (w' & Hw' & E).
    exists w, w'. split; [exact Hw|]. split; [exact Hw'|].
    destruct (F x w w' Hx Hw Hw') as [T|(c & e & Hc & I)].
    - destruct w as [p t], w' as [p' t']. cbn [txt] in T. subst t'. apply classify_ptr.
    - rewrite Hc. symmetry. apply (C75_words_keep_class w w' c e); try assumption.
      apply SpanThms.slice_some in Hw as (a & b & Et & _). unfold scalars in *. rewrite Et, !Forall_app in S. tauto. }
  clear - G. induction ws as [|x ws IH]; constructor; [apply G; left; reflexivity|]. apply IH. intros y Hy. apply G. right. exact Hy.
Qed.
Print Assumptions C75_read_alike.

(** ** Cases *)
Definition k_text : str := mkstr 0 (lit "lo barda cu djan prami la .mark.").
Definition k_text' : str := mkstr 0 (lit "lo BarDa cu DJaN prami la .MarK.").

Definition k_words : list span := [mkspan 0 2; mkspan 3 8; mkspan 9 11; mkspan 12 16; mkspan 17 22; mkspan 23 25; mkspan 27 31].

Example C75_example : case_edit (txt k_text) (txt k_text') /\
  decompose_all Debug k_text = Ret k_words /\ decompose_all Debug k_text' = Ret k_words /\
  classify (mkstr 0 (lit "barda")) = Ret (S_Gismu, false) /\ classify (mkstr 0 (lit "BarDa")) = Ret (S_Gismu, false) /\
  classify (mkstr 0 (lit "lo")) = Ret (S_Le, false) /\ classify (mkstr 0 (lit "Lo")) = Ret (S_UnknownCmavo, true).
Proof.
  split.
  { let a := eval vm_compute in (txt k_text) in let b := eval vm_compute in (txt k_text') in change (case_edit a b).
    unfold case_edit.
    repeat (apply Forall2_cons; [first [left; reflexivity | right; split; [reflexivity|apply (PegChars.mem_char_In _ (lit "bcdfgjklmnprstvxzy")); reflexivity]]|]).
    apply Forall2_nil. }
  split; [vm_compute; reflexivity|]. repeat split; vm_compute; reflexivity.
Qed.

(** The vowels are another matter: a capital vowel is stress, and can cut a word off. *)
Theorem C75_vowels_refuted : exists t t' : list char, map lower t = map lower t' /\
  decompose_all Debug (mkstr 0 t) <> decompose_all Debug (mkstr 0 t').
Proof. exists (lit "bardamulno"), (lit "bArdamulno"). split; [reflexivity|vm_compute; discriminate]. Qed.
Print Assumptions C75_vowels_refuted.

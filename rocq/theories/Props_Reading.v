(** Props_Reading.v -- C74: how a text is written does not matter to how it is
    read.  Vocabulary: SpecReading.v, SpecText.v ([comma_edit],
    [apostrophe_edit]), SpecWords.v ([spelled], [spaced]). *)
From Verif Require Import Base Span Utf8 Selmaho Decompose Classify Lex SpecText SpecLex SpecWords SpecCmavo SpecMorph Cst CstRules CstApi SpecCst SpecReading.
From Verif Require Import SpanThms PegMeta PegSim DecomposeSpec DecomposeFacts DecomposeSim ClassifyFacts DecWords Props_Decompose Props_Classify Props_Lex Props_Cst Props_Words.
From Coq Require Import Lia Arith.
Local Open Scope list_scope.

Lemma classify_ptr p p' t : classify (mkstr p t) = classify (mkstr p' t).
Proof. apply classify_sim. apply sim_refl. Qed.

Lemma slice_ptr sp p p' t w : span_slice sp (mkstr p t) = Some w -> exists q, span_slice sp (mkstr p' t) = Some (mkstr q (txt w)).
Proof.
  intros H. apply slice_some in H as (a & b & E & _ & H1 & H2). cbn [txt] in *. exists (p' + sp_start sp). apply slice_some.
  exists a, b. cbn [txt ptr]. auto.
Qed.

Lemma tokens_of T ws items : Forall2 (token_of T) ws items ->
  exists toks, items = map IOk toks /\ Forall2 (fun x t => tspan t = x /\ exists w, span_slice x (mkstr 0 T) = Some w /\ classify w = Ret (selmaho t, experimental t)) ws toks.
Proof.
  induction 1 as [|x i ws items (w & sel & ex & H1 & H2 & ->) _ (toks & -> & F)]; [exists []; split; [reflexivity|constructor]|].
  exists (mktok ex sel x :: toks). split; [reflexivity|]. constructor; [|exact F]. split; [reflexivity|]. exists w. auto.
Qed.

Lemma quote_free_0 s ws : quote_free s ws ->
  forall sp w sel ex, In sp ws -> span_slice sp (mkstr 0 (txt s)) = Some w -> classify w = Ret (sel, ex) -> is_plain sel.
Proof.
  intros H sp w sel ex Hin Hw Hc. destruct s as [p t]. cbn [txt] in Hw. destruct (slice_ptr sp 0 p t w Hw) as (q & Hq).
  apply (H sp _ sel ex Hin Hq). destruct w as [q' u]. cbn [txt] in *. rewrite (classify_ptr q q'). exact Hc.
Qed.

(** C74 Only the words matter, and of them only what [classify] says. *)
Theorem C74_words bm s s' ws ws' : s_len s < 4294967296 -> s_len s' < 4294967296 -> scalars (txt s) -> scalars (txt s') ->
  decompose_all bm s = Ret ws -> decompose_all bm s' = Ret ws' -> Forall2 (same_word s s') ws ws' -> quote_free s ws ->
  read_alike bm s s'.
Proof.
  intros L L' S S' D D' F Q.
  assert (Q' : quote_free s' ws').
  { intros x' w' sel ex Hx Hw Hc. destruct (Forall2_in_r _ _ _ _ F Hx) as (x & Hx' & (w & w1 & H1 & H2 & H3)).
    rewrite Hw in H2. injection H2 as <-. exact (Q x w sel ex Hx' H1 (eq_trans H3 Hc)). }
  destruct (C23_no_quotes bm s ws L S D (quote_free_0 s ws Q)) as (items & Li & Fi).
  destruct (C23_no_quotes bm s' ws' L' S' D' (quote_free_0 s' ws' Q')) as (items' & Li' & Fi').
  apply tokens_of in Fi as (toks & -> & Ft). apply tokens_of in Fi' as (toks' & -> & Ft').
  exists toks, toks'. split; [exact Li|]. split; [exact Li'|].
  assert (A : Forall2 (fun t t' => selmaho t = selmaho t' /\ experimental t = experimental t' /\ same_word s s' (tspan t) (tspan t')) toks toks').
  { clear - F Ft Ft'. revert toks toks' Ft Ft'. induction F as [|x x' ws ws' W _ IH]; intros toks toks' Ft Ft'.
    - inversion Ft; inversion Ft'; subst. constructor.
    - inversion Ft as [|? t ? l (E & (w & Hw & Hc)) Fl]; subst. inversion Ft' as [|? t' ? l' (E' & (w' & Hw' & Hc')) Fl']; subst.
      constructor; [|apply IH; assumption]. destruct W as (u & u' & H1 & H2 & H3).
      destruct s as [p T], s' as [p' T']. cbn [txt] in *.
      destruct (slice_ptr _ 0 p T w Hw) as (q & Hq). rewrite H1 in Hq. injection Hq as ->.
      destruct (slice_ptr _ 0 p' T' w' Hw') as (q' & Hq'). rewrite H2 in Hq'. injection Hq' as ->.
      pose proof H3 as H4. rewrite (classify_ptr q (ptr w)), (classify_ptr q' (ptr w')) in H4. destruct w as [a x], w' as [a' x']. cbn [ptr txt] in *.
      rewrite Hc, Hc' in H4. injection H4 as -> ->. repeat split. eexists _, _. split; [exact H1|]. split; [exact H2|]. exact H3. }
  split; [exact A|].
  assert (C : Forall2 same_class toks toks') by (eapply Forall2_impl; [|exact A]; intros t t' (H & _); exact H).
  pose proof (C51_classes_only toks toks' C) as K. destruct (C35_total toks) as (r & R). destruct (C35_total toks') as (r' & R').
  rewrite R, R' in K |- *.
  destruct r as [v|e]; destruct r' as [v'|e'].
  - left. exists v, v'. split; [reflexivity|split; [reflexivity|exact K]].
  - destruct K.
  - destruct K.
  - right. exists e, e'. split; [reflexivity|split; [reflexivity|exact K]].
Qed.
Print Assumptions C74_words.

(** *** Spacing: words written out again with spaces between them *)
Lemma spelled_scalars s ws us : scalars (txt s) -> spelled s ws us -> scalars (spaced us).
Proof.
  intros S H. assert (F : Forall scalars us).
  { apply Forall_forall. intros u Hu. destruct (Forall2_in_r _ _ _ _ H Hu) as (x & _ & (p & Hp)).
    apply slice_some in Hp as (a & b & E & _). cbn [txt] in E. rewrite E in S. unfold scalars in *. rewrite !Forall_app in S. tauto. }
  clear - F. induction F as [|u us Hu _ IH]; [constructor|]. destruct us as [|v us]; [exact Hu|].
  change (spaced (u :: v :: us)) with (u ++ 32 :: spaced (v :: us)). unfold scalars in *. apply Forall_app. split; [exact Hu|].
  constructor; [reflexivity|exact IH].
Qed.

Lemma spelled_same s s' ws ws' us : spelled s ws us -> spelled s' ws' us -> Forall2 (same_word s s') ws ws'.
Proof.
  intros H. revert ws'. induction H as [|x u ws us (p & Hp) _ IH]; intros ws' H'; inversion H' as [|x' ? l ? (p' & Hp') H1]; subst; constructor.
  - eexists _, _. split; [exact Hp|]. split; [exact Hp'|]. apply classify_ptr.
  - apply IH, H1.
Qed.

(** Two texts with the same words are read alike. *)
Theorem C74_same_spelling bm s s' ws ws' us : s_len s < 4294967296 -> s_len s' < 4294967296 -> scalars (txt s) -> scalars (txt s') ->
  decompose_all bm s = Ret ws -> decompose_all bm s' = Ret ws' -> spelled s ws us -> spelled s' ws' us -> quote_free s ws ->
  read_alike bm s s'.
Proof. intros L L' S S' D D' P P' Q. eapply C74_words; try eassumption. eapply spelled_same; eassumption. Qed.
Print Assumptions C74_same_spelling.

(** Writing spaces between all words changes nothing (for the exception see C56). *)
Theorem C74_respaced bm s ws us p : s_len s < 4294967296 -> scalars (txt s) -> decompose_all bm s = Ret ws -> commas_inside (txt s) ->
  (forall x w, In x ws -> span_slice x s = Some w ->
     no_capital_vowel (txt w) \/ cmavo_text (letters (txt w)) \/ forall y, In y ws -> sp_start y <> sp_end x) ->
  spelled s ws us -> blen (spaced us) < 4294967296 -> quote_free s ws -> read_alike bm s (mkstr p (spaced us)).
Proof.
  intros L S D C F P B Q. destruct (C56_respaced bm s ws us p D L C F P B) as (ws' & D' & P').
  eapply (C74_same_spelling bm s _ ws ws' us); try eassumption. cbn [txt]. eapply spelled_scalars; eassumption.
Qed.
Print Assumptions C74_respaced.

(** Other separators, and more of them, change nothing. *)
Lemma word_list_seps m : Forall is_sep m -> forall b, word_list (m ++ b) = word_list b.
Proof.
  induction 1 as [|c m Hc _ IH]; intros b; [reflexivity|]. change ((c :: m) ++ b) with ([] ++ c :: m ++ b).
  rewrite word_list_sep by exact Hc. rewrite IH. reflexivity.
Qed.

Lemma word_list_between a m b : m <> [] -> Forall is_sep m -> word_list (a ++ m ++ b) = word_list a ++ word_list b.
Proof.
  intros N F. destruct m as [|c m]; [destruct N; reflexivity|]. cbn [app]. rewrite word_list_sep by exact (Forall_inv F).
  rewrite word_list_seps by exact (Forall_inv_tail F). reflexivity.
Qed.

Lemma sep_scalar m : Forall is_sep m -> scalars m.
Proof.
  intros H. eapply Forall_impl; [|exact H]. intros c Hc. unfold is_sep in Hc.
  assert (X : forallb is_scalar (lit ".?! " ++ [9; 10; 13]) = true) by reflexivity. rewrite forallb_forall in X. apply X.
  cbn in Hc |- *. intuition.
Qed.

Theorem C74_separators bm p p' a b m m' ws : m <> [] -> m' <> [] -> Forall is_sep m -> Forall is_sep m' ->
  blen (a ++ m ++ b) < 4294967296 -> blen (a ++ m' ++ b) < 4294967296 -> scalars a -> scalars b ->
  decompose_all bm (mkstr p (a ++ m ++ b)) = Ret ws -> quote_free (mkstr p (a ++ m ++ b)) ws ->
  read_alike bm (mkstr p (a ++ m ++ b)) (mkstr p' (a ++ m' ++ b)).
Proof.
  intros N N' F F' L L' Sa Sb D Q. pose proof (cuts_spelled (mkstr p (a ++ m ++ b))) as P. pose proof (cuts_spelled (mkstr p' (a ++ m' ++ b))) as P'.
  cbn [txt] in P, P'. rewrite word_list_between in P, P' by assumption.
  pose proof (decompose_spec bm _ ws D L) as E. cbn [txt] in E. subst ws.
  assert (S : forall k, Forall is_sep k -> scalars (a ++ k ++ b)).
  { intros k Hk. apply sep_scalar in Hk. unfold scalars in *. rewrite !Forall_app. tauto. }
  eapply C74_same_spelling; [exact L|exact L'|apply S, F|apply S, F'|exact D|apply decompose_text; exact L'|exact P|exact P'|exact Q].
Qed.
Print Assumptions C74_separators.

(** Commas and the two apostrophes change nothing. *)
Theorem C74_commas bm s s' ws : comma_edit (txt s) (txt s') -> s_len s < 4294967296 -> s_len s' < 4294967296 -> scalars (txt s) -> scalars (txt s') ->
  decompose_all bm s = Ret ws -> quote_free s ws -> read_alike bm s s'.
Proof.
  intros E L L' S S' D Q. destruct (C12_commas_irrelevant bm s s' ws E L L' D) as (ws' & D' & F).
  eapply C74_words; try eassumption. eapply Forall2_impl; [|exact F]. intros x x' (w & w' & H1 & H2 & _ & H3). exists w, w'. auto.
Qed.
Print Assumptions C74_commas.

Theorem C74_apostrophes bm s s' ws : apostrophe_edit (txt s) (txt s') -> s_len s < 4294967296 -> scalars (txt s) ->
  decompose_all bm s = Ret ws -> quote_free s ws -> read_alike bm s s'.
Proof.
  intros E L S D Q. destruct (C13_apostrophes bm s s' ws E L D) as (D' & F).
  assert (K : s_len s' = s_len s /\ scalars (txt s')).
  { unfold s_len. clear - E S. induction E as [|c d t t' H E IH]; [split; [reflexivity|constructor]|].
    destruct (IH (Forall_inv_tail S)) as [I1 I2]. split.
    - cbn [blen]. rewrite I1. f_equal. destruct H as [->|[H1 H2]]; [reflexivity|]. cbn in H1, H2. intuition (subst; reflexivity).
    - constructor; [|exact I2]. destruct H as [<-|[_ H2]]; [exact (Forall_inv S)|]. cbn in H2. intuition (subst; reflexivity). }
  destruct K as [K1 K2]. eapply (C74_words bm s s' ws ws); try eassumption; [rewrite K1; exact L|].
  clear - F. induction ws as [|x ws IH]; [constructor|]. constructor; [apply (F x); left; reflexivity|].
  apply IH. intros y Hy. apply F. right. exact Hy.
Qed.
Print Assumptions C74_apostrophes.

(** ** Cases *)
Definition p_text : str := mkstr 0 (lit "lo'i.nu,miklama cubarda").
Definition p_words : list span := [mkspan 0 4; mkspan 5 7; mkspan 7 10; mkspan 10 15; mkspan 16 18; mkspan 18 23].

Example C74_example : decompose_all Debug p_text = Ret p_words /\ quote_free p_text p_words /\
  read_alike Debug p_text (mkstr 0 (lit "lohi nu  mi klama" ++ [10] ++ lit "cu ba,rda")).
Proof.
  assert (D : decompose_all Debug p_text = Ret p_words) by (vm_compute; reflexivity).
  assert (Q : quote_free p_text p_words).
  { intros x w sel ex [<-|[<-|[<-|[<-|[<-|[<-|[]]]]]]] Hw Hc; vm_compute in Hw; injection Hw as <-; vm_compute in Hc; injection Hc as <- <-;
      (split; [reflexivity|]; split; intros H; cbn in H; intuition discriminate). }
  split; [exact D|]. split; [exact Q|].
  apply (C74_words Debug _ _ p_words [mkspan 0 4; mkspan 5 7; mkspan 9 11; mkspan 12 17; mkspan 18 20; mkspan 21 27]);
    [reflexivity|reflexivity|repeat constructor|repeat constructor|exact D|vm_compute; reflexivity| |exact Q].
  unfold p_words. repeat (constructor; [eexists _, _; split; [vm_compute; reflexivity|]; split; [vm_compute; reflexivity|vm_compute; reflexivity]|]). constructor.
Qed.

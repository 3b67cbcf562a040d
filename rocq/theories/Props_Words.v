(** Props_Words.v -- properties C55 to C60: which words decomposition finds.
    Vocabulary: SpecWords.v, SpecMorph.v ([cmavo_text]: the form of a cmavo),
    SpecText.v ([letters t]: [t] without its commas; [no_sep]; [shift_span]).
    [decompose_all bm s] is the list of spans that the iterator yields for [s],
    [bm] saying whether the build has debug assertions; [span_slice] is
    [Span::slice]. *)
From Verif Require Import Base Utf8 Selmaho ClassifyTable Classify Span Decompose DecomposeThms SpecText SpecWords SpecCmavo SpecMorph ClassifyFacts ClassifyThms SpanThms MorphFacts MorphCmavo MorphThms DecWords.
From Coq Require Import Lia Arith.

(** C55 In a text without capital vowels, a word that is directly followed by
    another word has the form of a cmavo: brivla and cmevla are never cut in
    two, and never run into the next word. *)
Theorem C55_adjacent_cmavo bm s ws a x y b w : decompose_all bm s = Ret ws -> s_len s < 4294967296 -> no_capital_vowel (txt s) ->
  ws = a ++ x :: y :: b -> sp_end x = sp_start y -> span_slice x s = Some w ->
  cmavo_text (letters (txt w)) /\ last (txt w) 0 <> 44.
Proof. exact (adjacent_cmavo bm s ws a x y b w). Qed.
Print Assumptions C55_adjacent_cmavo.

(** ... and so it is classified as a cmavo. *)
Theorem C55_adjacent_class bm s ws a x y b w k e : decompose_all bm s = Ret ws -> s_len s < 4294967296 -> no_capital_vowel (txt s) ->
  scalars (txt s) ->
  ws = a ++ x :: y :: b -> sp_end x = sp_start y -> span_slice x s = Some w -> classify w = Ret (k, e) ->
  ~ In k [S_Cmevla; S_Gismu; S_Fuhivla; S_Lujvo; S_AnyText; S_ZoiDelimiter].
Proof. exact (adjacent_class bm s ws a x y b w k e). Qed.
Print Assumptions C55_adjacent_class.

Example C55_example : decompose_all Debug (mkstr 0 (lit "lonumibarda")) = Ret [mkspan 0 2; mkspan 2 4; mkspan 4 6; mkspan 6 11] /\
  no_capital_vowel (lit "lonumibarda").
Proof. split; [vm_compute; reflexivity|]. apply Forall_forall. intros c Hc. cbn in Hc. cbn. intuition lia. Qed.

(** With capitals the claim fails: a stressed brivla ends with its stress group. *)
Theorem C55_capitals_refuted : exists s ws x y w, decompose_all Debug s = Ret ws /\ ws = [x; y] /\ sp_end x = sp_start y /\
  span_slice x s = Some w /\ classify w = Ret (S_Gismu, false).
Proof.
  exists (mkstr 0 (lit "BROdami")), [mkspan 0 5; mkspan 5 7], (mkspan 0 5), (mkspan 5 7), (mkstr 0 (lit "BROda")).
  repeat split; vm_compute; reflexivity.
Qed.
Print Assumptions C55_capitals_refuted.

(** In any text: a word that is directly followed by another word has the form
    of a cmavo, or it is cut off after its stress: it has a capital vowel, and at
    least two vowels. *)
Theorem C55_adjacent_words bm s ws a x y b w : decompose_all bm s = Ret ws -> s_len s < 4294967296 ->
  ws = a ++ x :: y :: b -> sp_end x = sp_start y -> span_slice x s = Some w ->
  cmavo_text (letters (txt w)) \/
  ((exists c, In c (lit "AEIOU") /\ In c (txt w)) /\ exists p u q v r, txt w = p ++ u :: q ++ v :: r /\ vowel_or_y u /\ vowel_or_y v).
Proof.
  intros H Hl E Hxy Hw. destruct (adjacent_words bm s ws a x y b w H Hl E Hxy Hw) as [_ [K|((c & H1 & H2) & K & _)]]; [left; exact K|right].
  split; [exists c; split; assumption|exact (two_of_count (txt w) K)].
Qed.
Print Assumptions C55_adjacent_words.

(** C56 A word of a text is one word by itself: decomposing it again gives it
    back.  Proved for all words that no other word directly follows, for all
    words without capital vowels, and for all that have the form of a cmavo; the
    text may not have a comma at the end of a chunk.  (By C55_adjacent_words what
    is left are the words cut off after their stress and directly followed by
    another.) *)
Theorem C56_stable_partial bm s ws x w : decompose_all bm s = Ret ws -> s_len s < 4294967296 -> commas_inside (txt s) ->
  In x ws -> span_slice x s = Some w ->
  (no_capital_vowel (txt w) \/ cmavo_text (letters (txt w)) \/ forall y, In y ws -> sp_start y <> sp_end x) ->
  decompose_all bm w = Ret [mkspan 0 (s_len w)].
Proof. exact (word_stable bm s ws x w). Qed.
Print Assumptions C56_stable_partial.

(** The words of a text, written out with spaces between them, are the words of
    the new text (with the same exception). *)
Theorem C56_respaced bm s ws us p : decompose_all bm s = Ret ws -> s_len s < 4294967296 -> commas_inside (txt s) ->
  (forall x w, In x ws -> span_slice x s = Some w ->
     no_capital_vowel (txt w) \/ cmavo_text (letters (txt w)) \/ forall y, In y ws -> sp_start y <> sp_end x) ->
  spelled s ws us -> blen (spaced us) < 4294967296 ->
  exists ws', decompose_all bm (mkstr p (spaced us)) = Ret ws' /\ spelled (mkstr p (spaced us)) ws' us.
Proof. exact (respaced bm s ws us p). Qed.
Print Assumptions C56_respaced.

(** In particular in texts without capital vowels. *)
Theorem C56_respaced_plain bm s ws us p : decompose_all bm s = Ret ws -> s_len s < 4294967296 -> commas_inside (txt s) -> no_capital_vowel (txt s) ->
  spelled s ws us -> blen (spaced us) < 4294967296 ->
  exists ws', decompose_all bm (mkstr p (spaced us)) = Ret ws' /\ spelled (mkstr p (spaced us)) ws' us.
Proof.
  intros H Hl Hc Hn. apply respaced; try assumption. intros x w Hx Hw. left. unfold no_capital_vowel in *. rewrite Forall_forall in *.
  apply slice_some in Hw as (pre & post & E & _). intros c Hin. apply Hn. rewrite E. apply in_or_app. right. apply in_or_app. left. exact Hin.
Qed.
Print Assumptions C56_respaced_plain.

Example C56_example : decompose_all Debug (mkstr 0 (lit "lobroda")) = Ret [mkspan 0 2; mkspan 2 7] /\
  spelled (mkstr 0 (lit "lobroda")) [mkspan 0 2; mkspan 2 7] [lit "lo"; lit "broda"] /\
  spaced [lit "lo"; lit "broda"] = lit "lo broda" /\
  decompose_all Debug (mkstr 0 (lit "lo broda")) = Ret [mkspan 0 2; mkspan 3 8].
Proof.
  split; [vm_compute; reflexivity|]. split; [|split; vm_compute; reflexivity].
  constructor; [exists 0; vm_compute; reflexivity|]. constructor; [exists 2; vm_compute; reflexivity|constructor].
Qed.

Example C56_example_capitals : decompose_all Debug (mkstr 0 (lit "lObARda mi")) = Ret [mkspan 0 2; mkspan 2 7; mkspan 8 10] /\
  (forall y, In y [mkspan 0 2; mkspan 2 7; mkspan 8 10] -> sp_start y <> sp_end (mkspan 2 7)) /\
  cmavo_text (lit "lO") /\ ~ no_capital_vowel (lit "lO") /\ decompose_all Debug (mkstr 0 (lit "lO bARda mi")) = Ret [mkspan 0 2; mkspan 3 8; mkspan 9 11].
Proof.
  split; [vm_compute; reflexivity|]. split; [intros y [<-|[<-|[<-|[]]]]; discriminate|]. split.
  - apply cmavo_minimal_exact; [|vm_compute; reflexivity]. repeat constructor.
  - split; [|vm_compute; reflexivity]. intros H. unfold no_capital_vowel in H. apply Forall_inv_tail, Forall_inv in H. apply H. cbn. tauto.
Qed.

(** A comma at the end of a chunk hides a word boundary: the word that is found
    is two words by itself. *)
Theorem C56_trailing_comma_refuted : exists s x w, decompose_all Debug s = Ret [x] /\ span_slice x s = Some w /\ no_capital_vowel (txt s) /\
  decompose_all Debug w = Ret [mkspan 0 2; mkspan 2 7].
Proof.
  exists (mkstr 0 (lit "lobroda,")), (mkspan 0 7), (mkstr 0 (lit "lobroda")).
  split; [vm_compute; reflexivity|]. split; [vm_compute; reflexivity|]. split; [|vm_compute; reflexivity].
  apply Forall_forall. intros c Hc. cbn in Hc. cbn. intuition lia.
Qed.
Print Assumptions C56_trailing_comma_refuted.

(** C57 A cmavo may be written together with what follows it.  If [r] is a chunk
    that starts with a consonant and does not end with one, and its first word
    is a word of Lojban (it is not classified AnyText), then the words of a cmavo
    without capital vowels followed by [r] are the cmavo and the words of [r].
    The exception is a cmavo of two letters before a consonant and y, where
    CVCy starts a lujvo. *)
Theorem C57_cmavo_in_front bm s r w x xs v k e : txt s = w ++ txt r -> cmavo_text w -> no_capital_vowel w ->
  no_sep (txt r) -> scalars (txt r) -> last (txt r) 0 <> 44 -> starts_with_consonant (txt r) ->
  ~ ends_with consonant_letter (letters (txt r)) -> s_len s < 4294967296 ->
  (List.length w <> 2%nat \/ forall c y t, letters (txt r) = c :: y :: t -> ~ In y (lit "yY")) ->
  decompose_all bm r = Ret (x :: xs) -> span_slice x r = Some v -> classify v = Ret (k, e) -> k <> S_AnyText ->
  decompose_all bm s = Ret (mkspan 0 (blen w) :: map (shift_span (blen w)) (x :: xs)).
Proof. exact (cmavo_in_front bm s r w x xs v k e). Qed.
Print Assumptions C57_cmavo_in_front.

(** Any number of cmavo, each starting with a consonant and without y. *)
Theorem C57_cmavo_list_in_front bm s r ws x xs v k e : txt s = List.concat ws ++ txt r ->
  Forall (fun w => cmavo_text w /\ no_capital_vowel w /\ starts_with_consonant w /\ Forall (fun c => ~ In c (lit "yY")) w) ws ->
  no_sep (txt r) -> scalars (txt r) -> last (txt r) 0 <> 44 -> starts_with_consonant (txt r) ->
  ~ ends_with consonant_letter (letters (txt r)) -> s_len s < 4294967296 ->
  (forall c y t, letters (txt r) = c :: y :: t -> ~ In y (lit "yY")) ->
  decompose_all bm r = Ret (x :: xs) -> span_slice x r = Some v -> classify v = Ret (k, e) -> k <> S_AnyText ->
  decompose_all bm s = Ret (consecutive 0 ws ++ map (shift_span (blen (List.concat ws))) (x :: xs)).
Proof. exact (cmavo_list_in_front bm s r ws x xs v k e). Qed.
Print Assumptions C57_cmavo_list_in_front.

(** Cmavo only. *)
Theorem C57_cmavo_list bm s ws : txt s = List.concat ws ->
  Forall (fun w => cmavo_text w /\ no_capital_vowel w /\ starts_with_consonant w /\ Forall (fun c => ~ In c (lit "yY")) w) ws ->
  ws <> [] -> s_len s < 4294967296 ->
  decompose_all bm s = Ret (consecutive 0 ws).
Proof. exact (cmavo_list_only bm s ws). Qed.
Print Assumptions C57_cmavo_list.

Example C57_example :
  decompose_all Debug (mkstr 0 (lit "lemlatu")) = Ret [mkspan 0 2; mkspan 2 7] /\ classify (mkstr 2 (lit "mlatu")) = Ret (S_Gismu, false) /\
  decompose_all Debug (mkstr 0 (lit "mlatu")) = Ret [mkspan 0 5] /\ starts_with_consonant (lit "mlatu") /\
  ~ ends_with consonant_letter (letters (lit "mlatu")) /\ no_sep (lit "mlatu") /\ cmavo_text (lit "le") /\
  consecutive 0 [lit "mi"; lit "pu"; lit "ca'o"] = [mkspan 0 2; mkspan 2 4; mkspan 4 8] /\
  decompose_all Debug (mkstr 0 (lit "mipuca'o")) = Ret [mkspan 0 2; mkspan 2 4; mkspan 4 8].
Proof.
  split; [vm_compute; reflexivity|]. split; [vm_compute; reflexivity|]. split; [vm_compute; reflexivity|].
  split; [exists 109, (lit "latu"); split; [reflexivity|vm_compute; tauto]|].
  split; [intros (m & c & E & Hc); change (letters (lit "mlatu")) with (lit "mlat" ++ [117]) in E; apply app_inj_tail in E as [_ <-]; vm_compute in Hc; intuition discriminate|].
  split; [apply Forall_forall; intros c Hc Hs; cbn in Hc; vm_compute in Hs; repeat (destruct Hc as [<-|Hc]; [intuition discriminate|]); destruct Hc|].
  split; [apply cmavo_b_sound; vm_compute; reflexivity|]. split; vm_compute; reflexivity.
Qed.

(** Both exceptions are needed: a final consonant makes the whole chunk a
    cmevla, and CVCy makes it a lujvo. *)
Theorem C57_exceptions : decompose_all Debug (mkstr 0 (lit "ledjan")) = Ret [mkspan 0 6] /\ decompose_all Debug (mkstr 0 (lit "djan")) = Ret [mkspan 0 4] /\
  classify (mkstr 2 (lit "djan")) = Ret (S_Cmevla, false) /\
  decompose_all Debug (mkstr 0 (lit "lebypau")) = Ret [mkspan 0 7] /\ decompose_all Debug (mkstr 0 (lit "bypau")) = Ret [mkspan 0 2; mkspan 2 5] /\
  classify (mkstr 0 (lit "by")) = Ret (S_By, false).
Proof. repeat split; vm_compute; reflexivity. Qed.
Print Assumptions C57_exceptions.

(** C58 A chunk without capital vowels that starts with two consonants is one
    word, whatever follows them. *)
Theorem C58_two_consonants bm s c d u : no_sep (txt s) -> no_capital_vowel (txt s) -> last (txt s) 0 <> 44 -> s_len s < 4294967296 ->
  letters (txt s) = c :: d :: u -> consonant_letter c -> consonant_letter d -> decompose_all bm s = Ret [mkspan 0 (s_len s)].
Proof. exact (two_consonants_one bm s c d u). Qed.
Print Assumptions C58_two_consonants.

Example C58_example : decompose_all Debug (mkstr 0 (lit "blabi'o")) = Ret [mkspan 0 7] /\ consonant_letter 98 /\ consonant_letter 108.
Proof. split; [vm_compute; reflexivity|]. split; vm_compute; tauto. Qed.

(** C59 A chunk that is classified Gismu is decomposed as one word. *)
Theorem C59_gismu bm s e : no_sep (txt s) -> scalars (txt s) -> s_len s < 4294967296 -> classify s = Ret (S_Gismu, e) ->
  decompose_all bm s = Ret [mkspan 0 (s_len s)].
Proof. exact (gismu_one_word bm s e). Qed.
Print Assumptions C59_gismu.

Example C59_example : classify (mkstr 0 (lit "ge,rku")) = Ret (S_Gismu, false) /\ decompose_all Debug (mkstr 0 (lit "ge,rku")) = Ret [mkspan 0 6].
Proof. split; vm_compute; reflexivity. Qed.

(** That fails for lujvo: classification accepts "tosmabru" (tos-mabru) as a
    lujvo, which decomposition reads as the two words "to" and "smabru". *)
Theorem C59_lujvo_refuted : exists s, classify s = Ret (S_Lujvo, false) /\ no_sep (txt s) /\ decompose_all Debug s = Ret [mkspan 0 2; mkspan 2 8].
Proof.
  exists (mkstr 0 (lit "tosmabru")). split; [vm_compute; reflexivity|]. split; [|vm_compute; reflexivity].
  apply Forall_forall; intros c Hc Hs; cbn in Hc; vm_compute in Hs; repeat (destruct Hc as [<-|Hc]; [intuition discriminate|]); destruct Hc.
Qed.
Print Assumptions C59_lujvo_refuted.

(** C60 Every brivla has at least two vowels. *)
Theorem C60_two_vowels w s e : classify w = Ret (s, e) -> scalars (txt w) -> In s [S_Gismu; S_Fuhivla; S_Lujvo] ->
  exists a x b y c, txt w = a ++ x :: b ++ y :: c /\ vowel_or_y x /\ vowel_or_y y.
Proof. exact (brivla_vowels w s e). Qed.
Print Assumptions C60_two_vowels.

Example C60_example : classify (mkstr 0 (lit "cidjrspageti")) = Ret (S_Fuhivla, false) /\ classify (mkstr 0 (lit "brivla")) = Ret (S_Lujvo, false).
Proof. split; vm_compute; reflexivity. Qed.

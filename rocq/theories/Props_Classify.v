(** Props_Classify.v -- properties C12-C17 and C30: what decomposition and
    classification depend on, and what classification returns.
    Vocabulary: SpecText.v ([comma_edit], [apostrophe_edit], [letters]) and
    SpecCmavo.v ([spelling], [listed], [experimental_selmaho], [lojban_char]).
    [scalars t]: the chars are Unicode scalar values, as in every Rust [str]. *)
From Verif Require Import Base Utf8 Span Selmaho ClassifyTable Classify Decompose SpecText SpecCmavo
  ClassifyFacts ClassifyThms DecomposeSim.

(** C12 Commas inside chunks do not matter: same words up to commas, same classes. *)
Theorem C12_commas_irrelevant bm s s' ws : comma_edit (txt s) (txt s') ->
  s_len s < 4294967296 -> s_len s' < 4294967296 -> decompose_all bm s = Ret ws ->
  exists ws', decompose_all bm s' = Ret ws' /\
    Forall2 (fun sp sp' => exists w w', span_slice sp s = Some w /\ span_slice sp' s' = Some w' /\
                                        letters (txt w) = letters (txt w') /\ classify w = classify w') ws ws'.
Proof. exact (commas_irrelevant bm s s' ws). Qed.
Print Assumptions C12_commas_irrelevant.

Lemma ce_cons c t u : comma_edit t u -> comma_edit (c :: t) (c :: u).
Proof.
  induction 1 as [t|a d b Hd|t u H IH|t u v H1 IH1 H2 IH2].
  - apply ce_refl.
  - apply (ce_insert (c :: a)). exact Hd.
  - apply ce_sym, IH.
  - eapply ce_trans; eassumption.
Qed.

Example C12_example : comma_edit (lit "mi klama") (lit "m,,i ,klam,a") /\
  decompose_all Debug (mkstr 0 (lit "mi klama")) = Ret [mkspan 0 2; mkspan 3 8] /\
  decompose_all Debug (mkstr 7 (lit "m,,i ,klam,a")) = Ret [mkspan 0 4; mkspan 5 12].
Proof.
  assert (N1 : forall c, In c (lit "iakm,") -> ~ is_sep c).
  { intros c Hc. cbn in Hc. unfold is_sep. cbn.
    repeat (destruct Hc as [<-|Hc]; [intros H; repeat (destruct H as [H|H]; [discriminate|]); exact H|]). destruct Hc. }
  split; [|split; vm_compute; reflexivity].
  eapply ce_trans; [apply (ce_insert (lit "m") 105 (lit " klama")); apply N1; cbn; tauto|].
  eapply ce_trans; [apply (ce_insert (lit "m") 44 (lit "i klama")); apply N1; cbn; tauto|].
  eapply ce_trans; [apply (ce_insert (lit "m,,i ") 107 (lit "lama")); apply N1; cbn; tauto|].
  apply (ce_insert (lit "m,,i ,klam") 97 []); apply N1; cbn; tauto.
Qed.

(** The restriction to places before a non-separator is needed: a comma at the
    end of a chunk changes the class of a name, and swallows word boundaries. *)
Theorem C12_trailing_comma_refuted :
  (exists w w', letters (txt w) = letters (txt w') /\
     classify w = Ret (S_Cmevla, false) /\ classify w' = Ret (S_AnyText, false)) /\
  (exists ws ws', decompose_all Debug (mkstr 0 (lit "lobroda")) = Ret ws /\
     decompose_all Debug (mkstr 0 (lit "lobroda,")) = Ret ws' /\ List.length ws = 2%nat /\ List.length ws' = 1%nat).
Proof.
  split.
  - exists (mkstr 0 (lit "djan")), (mkstr 0 (lit "djan,")). vm_compute. repeat split.
  - exists [mkspan 0 2; mkspan 2 7], [mkspan 0 7]. vm_compute. repeat split.
Qed.
Print Assumptions C12_trailing_comma_refuted.

(** C13 [h] and the apostrophe are interchangeable: same spans, same classes. *)
Theorem C13_apostrophes bm s s' ws : apostrophe_edit (txt s) (txt s') -> s_len s < 4294967296 ->
  decompose_all bm s = Ret ws ->
  decompose_all bm s' = Ret ws /\
  forall sp, In sp ws -> exists w w', span_slice sp s = Some w /\ span_slice sp s' = Some w' /\ classify w = classify w'.
Proof. exact (apostrophes_irrelevant bm s s' ws). Qed.
Print Assumptions C13_apostrophes.

Example C13_example : apostrophe_edit (lit "lo'u coihe'o") (lit "lohu coi'eho").
Proof. repeat (constructor; [first [left; reflexivity|right; cbn; tauto]|]). constructor. Qed.

(** C14 Foreign chars never make Lojban words. *)
Theorem C14_alphabet w s e : classify w = Ret (s, e) ->
  In s [S_Cmevla; S_Gismu; S_Lujvo; S_Fuhivla; S_UnknownCmavo] -> Forall lojban_char (txt w).
Proof. exact (classify_chars w s e). Qed.
Print Assumptions C14_alphabet.

Example C14_example : classify (mkstr 0 (lit "k,lAma")) = Ret (S_Gismu, false).
Proof. vm_compute. reflexivity. Qed.

(** C15 [classify] is total. *)
Theorem C15_classify_total w : scalars (txt w) -> exists s e, classify w = Ret (s, e).
Proof. exact (classify_total w). Qed.
Print Assumptions C15_classify_total.

(** 15 ASCII bytes and then a two-byte char, at the edge of the 16-byte buffer *)
Example C15_example : scalars (lit "aaaaaaaaaaaaaaa" ++ [233]) /\
  classify (mkstr 0 (lit "aaaaaaaaaaaaaaa" ++ [233])) = Ret (S_AnyText, false) /\
  classify (mkstr 0 []) = Ret (S_AnyText, false).
Proof. split; [repeat constructor|]. vm_compute. repeat split. Qed.

(** C16 Known cmavo are recognised exactly. *)
Theorem C16_known w s e : listed (spelling (txt w)) s e -> blen (spelling (txt w)) <= 16 ->
  exists flag, classify w = Ret (s, flag).
Proof. intros H Hl. eexists. exact (classify_known w s e H Hl). Qed.
Print Assumptions C16_known.

Theorem C16_unknown w s e : classify w = Ret (s, e) -> scalars (txt w) ->
  (forall s' e', ~ listed (spelling (txt w)) s' e') ->
  In s [S_Cmevla; S_UnknownCmavo; S_Gismu; S_Fuhivla; S_Lujvo; S_AnyText].
Proof. intros H Hs Hn. exact (classify_unknown w s e H Hs (or_introl Hn)). Qed.
Print Assumptions C16_unknown.

(** no cmavo is listed twice *)
Theorem C16_listed_once w s e s' e' : listed w s e -> listed w s' e' -> s = s' /\ e = e'.
Proof. exact (listed_unique w s e s' e'). Qed.
Print Assumptions C16_listed_once.

Example C16_example : listed (spelling (lit "l,oh,,u")) S_Lohu false /\ blen (spelling (lit "l,oh,,u")) = 4 /\
  (forall s e, ~ listed (spelling (lit "bo'u'a")) s e).
Proof.
  split; [|split].
  - apply lookup_listed. vm_compute. reflexivity.
  - reflexivity.
  - intros s e H. apply listed_lookup in H. vm_compute in H. discriminate.
Qed.

(** C17 The experimental flag is exact. *)
Theorem C17_flag w s e : classify w = Ret (s, e) -> scalars (txt w) ->
  (e = true <-> experimental_selmaho s \/
                (listed (spelling (txt w)) s true /\ blen (spelling (txt w)) <= 16)).
Proof. exact (classify_flag w s e). Qed.
Print Assumptions C17_flag.

Theorem C17_words_not_experimental w s e : classify w = Ret (s, e) ->
  In s [S_Gismu; S_Fuhivla; S_Lujvo; S_Cmevla; S_AnyText] -> e = false.
Proof. exact (classify_flag_words w s e). Qed.
Print Assumptions C17_words_not_experimental.

Theorem C17_unknown_cmavo_experimental w e : classify w = Ret (S_UnknownCmavo, e) -> e = true.
Proof.
  intros H. apply classify_ret in H as [(w' & e' & _ & ->)|[_ ->]]; reflexivity.
Qed.
Print Assumptions C17_unknown_cmavo_experimental.

Theorem C17_no_delimiter w s e : classify w = Ret (s, e) -> s <> S_ZoiDelimiter.
Proof. exact (classify_no_delim w s e). Qed.
Print Assumptions C17_no_delimiter.

Example C17_example : classify (mkstr 0 (lit "xa'oi'a'oi'a")) = Ret (S_Xahoihahoiha, true) /\
  classify (mkstr 0 (lit "ja'u")) = Ret (S_Bai, true) /\ classify (mkstr 0 (lit "bai")) = Ret (S_Bai, false) /\
  classify (mkstr 0 (lit "bo'u'a")) = Ret (S_UnknownCmavo, true).
Proof. vm_compute. repeat split. Qed.

(** C30 "Every listed cmavo and every run of y gets its listed selma'o whatever
    its length" is false: beyond 16 bytes the table is never consulted, so two
    listed cmavo and long hesitations are unknown cmavo; and one entry is listed
    with a leading space, which no word can have.  The part that holds is C16_known. *)
Theorem C30_long_cmavo_refuted :
  (exists w s e, listed (spelling (txt w)) s e /\ classify w = Ret (S_UnknownCmavo, true)) /\
  (exists n s e, listed (repeat 121 n) s e /\ classify (mkstr 0 (repeat 121 n)) = Ret (S_UnknownCmavo, true)) /\
  listed (lit " vi'ei'e") S_Pa true /\ classify (mkstr 0 (lit "vi'ei'e")) = Ret (S_UnknownCmavo, true).
Proof.
  split; [|split; [|split]].
  - exists (mkstr 0 (lit "fa'u'u'u'u'u'u'u'u")), S_Faho, true.
    split; [apply lookup_listed; vm_compute; reflexivity|vm_compute; reflexivity].
  - exists 17%nat, S_Y, false.
    split; [apply lookup_listed; vm_compute; reflexivity|vm_compute; reflexivity].
  - apply lookup_listed; vm_compute; reflexivity.
  - vm_compute; reflexivity.
Qed.
Print Assumptions C30_long_cmavo_refuted.

(** The exact extent: beyond 16 bytes no cmavo is recognised. *)
Theorem C30_long_partial w s e : classify w = Ret (s, e) -> scalars (txt w) -> 16 < blen (spelling (txt w)) ->
  In s [S_Cmevla; S_UnknownCmavo; S_Gismu; S_Fuhivla; S_Lujvo; S_AnyText].
Proof. intros H Hs Hn. exact (classify_unknown w s e H Hs (or_intror Hn)). Qed.
Print Assumptions C30_long_partial.

(** and the entry with the space is never reached from a text *)
Theorem C30_space_unreachable bm t ws sp w : decompose_all bm t = Ret ws -> s_len t < 4294967296 -> In sp ws ->
  span_slice sp t = Some w -> spelling (txt w) <> lit " vi'ei'e".
Proof.
  intros H Hl Hin Hw E. destruct (DecomposeThms.decompose_proper bm t ws sp H Hl Hin) as (w' & Hw' & [Hn _] & _).
  rewrite Hw in Hw'. injection Hw' as <-.
  assert (Hin' : In 32 (spelling (txt w))) by (rewrite E; left; reflexivity).
  unfold spelling, letters in Hin'. apply in_map_iff in Hin' as (c & Hc & Hc').
  apply filter_In in Hc' as [Hc' _]. unfold no_sep in Hn. rewrite Forall_forall in Hn.
  destruct (N.eqb_spec c 104); [discriminate|]. subst c. apply (Hn 32 Hc'). unfold is_sep. cbn. tauto.
Qed.
Print Assumptions C30_space_unreachable.

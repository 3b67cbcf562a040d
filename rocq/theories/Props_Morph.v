(** Props_Morph.v -- properties C18, C19, C20 and C54: the shapes of the words
    that classification names.  Vocabulary: SpecMorph.v (letters, permissible
    and initial pairs, gismu and cmavo forms), SpecText.v ([letters t]: [t]
    without its commas) and SpecCmavo.v ([spelling], [listed]).
    [scalars t]: the chars are Unicode scalar values, as in every Rust [str]. *)
From Verif Require Import Base Utf8 Selmaho ClassifyTable Classify SpecText SpecCmavo SpecMorph ClassifyFacts ClassifyThms MorphThms.
From Coq Require Import Lia Arith.

(** C18 A word is classified Gismu exactly when it does not end in a comma and
    its letters have one of the two gismu forms, where the last vowel is one of
    a e i o u in lower case, and the first one is any of a e i o u y. *)
Theorem C18_gismu w e : scalars (txt w) ->
  (classify w = Ret (S_Gismu, e) <->
   e = false /\ last (txt w) 0 <> 44 /\ gismu_form vowel_or_y lowercase_vowel (letters (txt w))).
Proof. exact (classify_gismu w e). Qed.
Print Assumptions C18_gismu.

(** The part the reference grammar states: five letters, CVC/CV or CCVCV. *)
Theorem C18_five_letters w e : scalars (txt w) -> classify w = Ret (S_Gismu, e) ->
  List.length (letters (txt w)) = 5%nat /\ gismu_form vowel_or_y vowel_letter (letters (txt w)).
Proof.
  intros Hs H. apply (classify_gismu w e Hs) in H as (_ & _ & H). split.
  - destruct H as [(a & b & c & d & f & -> & _)|(a & b & c & d & f & -> & _)]; reflexivity.
  - assert (L : forall v, lowercase_vowel v -> vowel_letter v).
    { intros v Hv. unfold lowercase_vowel, vowel_letter in *. cbn in Hv |- *.
      repeat (destruct Hv as [<-|Hv]; [cbn; tauto|]). destruct Hv. }
    destruct H as [(a & b & c & d & f & E & H1 & H2 & H3 & H4)|(a & b & c & d & f & E & H1 & H2 & H3 & H4)].
    + left. exists a, b, c, d, f. auto 10.
    + right. exists a, b, c, d, f. auto 10.
Qed.
Print Assumptions C18_five_letters.

Example C18_example : classify (mkstr 0 (lit "klama")) = Ret (S_Gismu, false) /\
  classify (mkstr 3 (lit "ge,rku")) = Ret (S_Gismu, false) /\ classify (mkstr 0 (lit "gedku")) <> Ret (S_Gismu, false) /\
  classify (mkstr 0 (lit "bnama")) <> Ret (S_Gismu, false).
Proof. repeat split; vm_compute; (reflexivity || discriminate). Qed.

(** The grammar's own definition, with a e i o u for both vowels, is not what
    the program computes: it takes y for the first vowel, and rejects a capital
    for the last one. *)
Theorem C18_plain_vowels_refuted :
  (exists w, scalars (txt w) /\ classify w = Ret (S_Gismu, false) /\ ~ gismu_form vowel_letter vowel_letter (letters (txt w))) /\
  (exists w, scalars (txt w) /\ gismu_form vowel_letter vowel_letter (letters (txt w)) /\ last (txt w) 0 <> 44 /\
             classify w = Ret (S_AnyText, false)).
Proof.
  split.
  - exists (mkstr 0 (lit "brydu")). split; [repeat constructor|]. split; [vm_compute; reflexivity|].
    intros [(a & b & c & d & f & E & H1 & H2 & _)|(a & b & c & d & f & E & H1 & H2 & _)]; vm_compute in E; injection E as <- <- <- <- <-;
      vm_compute in H2; intuition discriminate.
  - exists (mkstr 0 (lit "brodA")). split; [repeat constructor|]. split; [|split; [vm_compute; discriminate|vm_compute; reflexivity]].
    right. exists 98, 114, 111, 100, 65. repeat split; vm_compute; tauto.
Qed.
Print Assumptions C18_plain_vowels_refuted.

(** C19 Endings. *)
Theorem C19_endings w s e : classify w = Ret (s, e) -> scalars (txt w) ->
  (s = S_Cmevla -> ends_with consonant_letter (txt w)) /\
  (In s [S_Gismu; S_Fuhivla; S_Lujvo] -> ends_with vowel_letter (txt w)).
Proof. exact (classify_endings w s e). Qed.
Print Assumptions C19_endings.

Theorem C19_unknown_cmavo w e : classify w = Ret (S_UnknownCmavo, e) -> scalars (txt w) ->
  exists c r, letters (txt w) = c :: r /\
    (forall d, In d r -> vowel_or_y d \/ apostrophe d) /\
    ends_with (fun d => vowel_or_y d \/ digit_char d) (txt w).
Proof. exact (unknown_cmavo_shape w e). Qed.
Print Assumptions C19_unknown_cmavo.

Example C19_example : classify (mkstr 0 (lit "djan")) = Ret (S_Cmevla, false) /\ classify (mkstr 0 (lit "spageti")) = Ret (S_Fuhivla, false) /\
  classify (mkstr 0 (lit "brivla")) = Ret (S_Lujvo, false) /\ classify (mkstr 0 (lit "xo'o'oi")) = Ret (S_UnknownCmavo, true).
Proof. repeat split; vm_compute; reflexivity. Qed.

(** C20 Two adjacent consonants (commas dropped) in any classified word are a
    permissible pair, and three are not one of the forbidden triples. *)
Theorem C20_pairs w s e a x y b : classify w = Ret (s, e) -> scalars (txt w) ->
  In s [S_Cmevla; S_UnknownCmavo; S_Gismu; S_Fuhivla; S_Lujvo] ->
  letters (txt w) = a ++ x :: y :: b -> consonant_letter x -> consonant_letter y -> permissible x y.
Proof. exact (classify_pairs w s e a x y b). Qed.
Print Assumptions C20_pairs.

Theorem C20_triples w s e a x y z b : classify w = Ret (s, e) -> scalars (txt w) ->
  In s [S_Cmevla; S_UnknownCmavo; S_Gismu; S_Fuhivla; S_Lujvo] ->
  letters (txt w) = a ++ x :: y :: z :: b -> ~ forbidden_triple x y z.
Proof. exact (classify_triples w s e a x y z b). Qed.
Print Assumptions C20_triples.

(** Conversely every permissible pair and every initial pair is accepted: the
    pair alone decides whether a five-letter word is a gismu. *)
Theorem C20_pair_decides c v x y u : consonant_letter c -> vowel_or_y v -> lowercase_vowel u -> consonant_letter x -> consonant_letter y ->
  (classify (mkstr 0 [c; v; x; y; u]) = Ret (S_Gismu, false) <-> permissible x y) /\
  (classify (mkstr 0 [x; y; v; c; u]) = Ret (S_Gismu, false) <-> initial_pair x y).
Proof. exact (pair_decides c v x y u). Qed.
Print Assumptions C20_pair_decides.

Example C20_example : consonant_letter 98 /\ ~ permissible 98 112 /\ permissible 98 100 /\ ~ initial_pair 98 100 /\ initial_pair 98 76 /\
  classify (mkstr 0 (lit "djandpan")) = Ret (S_AnyText, false) /\ classify (mkstr 0 (lit "djanpan")) = Ret (S_Cmevla, false) /\
  classify (mkstr 0 (lit "djandjan")) = Ret (S_AnyText, false).
Proof.
  split; [vm_compute; tauto|]. split; [intros (_ & _ & _ & H & _); apply H; split; vm_compute; tauto|].
  split; [|split; [vm_compute; intuition discriminate|split; [vm_compute; tauto|repeat split; vm_compute; reflexivity]]].
  unfold permissible, consonant_letter, voiced_letter, unvoiced_letter. vm_compute. intuition discriminate.
Qed.

(** C54 A word is classified as an unknown cmavo exactly when it does not end in
    a comma, its letters have cmavo form, and the table does not have it. *)
Theorem C54_unknown_cmavo w e : scalars (txt w) ->
  (classify w = Ret (S_UnknownCmavo, e) <->
   e = true /\ last (txt w) 0 <> 44 /\ cmavo_text (letters (txt w)) /\
   ((forall s' e', ~ listed (spelling (txt w)) s' e') \/ 16 < blen (spelling (txt w)))).
Proof. exact (classify_unknown_cmavo w e). Qed.
Print Assumptions C54_unknown_cmavo.

(** Every cmavo the table lists has cmavo form, but for one entry with a space. *)
Theorem C54_listed_form w s e : listed w s e -> cmavo_text w \/ w = lit " vi'ei'e".
Proof. exact (listed_form w s e). Qed.
Print Assumptions C54_listed_form.

(** So a word gets a cmavo class only if it has cmavo form (or is that entry). *)
Theorem C54_cmavo_form w s e : scalars (txt w) -> classify w = Ret (s, e) ->
  ~ In s [S_Cmevla; S_Gismu; S_Fuhivla; S_Lujvo; S_AnyText] ->
  cmavo_text (letters (txt w)) \/ spelling (txt w) = lit " vi'ei'e".
Proof. exact (cmavo_class_form w s e). Qed.
Print Assumptions C54_cmavo_form.

Example C54_example : classify (mkstr 0 (lit "xa'a'a")) = Ret (S_UnknownCmavo, true) /\ cmavo_text (lit "xa'a'a") /\
  classify (mkstr 0 (lit "xauxau")) <> Ret (S_UnknownCmavo, true) /\ ~ cmavo_text (lit "xab").
Proof.
  split; [vm_compute; reflexivity|]. split.
  - right. right. right. exists 120, (lit "a'a'a"). split; [reflexivity|]. split; [|left; vm_compute; tauto].
    apply (nuclei_more (lit "a") 39 (lit "a'a")).
    + left. exists 97. split; [reflexivity|vm_compute; tauto].
    + vm_compute; tauto.
    + apply (nuclei_more (lit "a") 39 (lit "a")).
      * left. exists 97. split; [reflexivity|vm_compute; tauto].
      * vm_compute; tauto.
      * apply nuclei_one. left. exists 97. split; [reflexivity|vm_compute; tauto].
  - split; [vm_compute; discriminate|]. intros H. apply (cmavo_text_last _ H). exists (lit "xa"), 98. split; [reflexivity|vm_compute; tauto].
Qed.

(** Case is not ignored for cmavo: a listed cmavo with a capital is "unknown". *)
Theorem C54_case_refuted : classify (mkstr 0 (lit "mi")) = Ret (S_Koha, false) /\ classify (mkstr 0 (lit "Mi")) = Ret (S_UnknownCmavo, true).
Proof. split; vm_compute; reflexivity. Qed.
Print Assumptions C54_case_refuted.

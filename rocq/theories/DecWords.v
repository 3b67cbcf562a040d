(** DecWords.v -- the statements about the words of a text. *)
From Verif Require Import Base Utf8 Selmaho ClassifyTable Classify Span Peg Rules RulesApi PegMeta RulesTotal PegChars PegSim SymPeg Decompose DecomposeSpec DecomposeFacts
  DecomposeMachine DecomposeThms DecomposeSuffix DecomposeSim SpecText SpecWords SpecCmavo SpecMorph ClassifyFacts ClassifyThms MorphFacts MorphCons MorphCmavo MorphGismu MorphThms DecMorph DecPrefix DecVowels DecStress.
From Coq Require Import Lia Arith.

Lemma words_at_0 t : words_at 0 t = text_words t.
Proof. unfold words_at. rewrite <- (map_id (text_words t)) at 2. apply map_ext. intros [a b]. unfold shift_span. reflexivity. Qed.

Lemma decompose_spec bm s ws : decompose_all bm s = Ret ws -> s_len s < 4294967296 -> ws = text_words (txt s).
Proof. intros H Hl. rewrite decompose_all_spec in H by (unfold s_len, U32MAX in *; lia). injection H as <-. reflexivity. Qed.

Lemma decompose_text bm s : s_len s < 4294967296 -> decompose_all bm s = Ret (text_words (txt s)).
Proof. intros H. apply decompose_all_spec. unfold s_len, U32MAX in *. lia. Qed.

(** where a word is *)
Lemma word_at bm s ws a x b : decompose_all bm s = Ret ws -> s_len s < 4294967296 -> ws = a ++ x :: b ->
  exists pre c post us w vs b', txt s = pre ++ c ++ post /\ no_sep c /\ sep_head post /\ chunk_words c = us ++ w :: vs /\
    x = mkspan (blen pre + blen (List.concat us)) (blen pre + blen (List.concat us) + blen w) /\
    b = spans_of (blen pre + blen (List.concat us) + blen w) vs ++ b' /\
    Forall (fun y => blen pre + blen c < sp_start y) b' /\
    span_slice x s = Some (mkstr (ptr s + sp_start x) w).
Proof.
  intros H Hl E. apply decompose_spec in H; [|exact Hl]. rewrite H, <- words_at_0 in E.
  destruct (words_at_split _ _ _ _ _ _ (Nat.le_refl _) E) as (pre & c & post & us & w & vs & b' & E1 & E2 & E3 & E4 & E5 & E6 & E7).
  exists pre, c, post, us, w, vs, b'. rewrite !N.add_0_l in *. repeat split; try assumption.
  apply cuts_slice. destruct (chunk_words_tile c) as (tail & Et & _). rewrite E4, concat_app in Et. cbn [List.concat] in Et.
  exists (pre ++ List.concat us), (List.concat vs ++ tail ++ post).
  rewrite E5. cbn [sp_start sp_end]. rewrite !blen_app. split; [|auto]. rewrite E1, Et, <- !app_assoc. reflexivity.
Qed.

Lemma no_capital_lacks t : no_capital_vowel t <-> lacks CAPITAL_VOWELS t.
Proof. reflexivity. Qed.

(** ** Adjacent words *)
Lemma adjacent_cmavo bm s ws a x y b w : decompose_all bm s = Ret ws -> s_len s < 4294967296 -> no_capital_vowel (txt s) ->
  ws = a ++ x :: y :: b -> sp_end x = sp_start y -> span_slice x s = Some w ->
  cmavo_text (letters (txt w)) /\ last (txt w) 0 <> 44.
Proof.
  intros H Hl Hc E Hxy Hw.
  destruct (word_at bm s ws a x (y :: b) H Hl E) as (pre & c & post & us & u & vs & b' & E1 & _ & _ & E4 & E5 & E6 & E7 & E8).
  rewrite E8 in Hw. injection Hw as <-. cbn [txt].
  assert (Hcc : lacks CAPITAL_VOWELS c) by (apply no_capital_lacks in Hc; rewrite E1 in Hc; apply lacks_app in Hc as [_ Hc]; apply lacks_app in Hc; tauto).
  destruct vs as [|v vs].
  - exfalso. cbn [spans_of app] in E6. rewrite <- E6 in E7. apply Forall_inv in E7.
    destruct (chunk_words_tile c) as (tail & Et & _). rewrite E4, concat_app in Et. cbn [List.concat] in Et.
    rewrite E5 in Hxy. cbn [sp_end] in Hxy. rewrite <- Hxy, Et in E7. rewrite !blen_app in E7. lia.
  - pose proof (leading_cmavo c Hcc) as F. rewrite E4, removelast_app in F by discriminate.
    apply Forall_app in F as [_ F]. cbn [removelast] in F. apply Forall_inv in F as [F1 F2]. split; [exact F1|]. apply ends_comma_last, F2.
Qed.

Lemma cmavo_form_class w s e : scalars (txt w) -> last (txt w) 0 <> 44 -> cmavo_text (letters (txt w)) -> classify w = Ret (s, e) ->
  ~ In s [S_Cmevla; S_Gismu; S_Fuhivla; S_Lujvo; S_AnyText; S_ZoiDelimiter].
Proof.
  intros Hs He Hc H. apply ends_comma_last in He. destruct (classify_ret w s e H) as [(w' & e' & Hl & _)|[-> _]].
  - apply listed_class in Hl. intros Hin. apply Hl. clear - Hin. unfold WORD_CLASSES. cbn in Hin |- *. tauto.
  - rewrite general_letters, He. rewrite (proj2 (cmavo_general (letters (txt w)) (letters_no_comma _)) Hc). clear. cbn. intuition discriminate.
Qed.

(** ** Stability *)
Lemma commas_inside_chunk t pre c post : commas_inside t -> t = pre ++ c ++ post -> sep_head post -> ends_comma c = false.
Proof.
  intros H E Hp. destruct (ends_comma c) eqn:Ec; [exfalso|reflexivity].
  destruct c as [|c0 c1]; [discriminate|]. destruct (exists_last (l := c0 :: c1) ltac:(discriminate)) as (m & y & Ey). rewrite Ey in *.
  rewrite ends_comma_app in Ec. unfold ends_comma in Ec. cbn [last] in Ec. rewrite is_comma_eqb in Ec. apply N.eqb_eq in Ec. subst y.
  destruct (H (pre ++ m) post) as (d & b' & -> & Hd); [rewrite E, <- !app_assoc; reflexivity|].
  destruct Hp as [Hp|(s & u & Hp & Hs)]; [discriminate|]. injection Hp as -> ->. contradiction.
Qed.

Lemma single_word bm s : no_sep (txt s) -> chunk_words (txt s) = [txt s] -> s_len s < 4294967296 -> decompose_all bm s = Ret [mkspan 0 (s_len s)].
Proof.
  intros Hn H Hl. rewrite decompose_text by exact Hl. rewrite text_words_chunk by exact Hn. rewrite H. reflexivity.
Qed.

Lemma in_chunk_no_sep c us w vs : no_sep c -> chunk_words c = us ++ w :: vs -> no_sep w.
Proof.
  intros Hc H. destruct (chunk_words_tile c) as (tail & Et & _). rewrite H, concat_app in Et. cbn [List.concat] in Et.
  rewrite Et in Hc. unfold no_sep in *. rewrite !Forall_app in Hc. tauto.
Qed.

(** a word that is not a stressed brivla with another word right behind it *)
Definition freestanding (s : str) (ws : list span) (x : span) (w : list char) : Prop :=
  no_capital_vowel w \/ cmavo_text (letters w) \/ forall y, In y ws -> sp_start y <> sp_end x.

Lemma word_chunk bm s ws x w : decompose_all bm s = Ret ws -> s_len s < 4294967296 -> commas_inside (txt s) ->
  In x ws -> span_slice x s = Some w -> freestanding s ws x (txt w) ->
  no_sep (txt w) /\ chunk_words (txt w) = [txt w] /\ blen (txt w) <= blen (txt s).
Proof.
  intros H Hl Hci Hin Hw Hor. apply in_split in Hin as (a & b & E).
  destruct (word_at bm s ws a x b H Hl E) as (pre & c & post & us & u & vs & b' & E1 & E2 & E3 & E4 & E5 & E6 & E7 & E8).
  rewrite E8 in Hw. injection Hw as <-. cbn [txt] in *. split; [|split].
  - eapply in_chunk_no_sep; eassumption.
  - eapply (word_alone_any c us u vs); [eapply commas_inside_chunk; eassumption|exact E4|].
    destruct Hor as [Hor|[Hor|Hor]]; [right; left; apply no_capital_lacks, Hor|right; right; exact Hor|].
    left. destruct vs as [|v vs]; [reflexivity|exfalso].
    eapply Hor; [rewrite E, E6; apply in_or_app; right; right; left; reflexivity|]. rewrite E5. reflexivity.
  - destruct (chunk_words_tile c) as (tail & Et & _). rewrite E4, concat_app in Et. cbn [List.concat] in Et. rewrite E1, Et, !blen_app. lia.
Qed.

Lemma word_stable bm s ws x w : decompose_all bm s = Ret ws -> s_len s < 4294967296 -> commas_inside (txt s) ->
  In x ws -> span_slice x s = Some w -> freestanding s ws x (txt w) ->
  decompose_all bm w = Ret [mkspan 0 (s_len w)].
Proof.
  intros H Hl Hci Hin Hw Hor. destruct (word_chunk bm s ws x w H Hl Hci Hin Hw Hor) as (H1 & H2 & H3).
  apply single_word; [exact H1|exact H2|]. unfold s_len in *. lia.
Qed.

Lemma adjacent_words bm s ws a x y b w : decompose_all bm s = Ret ws -> s_len s < 4294967296 ->
  ws = a ++ x :: y :: b -> sp_end x = sp_start y -> span_slice x s = Some w ->
  last (txt w) 0 <> 44 /\ (cmavo_text (letters (txt w)) \/ stressed_word (txt w)).
Proof.
  intros H Hl E Hxy Hw.
  destruct (word_at bm s ws a x (y :: b) H Hl E) as (pre & c & post & us & u & vs & b' & E1 & _ & _ & E4 & E5 & E6 & E7 & E8).
  rewrite E8 in Hw. injection Hw as <-. cbn [txt]. destruct vs as [|v vs].
  - exfalso. cbn [spans_of app] in E6. rewrite <- E6 in E7. apply Forall_inv in E7.
    destruct (chunk_words_tile c) as (tail & Et & _). rewrite E4, concat_app in Et. cbn [List.concat] in Et.
    rewrite E5 in Hxy. cbn [sp_end] in Hxy. rewrite <- Hxy, Et in E7. rewrite !blen_app in E7. lia.
  - pose proof (leading_words c) as F. rewrite E4, removelast_app in F by discriminate.
    apply Forall_app in F as [_ F]. cbn [removelast] in F. apply Forall_inv in F. destruct F as [[F1 F2]|F].
    + split; [apply ends_comma_last, F2|left; exact F1].
    + split; [apply ends_comma_last, F|right; exact F].
Qed.

(** ** Re-spacing *)
Lemma word_list_chunk c : no_sep c -> word_list c = chunk_words c.
Proof. intros H. unfold word_list. apply no_sep_spec in H. rewrite split_seps_one by exact H. cbn [flat_map]. apply app_nil_r. Qed.

Lemma word_list_sep a s b : is_sep s -> word_list (a ++ s :: b) = word_list a ++ word_list b.
Proof.
  intros H. unfold word_list. apply is_sep_spec in H. rewrite split_seps_app by exact H. apply flat_map_app.
Qed.

Lemma word_list_split : forall n t, (List.length t <= n)%nat -> forall w, In w (word_list t) -> exists pre c post us vs,
  t = pre ++ c ++ post /\ no_sep c /\ sep_head post /\ chunk_words c = us ++ w :: vs.
Proof.
  induction n as [|n IH]; intros t Hn w Hw;
    (destruct (split_seps_cases t) as [[_ Hf]|(c & s & u & Et & Hs & _ & Hf)];
     [rewrite word_list_chunk in Hw by (apply no_sep_spec, Hf); apply in_split in Hw as (us & vs & E);
      exists [], t, [], us, vs; rewrite app_nil_r; repeat split; [apply no_sep_spec, Hf|left; reflexivity|exact E]|subst t]).
  - rewrite app_length in Hn. cbn in Hn. lia.
  - rewrite word_list_sep in Hw by (apply is_sep_spec, Hs). apply in_app_or in Hw as [Hw|Hw].
    + rewrite word_list_chunk in Hw by (apply no_sep_spec, Hf). apply in_split in Hw as (us & vs & E).
      exists [], c, (s :: u), us, vs. repeat split; [apply no_sep_spec, Hf|right; exists s, u; split; [reflexivity|apply is_sep_spec, Hs]|exact E].
    + destruct (IH u) with (w := w) as (pre & c' & post & us & vs & -> & H1 & H2 & H3); [rewrite app_length in Hn; cbn in Hn; lia|exact Hw|].
      exists (c ++ s :: pre), c', post, us, vs. rewrite <- app_assoc. auto.
Qed.

Lemma word_list_spaced us : Forall (fun w => no_sep w /\ chunk_words w = [w]) us -> word_list (spaced us) = us.
Proof.
  induction us as [|u us IH]; intros H; [reflexivity|]. inversion H as [|? ? [Hn Hc] H']; subst. destruct us as [|v us].
  - cbn [spaced]. rewrite word_list_chunk by exact Hn. exact Hc.
  - change (spaced (u :: v :: us)) with (u ++ 32 :: spaced (v :: us)). rewrite word_list_sep by (vm_compute; tauto).
    rewrite word_list_chunk by exact Hn. rewrite Hc, IH by exact H'. reflexivity.
Qed.

Lemma cuts_spelled s : spelled s (text_words (txt s)) (word_list (txt s)).
Proof. eapply Forall2_impl; [|apply text_words_cut]. intros sp w H. apply cuts_slice in H. eexists. exact H. Qed.

Lemma spelled_fun s sps us us' : spelled s sps us -> spelled s sps us' -> us = us'.
Proof.
  intros H. revert us'. induction H as [|sp u sps us (p & Hp) _ IH]; intros us' H'; inversion H' as [|? u' ? us0 (p' & Hp') H0]; subst; [reflexivity|].
  rewrite Hp in Hp'. injection Hp' as _ ->. f_equal. apply IH, H0.
Qed.

Lemma Forall2_in_r {A B} (R : A -> B -> Prop) l l' y : Forall2 R l l' -> In y l' -> exists x, In x l /\ R x y.
Proof. intros H. induction H as [|a b l l' Hab _ IH]; intros [].
  - subst. exists a. split; [left; reflexivity|exact Hab].
  - destruct (IH H) as (x & Hx & Hr). exists x. split; [right; exact Hx|exact Hr].
Qed.

Lemma respaced bm s ws us p : decompose_all bm s = Ret ws -> s_len s < 4294967296 -> commas_inside (txt s) ->
  (forall x w, In x ws -> span_slice x s = Some w -> freestanding s ws x (txt w)) ->
  spelled s ws us -> blen (spaced us) < 4294967296 ->
  exists ws', decompose_all bm (mkstr p (spaced us)) = Ret ws' /\ spelled (mkstr p (spaced us)) ws' us.
Proof.
  intros H Hl Hc Hf Hu Hs. eexists. split; [apply decompose_text; exact Hs|].
  pose proof (cuts_spelled (mkstr p (spaced us))) as X. cbn [txt] in X |- *.
  rewrite (word_list_spaced us) in X; [exact X|]. apply Forall_forall. intros u Hin.
  destruct (Forall2_in_r _ _ _ _ Hu Hin) as (x & Hx & (q & Hq)).
  destruct (word_chunk bm s ws x _ H Hl Hc Hx Hq (Hf x _ Hx Hq)) as (H1 & H2 & _). auto.
Qed.

(** ** cmavo in front *)
Lemma nucleus_cons_fails T : cons_head T -> accepts N_nucleus T = false.
Proof.
  intros HT. apply accepts_none. apply (sx_all_fail cons_tail 30 (Call N_nucleus) []); [vm_compute; reflexivity|apply wfe_call|].
  apply (inst_has CONS [] [] [] T); [constructor|apply tail_cons, HT].
Qed.

Lemma accepts_all_some x t : accepts_all x t = true -> accepts x t = true.
Proof. unfold accepts_all, accepts. destruct (ev (Call x) t); [reflexivity|discriminate]. Qed.

Lemma no_sep_not_misspelt t : no_sep t -> spelling t <> lit " vi'ei'e".
Proof.
  intros H E. unfold spelling, letters in E.
  assert (Hin : In 32 (map (fun c => if c =? 104 then 39 else c) (filter (fun c => negb (c =? 44)) t))) by (rewrite E; left; reflexivity).
  apply in_map_iff in Hin as (c & Hc & Hin). apply filter_In in Hin as [Hin _]. unfold no_sep in H. rewrite Forall_forall in H. apply (H c Hin).
  destruct (N.eqb_spec c 104) as [E4|_]; [discriminate|]. rewrite Hc. vm_compute. tauto.
Qed.

Lemma class_cases s : In s [S_Cmevla; S_Gismu; S_Fuhivla; S_Lujvo; S_AnyText] \/ ~ In s [S_Cmevla; S_Gismu; S_Fuhivla; S_Lujvo; S_AnyText].
Proof. destruct s; try (right; cbn; intuition discriminate); left; cbn; tauto. Qed.

Lemma good_rest_class T w1 l p s e : no_sep T -> ends_comma T = false -> cons_head T -> simple_cmevla_check T = false -> scalars T ->
  chunk_words T = w1 :: l -> classify (mkstr p w1) = Ret (s, e) -> s <> S_AnyText -> good_rest T.
Proof.
  intros Hn He HT Hs Hsc Hw Hcl Hany. destruct (fall_off_ev T) as [r|] eqn:Ef; [left; rewrite Ef; discriminate|right].
  assert (w1 = T).
  { rewrite chunk_words_finish in Hw by exact Hs. assert (F : fall (List.length T) T = ([], T)).
    { destruct (List.length T) as [|k]; [reflexivity|]. cbn [fall]. rewrite Ef. reflexivity. }
    rewrite F in Hw. rewrite finish_all in Hw; [injection Hw; auto|exact He|]. destruct HT as (c & q & -> & _). discriminate. }
  subst w1. unfold post_word_ev. rewrite (nucleus_cons_fails T HT). cbn [negb andb].
  destruct (class_cases s) as [Hin|Hin].
  - destruct (classify_word _ s e Hcl Hsc) as (_ & x & Hx & Hpair); cbn [txt] in *.
    + clear - Hin. unfold WORD_CLASSES. cbn in *. tauto.
    + exact Hany.
    + intros ->. clear - Hin. cbn in Hin. intuition discriminate.
    + assert (A : accepts_all x T = true) by (rewrite accepts_all_letters, He, Hx; reflexivity).
      assert (Hx' : x <> N_cmevla).
      { intros ->. assert (s = S_Cmevla) as ->. { cbn in Hpair. repeat (destruct Hpair as [Hpair|Hpair]; [injection Hpair; congruence|]). destruct Hpair. }
        destruct (classify_endings _ _ _ Hcl Hsc) as [X _]. destruct (X eq_refl) as (m & c & E & Hc). cbn [txt] in E.
        unfold simple_cmevla_check in Hs. rewrite E, rev_app_distr in Hs. cbn [rev app find] in Hs.
        rewrite (cons_plain c) in Hs by (apply consonant_CONS, Hc). cbn [negb] in Hs.
        assert (Y : is_consonant c = true); [|rewrite Y in Hs; discriminate].
        unfold is_consonant. change (to_ascii_lowercase c) with (lower c). apply mem_char_In. exact Hc. }
      apply accepts_all_some in A. cbn in Hpair.
      repeat (destruct Hpair as [Hpair|Hpair]; [injection Hpair as <- <-; try congruence; rewrite A, ?orb_true_r; reflexivity|]). destruct Hpair.
  - exfalso. destruct (cmavo_class_form (mkstr p T) s e Hsc Hcl Hin) as [C|C]; cbn [txt] in C.
    + assert (A : accepts_all N_cmavo_minimal T = true).
      { rewrite accepts_all_letters, He. apply cmavo_minimal_exact; [apply letters_no_comma|exact C]. }
      unfold fall_off_ev, accepts_all in *. destruct (ev (Call N_cmavo_minimal) T) as [[|]|]; congruence.
    + exact (no_sep_not_misspelt _ Hn C).
Qed.

Lemma spans_consecutive us : forall o, spans_of o us = consecutive o us.
Proof. induction us as [|u us IH]; intros o; cbn; [reflexivity|]. rewrite IH. reflexivity. Qed.

Lemma spans_of_shift n us : forall o, spans_of (n + o) us = map (shift_span n) (spans_of o us).
Proof.
  induction us as [|u us IH]; intros o; cbn [spans_of map]; [reflexivity|]. unfold shift_span at 1. cbn [sp_start sp_end].
  rewrite <- IH, N.add_assoc. reflexivity.
Qed.

Lemma spans_of_app us vs : forall o, spans_of o (us ++ vs) = spans_of o us ++ spans_of (o + blen (List.concat us)) vs.
Proof.
  induction us as [|u us IH]; intros o; cbn [spans_of app List.concat]; [rewrite N.add_0_r; reflexivity|].
  rewrite IH, blen_app, N.add_assoc. reflexivity.
Qed.

Lemma starts_cons_head T : starts_with_consonant T -> cons_head T.
Proof. intros (c & r & -> & Hc). exists c, r. split; [reflexivity|apply consonant_CONS, Hc]. Qed.

(** what a rest that can follow a cmavo is *)
Record follower (T : list char) : Prop := {
  fo_head : cons_head T;
  fo_check : simple_cmevla_check T = false;
  fo_rest : good_rest T;
  fo_y : forall c y t, letters T = c :: y :: t -> ~ In y (lit "yY") }.

Definition linkable (w : list char) : Prop := cmavo_text w /\ no_capital_vowel w /\ starts_with_consonant w /\ Forall (fun c => ~ In c (lit "yY")) w.

Lemma check_false_letters T : ~ ends_with consonant_letter (letters T) -> simple_cmevla_check T = false.
Proof. intros H. destruct (simple_cmevla_check T) eqn:E; [|reflexivity]. exfalso. apply H, cmevla_check_ends, E. Qed.

Lemma linkable_plain w : linkable w -> letters w = w.
Proof. intros (H & _). apply letters_id, cmavo_text_plain, H. Qed.

Lemma second_not_y w T : linkable w -> (T = [] \/ starts_with_consonant T) -> forall c y t, letters (w ++ T) = c :: y :: t -> ~ In y (lit "yY").
Proof.
  intros Hw HT c y t E Hy. rewrite letters_app, (linkable_plain w Hw) in E. destruct Hw as (_ & _ & (a & u & -> & _) & Hf). cbn [app] in E. injection E as -> E.
  destruct u as [|b u]; [|injection E as -> _; apply Forall_inv_tail, Forall_inv in Hf; contradiction].
  cbn [app] in E. destruct HT as [->|HT]; [discriminate|]. apply starts_cons_head in HT as (k & q & -> & Hk).
  unfold letters in E. cbn [filter] in E. rewrite <- is_comma_eqb, (cons_plain k Hk) in E. cbn [negb] in E. injection E as -> _.
  clear - Hk Hy. pose proof (char_sweep CONS (fun c => negb (memb c (lit "yY"))) y eq_refl Hk) as X. cbv beta in X. apply memb_In in Hy. rewrite Hy in X. discriminate.
Qed.

Lemma linkable_follower_end w : linkable w -> follower w.
Proof.
  intros Hw. pose proof Hw as (H & Hl & Hs & Hy). constructor.
  - apply starts_cons_head, Hs.
  - apply check_false_letters. rewrite (linkable_plain w Hw). apply cmavo_text_last, H.
  - left. intros E. assert (A : accepts_all N_cmavo_minimal w = true) by (apply cmavo_minimal_exact; [apply cmavo_text_plain, H|exact H]).
    unfold fall_off_ev, accepts_all in *. destruct (ev (Call N_cmavo_minimal) w) as [[|]|]; congruence.
  - intros c y t E. rewrite <- (app_nil_r w) in E. eapply second_not_y; [exact Hw|left; reflexivity|exact E].
Qed.

Lemma follower_step w T : linkable w -> follower T -> follower (w ++ T) /\ chunk_words (w ++ T) = w :: chunk_words T.
Proof.
  intros Hw [F1 F2 F3 F4]. pose proof Hw as (H & Hl & Hs & Hy).
  assert (Ev : ev (Call N_cmavo_minimal) (w ++ T) = Some T) by (apply ev_cmavo_cons; auto; right; exact F4).
  split; [constructor|].
  - destruct Hs as (c & r & -> & Hc). exists c, (r ++ T). split; [reflexivity|apply consonant_CONS, Hc].
  - rewrite cmevla_check_app; assumption.
  - left. unfold fall_off_ev. rewrite Ev. discriminate.
  - apply second_not_y; [exact Hw|right]. destruct F1 as (c & r & -> & Hc). exists c, r. split; [reflexivity|apply consonant_CONS, Hc].
  - apply chunk_words_cons; auto. right. exact F4.
Qed.

Lemma linkables ws : forall T, Forall linkable ws -> follower T -> follower (List.concat ws ++ T) /\ chunk_words (List.concat ws ++ T) = ws ++ chunk_words T.
Proof.
  induction ws as [|w ws IH]; intros T H HT; [auto|]. cbn [List.concat app]. rewrite <- app_assoc.
  destruct (IH T (Forall_inv_tail H) HT) as [F E]. destruct (follower_step w _ (Forall_inv H) F) as [F' E']. split; [exact F'|]. rewrite E', E. reflexivity.
Qed.

Lemma linkables_only ws : Forall linkable ws -> ws <> [] -> chunk_words (List.concat ws) = ws.
Proof.
  intros H Hne. destruct (exists_last Hne) as (m & w & ->). apply Forall_app in H as [Hm Hw]. apply Forall_inv in Hw.
  rewrite concat_app. cbn [List.concat]. rewrite app_nil_r. destruct (linkables m w Hm (linkable_follower_end w Hw)) as [_ E]. rewrite E. f_equal.
  apply cmavo_alone. pose proof Hw as (H1 & _). split; [rewrite (linkable_plain w Hw); exact H1|]. apply ends_comma_plain, cmavo_text_plain, H1.
Qed.

(** ** Statements about a whole [str] *)
Lemma cmavo_no_sep w : cmavo_text w -> no_sep w.
Proof.
  intros H. set (K := CONS ++ NLETTERS ++ lit "0123456789").
  assert (F : Forall (fun c => In c K) w).
  { assert (N : forall r, nuclei r -> Forall (fun c => In c K) r).
    { intros r Hr. apply nuclei_letters in Hr. eapply Forall_impl; [|exact Hr]. intros c Hc. unfold K. apply in_or_app. right. apply in_or_app. left. exact Hc. }
    destruct H as [(d & -> & Hd)|[[_ Hy]|[Hn|(c & r & -> & Hn & Hc)]]].
    - constructor; [|constructor]. unfold K. apply in_or_app. right. apply in_or_app. right. exact Hd.
    - eapply Forall_impl; [|exact Hy]. intros c Hc. cbn in Hc. destruct Hc as [<-|[<-|[]]]; vm_compute; tauto.
    - apply N, Hn.
    - constructor; [|apply N, Hn]. unfold K. destruct Hc as [Hc|Hc]; [apply in_or_app; left; apply consonant_CONS, Hc|].
      apply in_or_app. right. apply in_or_app. left. unfold NLETTERS. apply in_or_app. left. apply vowel_or_y_VOWELS. unfold vowel_or_y.
      cbn in Hc. destruct Hc as [<-|[<-|[]]]; vm_compute; tauto. }
  eapply Forall_impl; [|exact F]. intros c Hc Hsep.
  assert (X : forallb (fun c => negb (memb c (lit ".?! " ++ [9; 10; 13]))) K = true) by (vm_compute; reflexivity).
  pose proof (forallb_in _ _ _ X Hc) as Y. cbv beta in Y. apply memb_In in Hsep. rewrite Hsep in Y. discriminate.
Qed.

Lemma follower_class bm r x xs v k e : no_sep (txt r) -> scalars (txt r) -> last (txt r) 0 <> 44 -> starts_with_consonant (txt r) ->
  ~ ends_with consonant_letter (letters (txt r)) -> s_len r < 4294967296 ->
  decompose_all bm r = Ret (x :: xs) -> span_slice x r = Some v -> classify v = Ret (k, e) -> k <> S_AnyText ->
  cons_head (txt r) /\ simple_cmevla_check (txt r) = false /\ good_rest (txt r).
Proof.
  intros Hn Hs He Hc Hk Hl H Hv Hcl Hany.
  assert (H1 : cons_head (txt r)) by (apply starts_cons_head, Hc). assert (H2 : simple_cmevla_check (txt r) = false) by (apply check_false_letters, Hk).
  split; [exact H1|]. split; [exact H2|].
  apply decompose_spec in H; [|exact Hl]. rewrite text_words_chunk in H by exact Hn.
  destruct (chunk_words (txt r)) as [|w1 l] eqn:Ew; [discriminate|]. cbn [spans_of] in H. injection H as -> _.
  assert (E : v = mkstr (ptr r + 0) w1).
  { assert (X : span_slice (mkspan 0 (0 + blen w1)) r = Some (mkstr (ptr r + 0) w1)).
    { apply (cuts_slice r (mkspan 0 (0 + blen w1)) w1). destruct (chunk_words_tile (txt r)) as (tail & Et & _). rewrite Ew in Et. cbn [List.concat] in Et. rewrite <- app_assoc in Et.
      exists [], (List.concat l ++ tail). cbn [sp_start sp_end app]. split; [exact Et|]. cbn. auto. }
    pose proof (eq_trans (eq_sym Hv) X) as Y. injection Y as ->. reflexivity. }
  subst v. eapply (good_rest_class (txt r) w1 l); try eassumption. apply ends_comma_last, He.
Qed.

Lemma cmavo_in_front bm s r w x xs v k e : txt s = w ++ txt r -> cmavo_text w -> no_capital_vowel w ->
  no_sep (txt r) -> scalars (txt r) -> last (txt r) 0 <> 44 -> starts_with_consonant (txt r) ->
  ~ ends_with consonant_letter (letters (txt r)) -> s_len s < 4294967296 ->
  (List.length w <> 2%nat \/ forall c y t, letters (txt r) = c :: y :: t -> ~ In y (lit "yY")) ->
  decompose_all bm r = Ret (x :: xs) -> span_slice x r = Some v -> classify v = Ret (k, e) -> k <> S_AnyText ->
  decompose_all bm s = Ret (mkspan 0 (blen w) :: map (shift_span (blen w)) (x :: xs)).
Proof.
  intros Es Hw Hcw Hn Hsc He Hc Hk Hl Hy H Hv Hcl Hany.
  assert (Hlr : s_len r < 4294967296) by (unfold s_len in *; rewrite Es, blen_app in Hl; lia).
  destruct (follower_class bm r x xs v k e) as (F1 & F2 & F3); try assumption.
  apply decompose_spec in H; [|exact Hlr]. rewrite decompose_text by exact Hl. rewrite H. f_equal.
  assert (Hns : no_sep (txt s)).
  { rewrite Es. unfold no_sep. apply Forall_app. split; [|exact Hn]. apply cmavo_no_sep, Hw. }
  rewrite text_words_chunk by exact Hns. rewrite text_words_chunk by exact Hn. rewrite Es, chunk_words_cons; try assumption.
  cbn [spans_of]. rewrite N.add_0_l. f_equal. rewrite <- spans_of_shift, N.add_0_r. reflexivity.
Qed.

Lemma cmavo_list_in_front bm s r ws x xs v k e : txt s = List.concat ws ++ txt r -> Forall linkable ws ->
  no_sep (txt r) -> scalars (txt r) -> last (txt r) 0 <> 44 -> starts_with_consonant (txt r) ->
  ~ ends_with consonant_letter (letters (txt r)) -> s_len s < 4294967296 ->
  (forall c y t, letters (txt r) = c :: y :: t -> ~ In y (lit "yY")) ->
  decompose_all bm r = Ret (x :: xs) -> span_slice x r = Some v -> classify v = Ret (k, e) -> k <> S_AnyText ->
  decompose_all bm s = Ret (consecutive 0 ws ++ map (shift_span (blen (List.concat ws))) (x :: xs)).
Proof.
  intros Es Hw Hn Hsc He Hc Hk Hl Hy H Hv Hcl Hany.
  assert (Hlr : s_len r < 4294967296) by (unfold s_len in *; rewrite Es, blen_app in Hl; lia).
  destruct (follower_class bm r x xs v k e) as (F1 & F2 & F3); try assumption.
  apply decompose_spec in H; [|exact Hlr]. rewrite decompose_text by exact Hl. rewrite H. f_equal.
  assert (Hns : no_sep (txt s)).
  { rewrite Es. unfold no_sep. apply Forall_app. split; [|exact Hn]. clear - Hw. induction Hw as [|w ws (H & _) _ IH]; [constructor|].
    cbn [List.concat]. apply Forall_app. split; [apply cmavo_no_sep, H|exact IH]. }
  rewrite text_words_chunk by exact Hns. rewrite text_words_chunk by exact Hn. rewrite Es.
  destruct (linkables ws (txt r) Hw) as [_ E]; [constructor; assumption|]. rewrite E, spans_of_app, spans_consecutive. f_equal.
  rewrite <- spans_of_shift, N.add_0_r, N.add_0_l. reflexivity.
Qed.

Lemma cmavo_list_only bm s ws : txt s = List.concat ws -> Forall linkable ws -> ws <> [] -> s_len s < 4294967296 ->
  decompose_all bm s = Ret (consecutive 0 ws).
Proof.
  intros Es Hw Hne Hl. rewrite decompose_text by exact Hl. f_equal.
  assert (Hns : no_sep (txt s)).
  { rewrite Es. clear - Hw. induction Hw as [|w ws (H & _) _ IH]; [constructor|].
    cbn [List.concat]. apply Forall_app. split; [apply cmavo_no_sep, H|exact IH]. }
  rewrite text_words_chunk by exact Hns. rewrite Es, linkables_only by assumption. apply spans_consecutive.
Qed.

Lemma two_consonants_one bm s c d u : no_sep (txt s) -> no_capital_vowel (txt s) -> last (txt s) 0 <> 44 -> s_len s < 4294967296 ->
  letters (txt s) = c :: d :: u -> consonant_letter c -> consonant_letter d -> decompose_all bm s = Ret [mkspan 0 (s_len s)].
Proof.
  intros Hn Hv He Hl E Hc Hd. apply single_word; [exact Hn| |exact Hl].
  eapply cc_one_word; [exact E|apply consonant_CONS, Hc|apply consonant_CONS, Hd|apply ends_comma_last, He|exact Hv].
Qed.

Lemma gismu_one_word bm s e : no_sep (txt s) -> scalars (txt s) -> s_len s < 4294967296 -> classify s = Ret (S_Gismu, e) ->
  decompose_all bm s = Ret [mkspan 0 (s_len s)].
Proof.
  intros Hn Hsc Hl H. apply (classify_gismu s e Hsc) in H as (_ & He & Hg). apply ends_comma_last in He.
  apply single_word; [exact Hn| |exact Hl]. pose proof (plain_gismu_one _ Hg) as E.
  pose proof (chunk_words_sim norm good_norm_norm _ _ (sim_letters _ He)) as S. rewrite E in S.
  inversion S as [|x ? l ? Hx S' E1]; subst. inversion S' as [E2|]; subst.
  symmetry in E1. pose proof (last_alone (txt s) [] x He E1) as Ex.
  destruct (chunk_words_tile (txt s)) as (tail & Et & Ht). rewrite E1 in Et. cbn [List.concat] in Et. rewrite app_nil_r in Et.
  destruct tail as [|y tail]; [rewrite app_nil_r in Et; rewrite <- Et; reflexivity|].
  exfalso. destruct (exists_last (l := y :: tail) ltac:(discriminate)) as (m & z & Ez). rewrite Ez in *.
  rewrite Et, !app_assoc, ends_comma_app in He. apply Forall_app in Ht as [_ Ht]. apply Forall_inv in Ht. unfold ends_comma in He. cbn [last] in He. congruence.
Qed.

Lemma two_of_count t : (2 <= count VOWELS t)%nat -> exists a x b y c, t = a ++ x :: b ++ y :: c /\ vowel_or_y x /\ vowel_or_y y.
Proof.
  assert (G : forall u k, (S k <= count VOWELS u)%nat -> exists a x b, u = a ++ x :: b /\ In x VOWELS /\ (k <= count VOWELS b)%nat).
  { induction u as [|c u IH]; intros k H; [cbn in H; lia|]. unfold count in H. cbn [filter] in H. destruct (memb c VOWELS) eqn:E.
    - exists [], c, u. apply memb_In in E. cbn [List.length] in H. unfold count. split; [reflexivity|]. split; [exact E|lia].
    - destruct (IH k H) as (a & x & b & -> & Hx & Hb). exists (c :: a), x, b. auto. }
  intros H. destruct (G t 1%nat H) as (a & x & b & -> & Hx & Hb). destruct (G b 0%nat Hb) as (b1 & y & c & -> & Hy & _).
  exists a, x, b1, y, c. split; [reflexivity|]. split; apply vowel_or_y_VOWELS; assumption.
Qed.

Lemma brivla_vowels w s e : classify w = Ret (s, e) -> scalars (txt w) -> In s [S_Gismu; S_Fuhivla; S_Lujvo] ->
  exists a x b y c, txt w = a ++ x :: b ++ y :: c /\ vowel_or_y x /\ vowel_or_y y.
Proof.
  intros H Hs Hin. destruct (classify_word w s e H Hs) as (He & x & Hx & Hp).
  - unfold WORD_CLASSES. clear - Hin. cbn in *. tauto.
  - intros ->. clear - Hin. cbn in Hin. intuition discriminate.
  - intros ->. clear - Hin. cbn in Hin. intuition discriminate.
  - assert (A : accepts_all x (txt w) = true) by (rewrite accepts_all_letters, He, Hx; reflexivity).
    apply two_of_count. unfold accepts_all in A. destruct (ev (Call x) (txt w)) as [[|]|] eqn:E; try discriminate.
    assert (Hb : In x BRIVLA_RULES).
    { clear - Hin Hp. cbn in Hp. repeat (destruct Hp as [Hp|Hp]; [injection Hp as <- <-; cbn in Hin |- *; intuition discriminate|]). destruct Hp. }
    destruct (brivla_two_vowels x _ _ Hb E) as (m & -> & Hm). rewrite app_nil_r. exact Hm.
Qed.

Lemma adjacent_class bm s ws a x y b w k e : decompose_all bm s = Ret ws -> s_len s < 4294967296 -> no_capital_vowel (txt s) ->
  scalars (txt s) ->
  ws = a ++ x :: y :: b -> sp_end x = sp_start y -> span_slice x s = Some w -> classify w = Ret (k, e) ->
  ~ In k [S_Cmevla; S_Gismu; S_Fuhivla; S_Lujvo; S_AnyText; S_ZoiDelimiter].
Proof.
  intros H Hl Hc Hs E Hxy Hw Hk. destruct (adjacent_cmavo bm s ws a x y b w H Hl Hc E Hxy Hw) as [F L].
  destruct (word_at bm s ws a x (y :: b) H Hl E) as (pre & c & post & us & u & vs & b' & E1 & _ & _ & E4 & _ & _ & _ & E8).
  rewrite E8 in Hw. injection Hw as <-. eapply cmavo_form_class; [|exact L|exact F|exact Hk]. cbn [txt].
  destruct (chunk_words_tile c) as (tail & Et & _). rewrite E4, concat_app in Et. cbn [List.concat] in Et.
  unfold scalars in *. rewrite E1, Et, !Forall_app in Hs. tauto.
Qed.

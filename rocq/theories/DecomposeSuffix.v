(** DecomposeSuffix.v -- decomposition restarted at a word boundary gives the
    remaining words. *)
From Verif Require Import Base Peg Rules RulesApi PegMeta RulesTotal PegChars Span Decompose DecomposeSpec DecomposeFacts
  History DecomposeMachine SpecText DecomposeThms.
From Coq Require Import Lia Arith.

Lemma fall_fuel : forall k k' t, (List.length t <= k)%nat -> (List.length t <= k')%nat -> fall k t = fall k' t.
Proof.
  induction k as [|k IH]; intros k' t H H'.
  - destruct t; [|cbn in H; lia]. destruct k'; [reflexivity|]. cbn [fall].
    destruct (fall_off_ev []) as [r|] eqn:E; [|reflexivity]. apply fall_off_ev_some in E as (_ & _ & E). cbn in E. lia.
  - destruct k' as [|k'].
    + destruct t; [|cbn in H'; lia]. cbn [fall].
      destruct (fall_off_ev []) as [r|] eqn:E; [|reflexivity]. apply fall_off_ev_some in E as (_ & _ & E). cbn in E. lia.
    + cbn [fall]. destruct (fall_off_ev t) as [r|] eqn:E; [|reflexivity].
      apply fall_off_ev_some in E as (_ & _ & E). rewrite (IH k' r) by lia. reflexivity.
Qed.

Lemma cmevla_check_suffix a r : simple_cmevla_check (a ++ r) = false -> simple_cmevla_check r = false.
Proof.
  unfold simple_cmevla_check. rewrite rev_app_distr. generalize (rev r) (rev a). clear.
  induction l as [|c l IH]; intros l'; cbn [find app]; [reflexivity|].
  destruct (negb (is_comma c)); [auto|apply IH].
Qed.

Lemma commas_no_words t : Forall (fun c => is_comma c = true) t -> chunk_words t = [].
Proof. apply chunk_words_nil. Qed.

Definition finish (ws : list (list char)) (rest : list char) : list (list char) :=
  match trim_end_commas rest with [] => ws | _ => ws ++ [trim_end_commas rest] end.

Lemma finish_cons w ws rest : finish (w :: ws) rest = w :: finish ws rest.
Proof. unfold finish. destruct (trim_end_commas rest); reflexivity. Qed.

Lemma finish_nil_head rest w ws c' : finish [] rest = w :: ws -> rest = w ++ c' -> ws = [] /\ chunk_words c' = [].
Proof.
  unfold finish. destruct (trim_end_split rest) as (tail & Hr & Hf).
  destruct (trim_end_commas rest) as [|d u] eqn:E; [discriminate|]. cbn [app].
  intros [= <- <-] H. split; [reflexivity|]. apply commas_no_words. rewrite Hr in H.
  apply app_inv_head in H. subst. exact Hf.
Qed.

Lemma chunk_words_finish t : simple_cmevla_check t = false ->
  chunk_words t =
    let (ws, rest) := fall (List.length t) t in
    match ws with
    | [] => finish [] rest
    | _ => if post_word_ev rest then finish ws rest else finish (removelast ws) (last ws [] ++ rest)
    end.
Proof.
  intros H. unfold chunk_words. rewrite H. destruct (fall (List.length t) t) as [ws rest].
  unfold finish. destruct ws as [|w ws]; [reflexivity|]. destruct (post_word_ev rest); reflexivity.
Qed.

Theorem chunk_words_suffix c w ws c' : chunk_words c = w :: ws -> c = w ++ c' -> chunk_words c' = ws.
Proof.
  intros H Hc. destruct (simple_cmevla_check c) eqn:Es.
  - unfold chunk_words in H. rewrite Es in H. injection H as Hw <-.
    subst w. rewrite <- (app_nil_r c) in Hc at 1. apply app_inv_head in Hc. subst c'. apply commas_no_words. constructor.
  - rewrite chunk_words_finish in H by exact Es.
    destruct (List.length c) as [|k] eqn:El.
    + destruct c; [|discriminate]. cbn in H. discriminate.
    + cbn [fall] in H. destruct (fall_off_ev c) as [r|] eqn:E.
      * destruct (fall k r) as [ws1 rest] eqn:F. pose proof (fall_off_ev_some _ _ E) as (Ec & _ & Elr).
        assert (Fr : fall (List.length r) r = (ws1, rest)) by (rewrite <- F; apply fall_fuel; lia).
        set (w1 := before c r) in *.
        assert (Esr : simple_cmevla_check r = false) by (apply (cmevla_check_suffix w1); rewrite <- Ec; exact Es).
        assert (Hr : forall l, w1 :: l = w :: ws -> c' = r /\ l = ws).
        { intros l [= <- <-]. split; [|reflexivity]. rewrite Ec in Hc. apply app_inv_head in Hc. auto. }
        pose proof (chunk_words_finish r Esr) as Hcr. rewrite Fr in Hcr.
        destruct (post_word_ev rest) eqn:Ep.
        -- rewrite finish_cons in H. apply Hr in H as [-> <-]. rewrite Hcr. destruct ws1; reflexivity.
        -- destruct ws1 as [|w2 ws2].
           ++ cbn [removelast last] in H.
              assert (rest = r) as -> by (apply fall_concat in Fr; cbn in Fr; congruence).
              rewrite <- Ec in H. apply finish_nil_head with (c' := c') in H; [|exact Hc].
              destruct H as [-> H]. exact H.
           ++ change (removelast (w1 :: w2 :: ws2)) with (w1 :: removelast (w2 :: ws2)) in H.
              change (last (w1 :: w2 :: ws2) []) with (last (w2 :: ws2) []) in H.
              rewrite finish_cons in H. apply Hr in H as [-> <-]. exact Hcr.
      * apply finish_nil_head with (c' := c') in H; [|exact Hc]. destruct H as [-> H]. exact H.
Qed.

(** * The text still to be read, in a state of the abstract machine *)

(** After a word, or after [next_no_decomposition]. *)
Inductive rest_is (o : N) (r : list char) : astate -> Prop :=
| rest_last : Forall (fun c => split_or_trim_condition c = false) r ->
    rest_is o r (spans_of o (chunk_words r), [])
| rest_more c s u : r = c ++ s :: u -> Forall (fun c => split_or_trim_condition c = false) c ->
    split_or_trim_condition s = true ->
    rest_is o r (spans_of o (chunk_words c), chunks_off (split_seps u) (o + blen c + 1)).

(** At the very beginning. *)
Definition fresh (o : N) (r : list char) (a : astate) : Prop := a = ([], chunks_off (split_seps r) o).

Definition words_at (o : N) (r : list char) : list span := map (shift_span o) (text_words r).

Lemma flat_at o r : flat_map (fun oc => spans_of (fst oc) (chunk_words (snd oc))) (chunks_off (split_seps r) o) = words_at o r.
Proof.
  unfold words_at, text_words, chunks_of. rewrite <- flat_shift, N.add_0_r. reflexivity.
Qed.

Lemma fresh_words o r a : fresh o r a -> a_words a = words_at o r.
Proof. intros ->. unfold a_words. cbn [fst snd app]. apply flat_at. Qed.

Lemma words_at_chunk o c : Forall (fun c => split_or_trim_condition c = false) c -> words_at o c = spans_of o (chunk_words c).
Proof.
  intros H. unfold words_at. rewrite text_words_chunk by (apply no_sep_spec; exact H).
  rewrite <- spans_of_shift, N.add_0_r. reflexivity.
Qed.

Lemma shift_shift a b l : map (shift_span a) (map (shift_span b) l) = map (shift_span (a + b)) l.
Proof. rewrite map_map. apply map_ext. intros [x y]. unfold shift_span. cbn. f_equal; lia. Qed.

Lemma words_at_app o c s u : split_or_trim_condition s = true ->
  words_at o (c ++ s :: u) = words_at o c ++ words_at (o + blen c + 1) u.
Proof.
  intros H. unfold words_at. rewrite text_words_app by (apply is_sep_spec; exact H).
  rewrite map_app, shift_shift, N.add_assoc. reflexivity.
Qed.

Lemma rest_words o r a : rest_is o r a -> a_words a = words_at o r.
Proof.
  intros [H|c s u -> H Hs]; unfold a_words; cbn [fst snd].
  - rewrite app_nil_r. symmetry. apply words_at_chunk. exact H.
  - rewrite words_at_app by exact Hs. rewrite words_at_chunk by exact H. f_equal. apply flat_at.
Qed.

Lemma spans_of_cons o ws w r : spans_of o ws = w :: r ->
  exists m l, ws = m :: l /\ w = mkspan o (o + blen m) /\ r = spans_of (o + blen m) l.
Proof. destruct ws as [|m l]; cbn [spans_of]; [discriminate|]. intros [= <- <-]. eauto. Qed.

Lemma chunk_head c m l : chunk_words c = m :: l -> exists c', c = m ++ c' /\ chunk_words c' = l.
Proof.
  intros H. destruct (chunk_words_tile c) as (tail & E & _). rewrite H in E. cbn [List.concat] in E.
  rewrite <- app_assoc in E. exists (List.concat l ++ tail). split; [exact E|].
  eapply chunk_words_suffix; [exact H|exact E].
Qed.

(** the word found in a chunk list, and the state after it *)
Lemma find_rest : forall n r o, (List.length r <= n)%nat ->
  match a_find (chunks_off (split_seps r) o) with
  | (None, a) => a = ([], []) /\ text_words r = []
  | (Some sp, a) => exists g w r' l, r = g ++ w ++ r' /\ sp = mkspan (o + blen g) (o + blen g + blen w) /\
       text_words r = mkspan (blen g) (blen g + blen w) :: l /\ has_non_comma w /\ gap g /\
       rest_is (o + blen g + blen w) r' a
  end.
Proof.
  induction n as [|n IH]; intros r o Hn;
    (destruct (split_seps_cases r) as [[-> Hf]|(c & s & u & -> & Hs & -> & Hf)]; cbn [chunks_off a_find]).
  1, 3: destruct (spans_of o (chunk_words r)) as [|w l] eqn:E;
    [cbn [a_find]; split; [reflexivity|]; rewrite text_words_chunk by (apply no_sep_spec; exact Hf);
     apply spans_of_nil in E; rewrite E; reflexivity
    |apply spans_of_cons in E as (m & ws & E & -> & ->); destruct (chunk_head _ _ _ E) as (c' & -> & <-);
     exists [], m, c', (spans_of (blen m) (chunk_words c')); cbn [app blen]; rewrite N.add_0_r, N.add_0_l;
     split; [reflexivity|]; split; [reflexivity|];
     split; [rewrite text_words_chunk by (apply no_sep_spec; exact Hf); rewrite E; reflexivity|];
     split; [pose proof (chunk_words_proper (m ++ c')) as Hp; rewrite E in Hp; apply Forall_inv in Hp; exact Hp|];
     split; [constructor|]; apply rest_last; apply Forall_app in Hf; tauto].
  - rewrite app_length in Hn. cbn in Hn. lia.
  - destruct (spans_of o (chunk_words c)) as [|w l] eqn:E.
    + specialize (IH u (o + blen c + 1)). rewrite app_length in Hn. cbn [List.length] in Hn. specialize (IH ltac:(lia)).
      assert (E0 : text_words c = []).
      { rewrite text_words_chunk by (apply no_sep_spec; exact Hf). apply spans_of_nil in E. rewrite E. reflexivity. }
      pose proof (text_words_app c s u (proj2 (is_sep_spec s) Hs)) as Et. rewrite E0 in Et. cbn [app] in Et.
      destruct (a_find (chunks_off (split_seps u) (o + blen c + 1))) as [[sp|] a].
      * destruct IH as (g & w & r' & l & -> & -> & Hl & Hw & Hg & Hr). exists (c ++ s :: g), w, r', (map (shift_span (blen c + 1)) l).
        rewrite blen_app, blen_cons, (sep_clen s Hs). rewrite <- app_assoc. cbn [app].
        split; [reflexivity|]. split; [f_equal; lia|]. split.
        { rewrite Et, Hl. cbn [map]. f_equal. unfold shift_span. cbn [sp_start sp_end]. f_equal; lia. }
        split; [exact Hw|]. split.
        { apply Forall_app. split; [|constructor; [left; apply is_sep_spec; exact Hs|exact Hg]].
          apply commas_gap. apply chunk_words_nil. apply spans_of_nil in E. exact E. }
        replace (o + (blen c + (1 + blen g)) + blen w) with (o + blen c + 1 + blen g + blen w) by lia. exact Hr.
      * destruct IH as [-> IH]. split; [reflexivity|]. rewrite Et, IH. reflexivity.
    + apply spans_of_cons in E as (m & ws & E & -> & ->). destruct (chunk_head _ _ _ E) as (c' & -> & <-).
      exists [], m, (c' ++ s :: u). eexists. cbn [app blen]. rewrite N.add_0_r, N.add_0_l, <- app_assoc.
      split; [reflexivity|]. split; [reflexivity|]. split.
      { pose proof (text_words_app (m ++ c') s u (proj2 (is_sep_spec s) Hs)) as Et. rewrite <- app_assoc in Et. rewrite Et.
        rewrite text_words_chunk by (apply no_sep_spec; exact Hf). rewrite E. cbn [spans_of app]. rewrite N.add_0_l. reflexivity. }
      split; [pose proof (chunk_words_proper (m ++ c')) as Hp; rewrite E in Hp; apply Forall_inv in Hp; exact Hp|].
      split; [constructor|]. replace (o + blen (m ++ c') + 1) with (o + blen m + blen c' + 1) by (rewrite blen_app; lia).
      apply Forall_app in Hf as [_ Hf]. eapply rest_more; [reflexivity|exact Hf|exact Hs].
Qed.

(** [next] from any position of the text *)
Lemma next_rest o r a : rest_is o r a \/ fresh o r a ->
  match a_next a with
  | (None, a') => a' = ([], []) /\ text_words r = []
  | (Some sp, a') => exists g w r' l, r = g ++ w ++ r' /\ sp = mkspan (o + blen g) (o + blen g + blen w) /\
       text_words r = mkspan (blen g) (blen g + blen w) :: l /\ has_non_comma w /\ gap g /\
       rest_is (o + blen g + blen w) r' a'
  end.
Proof.
  assert (G : forall c0,
    match chunk_words c0 with
    | [] => True
    | m :: l => exists c', c0 = m ++ c' /\ chunk_words c' = l /\ has_non_comma m
    end).
  { intros c0. destruct (chunk_words c0) as [|m l] eqn:E; [exact I|].
    destruct (chunk_head _ _ _ E) as (c' & E1 & E2). exists c'. split; [exact E1|]. split; [exact E2|].
    pose proof (chunk_words_proper c0) as Hp. rewrite E in Hp. apply Forall_inv in Hp. exact Hp. }
  intros [H|H].
  - destruct H as [Hf|c s u -> Hf Hs].
    + specialize (G r). destruct (chunk_words r) as [|m l] eqn:E; cbn [spans_of a_next].
      * cbn [a_find]. split; [reflexivity|]. rewrite text_words_chunk by (apply no_sep_spec; exact Hf). rewrite E. reflexivity.
      * destruct G as (c' & -> & <- & Hm). exists [], m, c'. eexists. cbn [app blen]. rewrite N.add_0_r, N.add_0_l.
        split; [reflexivity|]. split; [reflexivity|].
        split; [rewrite text_words_chunk by (apply no_sep_spec; exact Hf); rewrite E; reflexivity|].
        split; [exact Hm|]. split; [constructor|]. apply rest_last. apply Forall_app in Hf. tauto.
    + specialize (G c). pose proof (text_words_app c s u (proj2 (is_sep_spec s) Hs)) as Et.
      destruct (chunk_words c) as [|m l] eqn:E; cbn [spans_of a_next].
      * pose proof (find_rest (List.length u) u (o + blen c + 1) (Nat.le_refl _)) as F.
        rewrite (text_words_chunk c) in Et by (apply no_sep_spec; exact Hf). rewrite E in Et. cbn [spans_of app] in Et.
        destruct (a_find (chunks_off (split_seps u) (o + blen c + 1))) as [[sp|] a'].
        -- destruct F as (g & w & r' & l & -> & -> & Hl & Hw & Hg & Hr).
           exists (c ++ s :: g), w, r', (map (shift_span (blen c + 1)) l).
           rewrite blen_app, blen_cons, (sep_clen s Hs). rewrite <- app_assoc. cbn [app].
           split; [reflexivity|]. split; [f_equal; lia|]. split.
           { rewrite Et, Hl. cbn [map]. f_equal. unfold shift_span. cbn [sp_start sp_end]. f_equal; lia. }
           split; [exact Hw|]. split.
           { apply Forall_app. split; [|constructor; [left; apply is_sep_spec; exact Hs|exact Hg]].
             apply commas_gap. apply chunk_words_nil. exact E. }
           replace (o + (blen c + (1 + blen g)) + blen w) with (o + blen c + 1 + blen g + blen w) by lia. exact Hr.
        -- destruct F as [-> F]. split; [reflexivity|]. rewrite Et, F. reflexivity.
      * destruct G as (c' & -> & <- & Hm). exists [], m, (c' ++ s :: u). eexists. cbn [app blen]. rewrite N.add_0_r, N.add_0_l, <- app_assoc.
        split; [reflexivity|]. split; [reflexivity|]. split.
        { rewrite <- app_assoc in Et. rewrite Et.
          rewrite text_words_chunk by (apply no_sep_spec; exact Hf). rewrite E. cbn [spans_of app]. rewrite N.add_0_l. reflexivity. }
        split; [exact Hm|]. split; [constructor|]. replace (o + blen (m ++ c') + 1) with (o + blen m + blen c' + 1) by (rewrite blen_app; lia).
        apply Forall_app in Hf as [_ Hf]. eapply rest_more; [reflexivity|exact Hf|exact Hs].
  - unfold fresh in H. subst a. cbn [a_next]. apply find_rest with (n := List.length r). lia.
Qed.
